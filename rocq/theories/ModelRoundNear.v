(** The near fields of the pena backend in rounded arithmetic: the functions of
    ModelNear.v on the operations of an arbitrary machine arithmetic, as in
    ModelRound.v.  torch.sqrt of a complex number is one operation of its own.
    Simplifications: those of ModelRound.v. *)
From Coq Require Import Reals ZArith List Bool.
From Coquelicot Require Import Coquelicot.
From Verif Require Import Ops ROps ModelSpecial ModelMie ModelNear ModelRound.
Import ListNotations.

(* helper.py:236-258; e10 is 10 times the machine epsilon *)
Definition round_point (A : arithmetic) (e10 x y z : R) : @point R :=
  let '(r, th, ph) := @xyz_to_sph R (ar_ops A) e10 x y z in {| pt_r := r; pt_theta := th; pt_phi := ph |}.

Section Near.
  Variables (A : arithmetic) (n_max n_add : nat) (k0 : R) (eps_env : C) (core : R * C) (shells : list (R * C)) (E0 : C) (P : @point R).
  Notation O := (ar_ops A).
  Let L := length (@radii R core shells).
  (* multishell.py:1188-1193, cf. [n_medium] *)
  Definition round_medium (li : nat) : C := if Nat.eqb li L then ar_root A eps_env else ar_root A (snd (nth li (core :: shells) core)).
  (* multishell.py:1060-1160, cf. [amplitudes] *)
  Definition round_amplitudes (n : nat) : list (@amps R) := @near_amps R O n_max n_add (round_layer A k0 eps_env core) (map (round_layer A k0 eps_env) shells) n.
  (* special.py:1486-1540 *)
  Definition round_vsh (li : nat) (kind3 : bool) (n : nat) : @vsh_t R := @vsh_pena R O n_max n_add k0 (round_medium li) (pt_r P) (pt_theta P) (pt_phi P) kind3 n.
  (* multishell.py:1238-1255, cf. [E_order], [H_order] *)
  Definition round_E_order (li n : nat) : @vec3 R := @E_region R O E0 (Nat.eqb li L) (nth li (round_amplitudes n) (@amp0 R O)) (round_vsh li false n) (round_vsh li true n) n.
  Definition round_H_order (li n : nat) : @vec3 R := @H_region R O E0 (round_medium li) (Nat.eqb li L) (nth li (round_amplitudes n) (@amp0 R O)) (round_vsh li false n) (round_vsh li true n) n.
  (* multishell.py:1228-1269; [to_cartesian] is the polymorphic code *)
  Definition round_E_s : @vec3 R := @to_cartesian R O n_max core shells P round_E_order.
  Definition round_H_s : @vec3 R := @to_cartesian R O n_max core shells P round_H_order.
  (* multishell.py:1271-1276 *)
  Definition round_phase : C :=
    @cexp R O (@cmul R O (@cmul R O (@cmul R O (@ci R O) (round_k A k0 eps_env)) (@cofr R O (pt_r P))) (@cofr R O (@rcos R O (pt_theta P)))).
  Definition round_E_i : @vec3 R := (@cmul R O E0 round_phase, @czero R O, @czero R O).
  Definition round_H_i : @vec3 R := (@czero R O, @cmul R O (@cmul R O E0 (ar_root A eps_env)) round_phase, @czero R O).
  (* multishell.py:1278-1282 *)
  Definition round_E_t : @vec3 R := if @outside R O core shells P then @vadd R O round_E_s round_E_i else round_E_s.
  Definition round_H_t : @vec3 R := if @outside R O core shells P then @vadd R O round_H_s round_H_i else round_H_s.
End Near.
