(** Automatic differentiation of the near fields of the pena backend: the
    functions of ModelNear.v on (value, tangent) pairs, as in ModelGrad.v.  The
    complex square roots are single operations with their own derivative
    ([dsqrt]); everything else is the polymorphic code itself. *)
From Coq Require Import Reals ZArith List Bool.
From Coquelicot Require Import Coquelicot.
From Verif Require Import Ops ROps ModelSpecial ModelMie ModelNear ModelGrad.
Import ListNotations.

(* helper.py:236-258 on dual numbers; the machine constant carries no derivative *)
Definition grad_point (e10 : R) (x y z : dual) : @point dual :=
  let '(r, th, ph) := @xyz_to_sph dual DOps (e10, 0%R) x y z in {| pt_r := r; pt_theta := th; pt_phi := ph |}.

Section Near.
  Variables (n_max n_add : nat) (k0 : dual) (eps_env : cplx dual) (core : dual * cplx dual) (shells : list (dual * cplx dual)) (E0 : cplx dual) (P : @point dual).
  Let L := length (radii core shells).
  (* multishell.py:1188-1193, cf. [n_medium] *)
  Definition grad_medium (li : nat) : cplx dual := if Nat.eqb li L then dsqrt eps_env else dsqrt (snd (nth li (core :: shells) core)).
  (* multishell.py:1060-1160, cf. [amplitudes] *)
  Definition grad_amplitudes (n : nat) : list (@amps dual) := near_amps n_max n_add (grad_layer k0 eps_env core) (map (grad_layer k0 eps_env) shells) n.
  Definition grad_vsh (li : nat) (kind3 : bool) (n : nat) : @vsh_t dual := vsh_pena n_max n_add k0 (grad_medium li) (pt_r P) (pt_theta P) (pt_phi P) kind3 n.
  (* multishell.py:1238-1255, cf. [E_order], [H_order] *)
  Definition grad_E_order (li n : nat) : @vec3 dual := E_region E0 (Nat.eqb li L) (nth li (grad_amplitudes n) amp0) (grad_vsh li false n) (grad_vsh li true n) n.
  Definition grad_H_order (li n : nat) : @vec3 dual := H_region E0 (grad_medium li) (Nat.eqb li L) (nth li (grad_amplitudes n) amp0) (grad_vsh li false n) (grad_vsh li true n) n.
  (* multishell.py:1228-1269; [to_cartesian] is the polymorphic code *)
  Definition grad_E_s : @vec3 dual := to_cartesian n_max core shells P grad_E_order.
  Definition grad_H_s : @vec3 dual := to_cartesian n_max core shells P grad_H_order.
  (* multishell.py:1271-1276 *)
  Definition grad_phase : cplx dual := cexp (cmul (cmul (cmul ci (grad_k k0 eps_env)) (cofr (pt_r P))) (cofr (rcos (pt_theta P)))).
  Definition grad_E_i : @vec3 dual := (cmul E0 grad_phase, czero, czero).
  Definition grad_H_i : @vec3 dual := (czero, cmul (cmul E0 (dsqrt eps_env)) grad_phase, czero).
  (* multishell.py:1278-1282 *)
  Definition grad_E_t : @vec3 dual := if outside core shells P then vadd grad_E_s grad_E_i else grad_E_s.
  Definition grad_H_t : @vec3 dual := if outside core shells P then vadd grad_H_s grad_H_i else grad_H_s.
End Near.
