(** Specification for the differentiability theorems (C83): what it means that a
    dual number carries the derivative of a quantity that depends on a real
    parameter t, and where the pena algorithm is smooth: no guarded denominator
    lies exactly on the 1e-30 switching threshold of its torch.where. *)
From Coq Require Import Reals List Arith.
From Coquelicot Require Import Coquelicot.
From Verif Require Import Ops ROps Spec CTrig ModelSpecial ModelMie ModelGrad.
Import ListNotations.
Open Scope C_scope.
Arguments Cmod x%C_scope.

(* d holds the value and the derivative of f at t0 *)
Definition carries (t0 : R) (f : R -> R) (d : dual) : Prop := f t0 = fst d /\ is_derive f t0 (snd d).
Definition ccarries (t0 : R) (f : R -> C) (d : cplx dual) : Prop :=
  carries t0 (fun t => fst (f t)) (fst d) /\ carries t0 (fun t => snd (f t)) (snd d).
Definition carries_layer (t0 : R) (f : R -> C * C) (d : cplx dual * cplx dual) : Prop :=
  ccarries t0 (fun t => fst (f t)) (fst d) /\ ccarries t0 (fun t => snd (f t)) (snd d).
Definition carries_shell (t0 : R) (f : R -> R * C) (d : dual * cplx dual) : Prop :=
  carries t0 (fun t => fst (f t)) (fst d) /\ ccarries t0 (fun t => snd (f t)) (snd d).

(* the principal square root is smooth away from its cut *)
Definition off_cut (z : C) : Prop := (0 < fst z)%R \/ snd z <> 0%R.

Section Smooth.
  Variables (n_max n_add : nat).
  Notation D1 := (@pD1 R ROps n_max n_add).
  Notation D3 := (@pD3 R ROps n_max n_add).
  Notation psi := (@ppsi R ROps n_max n_add).
  Notation zeta := (@pzeta R ROps n_max n_add).
  Notation Qn := (@pQ R ROps n_max n_add).
  Notation e30 := (@eps30 R ROps).
  Notation gd := (@guard R ROps e30).

  Definition off (z : C) : Prop := Cmod z <> e30.
  (* special.py:494, 499-501 (all steps of the downward recurrence), 558-560 *)
  Definition smooth_arg (z : C) (n : nat) : Prop :=
    off z /\ (forall j, (1 <= j <= n_max + n_add)%nat -> off (D1 z j + RtoC (INR j) / gd z)) /\
    forall j, (1 <= j <= n)%nat -> off (fst (@d3_state R ROps e30 z (D1 z) j)).
  (* special.py:616-638 *)
  Definition smooth_ratio (z1 z2 x2 : C) (n : nat) : Prop :=
    off x2 /\ off (Cexp (- RtoC 2 * Ci * RtoC (fst z2)) - RtoC (exp (- 2 * snd z2))) /\
    forall j, (1 <= j <= n)%nat -> off ((z1 * D1 z1 j + RtoC (INR j)) * (RtoC (INR j) - z1 * D3 z1 (j - 1))).
  (* multishell.py:366, 375 *)
  Definition smooth_layer (lm1 l H : C * C) (n : nat) : Prop :=
    let z_prev := fst l * snd lm1 in let z_curr := fst l * snd l in
    let Q := Qn z_prev z_curr (snd lm1) (snd l) n in
    smooth_arg z_prev n /\ smooth_arg z_curr n /\ smooth_ratio z_prev z_curr (snd l) n /\
    off ((fst l * fst H - fst lm1 * D3 z_prev n) - Q * (fst l * fst H - fst lm1 * D1 z_prev n)) /\
    off ((fst lm1 * snd H - fst l * D3 z_prev n) - Q * (fst lm1 * snd H - fst l * D1 z_prev n)).
  Fixpoint smooth_layers (lm1 : C * C) (rest : list (C * C)) (H : C * C) (n : nat) : Prop :=
    match rest with
    | [] => True
    | l :: rest' => smooth_layer lm1 l H n /\ smooth_layers l rest' (@pena_layer R ROps n_max n_add lm1 l H n) n
    end.
  (* multishell.py:390-403 *)
  Definition smooth_final (lL H : C * C) (n : nat) : Prop :=
    let mL := fst lL in let xL := snd lL in
    mL <> 0 /\ smooth_arg xL n /\
    off ((fst H / mL + RtoC (INR n) / gd xL) * zeta xL n - zeta xL (n - 1)) /\
    off ((mL * snd H + RtoC (INR n) / gd xL) * zeta xL n - zeta xL (n - 1)).
  Definition smooth_stack (l0 : C * C) (rest : list (C * C)) (n : nat) : Prop :=
    smooth_arg (fst l0 * snd l0) n /\
    smooth_layers l0 rest (@pena_first R ROps n_max n_add l0 n) n /\
    smooth_final (last rest l0) (@pena_H R ROps n_max n_add l0 rest n) n.
End Smooth.

(* one particle at one wavelength, all orders up to n_max; 15 is the recurrence depth of the code *)
Definition smooth_particle (n_max : nat) (k0 : R) (env : C) (core : R * C) (shells : list (R * C)) : Prop :=
  off_cut env /\ off_cut (snd core) /\ List.Forall (fun s => off_cut (snd s)) shells /\
  forall n, (1 <= n <= n_max)%nat ->
    smooth_stack n_max 15 (@layer_of R ROps k0 env core) (map (@layer_of R ROps k0 env) shells) n.
