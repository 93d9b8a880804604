(** "No denominator safeguard fires" for one order of the Pena algorithm.

    Each condition is the negation of one torch.where(|den| < 1e-30, ...) of
    special.py / multishell.py (cited), so the hypotheses say exactly that every
    safeguard reached while computing order n returns its argument unchanged. *)
From Coq Require Import Reals List Arith.
From Coquelicot Require Import Coquelicot.
From Verif Require Import Ops ROps Spec StackSpec CTrig ModelSpecial ModelMie.
Import ListNotations.
Open Scope C_scope.

Section Quiet.
  Variables (n_max n_add : nat).
  Notation D1 := (@pD1 R ROps n_max n_add).
  Notation D3 := (@pD3 R ROps n_max n_add).
  Notation psi := (@ppsi R ROps n_max n_add).
  Notation zeta := (@pzeta R ROps n_max n_add).
  Notation Qn := (@pQ R ROps n_max n_add).
  Notation e30 := (@eps30 R ROps).

  (* special.py:494 (z), 499-501 (D1 denominators), 558-560 (psi*zeta) *)
  Definition quiet_arg (z : C) (n : nat) : Prop :=
    no_guard e30 z /\
    forall j, (1 <= j <= n)%nat ->
      no_guard e30 (D1 z j + RtoC (INR j) / z) /\ no_guard e30 (psi z j * zeta z j).
  (* special.py:616-638: x2, the order-0 denominator and all order denominators of pena_Q_n *)
  Definition quiet_ratio (z1 z2 x2 : C) (n : nat) : Prop :=
    no_guard e30 x2 /\
    no_guard e30 (Cexp (- RtoC 2 * Ci * RtoC (fst z2)) - RtoC (exp (- 2 * snd z2))) /\
    forall j, (1 <= j <= n)%nat ->
      no_guard e30 ((z1 * D1 z1 j + RtoC (INR j)) * (RtoC (INR j) - z1 * D3 z1 (j - 1))).
  (* multishell.py:366, 375: the two layer denominators *)
  Definition quiet_layer (lm1 l : C * C) (H : C * C) (n : nat) : Prop :=
    let z_prev := fst l * snd lm1 in
    let z_curr := fst l * snd l in
    let Q := Qn z_prev z_curr (snd lm1) (snd l) n in
    quiet_arg z_prev n /\ quiet_arg z_curr n /\ quiet_ratio z_prev z_curr (snd l) n /\
    no_guard e30 ((fst l * fst H - fst lm1 * D3 z_prev n) - Q * (fst l * fst H - fst lm1 * D1 z_prev n)) /\
    no_guard e30 ((fst lm1 * snd H - fst l * D3 z_prev n) - Q * (fst lm1 * snd H - fst l * D1 z_prev n)).
  Fixpoint quiet_layers (lm1 : C * C) (rest : list (C * C)) (H : C * C) (n : nat) : Prop :=
    match rest with
    | [] => True
    | l :: rest' => quiet_layer lm1 l H n /\ quiet_layers l rest' (@pena_layer R ROps n_max n_add lm1 l H n) n
    end.
  (* multishell.py:390-403 *)
  Definition quiet_final (lL : C * C) (H : C * C) (n : nat) : Prop :=
    let mL := fst lL in let xL := snd lL in
    quiet_arg xL n /\
    no_guard e30 ((fst H / mL + RtoC (INR n) / xL) * zeta xL n - zeta xL (n - 1)) /\
    no_guard e30 ((mL * snd H + RtoC (INR n) / xL) * zeta xL n - zeta xL (n - 1)).
  Definition quiet_stack (l0 : C * C) (rest : list (C * C)) (n : nat) : Prop :=
    quiet_arg (fst l0 * snd l0) n /\
    quiet_layers l0 rest (@pena_first R ROps n_max n_add l0 n) n /\
    quiet_final (last rest l0) (@pena_H R ROps n_max n_add l0 rest n) n.

  (* the radial functions the algorithm works with: recurrence values and
     their logarithmic derivatives inside the layers (Eqs. psi' = D1 psi,
     zeta' = D3 zeta), and the order recurrence psi_n' = psi_(n-1) - (n/x) psi_n
     in the exterior, as used by the final formulas *)
  Definition rf_in (n : nat) : radfun :=
    {| rf_psi := fun z => psi z n; rf_zeta := fun z => zeta z n;
       rf_dpsi := fun z => D1 z n * psi z n; rf_dzeta := fun z => D3 z n * zeta z n |}.
  Definition rf_out (n : nat) : radfun :=
    {| rf_psi := fun z => psi z n; rf_zeta := fun z => zeta z n;
       rf_dpsi := fun z => psi z (n - 1) - RtoC (INR n) / z * psi z n;
       rf_dzeta := fun z => zeta z (n - 1) - RtoC (INR n) / z * zeta z n |}.
End Quiet.
