(** Specification for the convergence theorems (C17, C18): limits of sequences,
    logarithmic derivatives of the true Riccati-Bessel functions, and the
    regularity conditions "every denominator of the exact problem exceeds the
    1e-30 threshold of the code's safeguards".  No reference to the model. *)
From Coq Require Import Reals List Arith.
From Coquelicot Require Import Coquelicot.
From Verif Require Import Spec CTrig BesselSpec StackSpec.
Import ListNotations.
Open Scope C_scope.
Arguments Cmod x%C_scope.

Definition tends (u : nat -> C) (l : C) : Prop :=
  forall eps : R, (0 < eps)%R -> exists M, forall N, (M <= N)%nat -> (Cmod (u N - l)%C < eps)%R.

(* psi_n' / psi_n and zeta_n' / zeta_n (for all n >= 0) *)
Definition true_L1 (n : nat) (z : C) : C := RtoC (INR (S n)) / z - true_psi (S n) z / true_psi n z.
Definition true_L3 (n : nat) (z : C) : C := RtoC (INR (S n)) / z - true_zeta (S n) z / true_zeta n z.
(* the true radial functions of order n *)
Definition true_rf (n : nat) : radfun :=
  {| rf_psi := true_psi n; rf_zeta := true_zeta n; rf_dpsi := true_dpsi n; rf_dzeta := true_dzeta n |}.

Section Regular.
  Variable e : R.          (* the safeguard threshold *)
  (* z is not tiny and no psi_k vanishes (relative to psi_(k+1)) up to the
     turning point k ~ |z|, and psi_j zeta_j is not tiny for j <= n *)
  Definition regular_from (z : C) (n : nat) : Prop :=
    (e <= Cmod z)%R /\
    forall k, (n < k)%nat -> (INR k < Cmod z + 1)%R -> (e * Cmod (true_psi k z)%C < Cmod (true_psi (k - 1) z)%C)%R.
  Definition regular_arg (z : C) (n : nat) : Prop :=
    regular_from z 0 /\ forall j, (1 <= j <= n)%nat -> (e < Cmod (true_psi j z * true_zeta j z)%C)%R.
  Definition true_Q (z1 z2 : C) (n : nat) : C :=
    true_psi n z1 * true_zeta n z2 / (true_zeta n z1 * true_psi n z2).
  Definition regular_ratio (z1 z2 x2 : C) (n : nat) : Prop :=
    (e <= Cmod x2)%R /\
    (e <= Cmod (Cexp (- RtoC 2 * Ci * RtoC (fst z2))%C - RtoC (exp (- 2 * snd z2)))%C)%R /\
    forall j, (1 <= j <= n)%nat ->
      (e < Cmod ((z1 * true_L1 j z1 + RtoC (INR j)) * (RtoC (INR j) - z1 * true_L3 (j - 1) z1))%C)%R.

  (* exact layer recursion of the surface admittances (H_a, H_b) *)
  Definition exact_first (l : C * C) (n : nat) : C * C := (true_L1 n (fst l * snd l), true_L1 n (fst l * snd l)).
  Definition exact_den (u v h : C) (z_prev z_curr : C) (n : nat) : C :=
    (u * h - v * true_L3 n z_prev) - true_Q z_prev z_curr n * (u * h - v * true_L1 n z_prev).
  Definition exact_num (u v h : C) (z_prev z_curr : C) (n : nat) : C :=
    (u * h - v * true_L3 n z_prev) * true_L1 n z_curr
    - true_Q z_prev z_curr n * (u * h - v * true_L1 n z_prev) * true_L3 n z_curr.
  Definition exact_layer (lm1 l H : C * C) (n : nat) : C * C :=
    let zp := fst l * snd lm1 in let zc := fst l * snd l in
    (exact_num (fst l) (fst lm1) (fst H) zp zc n / exact_den (fst l) (fst lm1) (fst H) zp zc n,
     exact_num (fst lm1) (fst l) (snd H) zp zc n / exact_den (fst lm1) (fst l) (snd H) zp zc n).
  Fixpoint exact_layers (lm1 : C * C) (rest : list (C * C)) (H : C * C) (n : nat) : C * C :=
    match rest with
    | [] => H
    | l :: rest' => exact_layers l rest' (exact_layer lm1 l H n) n
    end.
  Definition regular_layer (lm1 l H : C * C) (n : nat) : Prop :=
    let zp := fst l * snd lm1 in let zc := fst l * snd l in
    regular_arg zp n /\ regular_arg zc n /\ regular_ratio zp zc (snd l) n /\
    (e < Cmod (exact_den (fst l) (fst lm1) (fst H) zp zc n)%C)%R /\
    (e < Cmod (exact_den (fst lm1) (fst l) (snd H) zp zc n)%C)%R.
  Fixpoint regular_layers (lm1 : C * C) (rest : list (C * C)) (H : C * C) (n : nat) : Prop :=
    match rest with
    | [] => True
    | l :: rest' => regular_layer lm1 l H n /\ regular_layers l rest' (exact_layer lm1 l H n) n
    end.
  (* exterior: h zeta_n - zeta_n' *)
  Definition regular_final (lL H : C * C) (n : nat) : Prop :=
    regular_arg (snd lL) n /\
    (e < Cmod ((fst H / fst lL) * true_zeta n (snd lL) - true_dzeta n (snd lL))%C)%R /\
    (e < Cmod ((fst lL * snd H) * true_zeta n (snd lL) - true_dzeta n (snd lL))%C)%R.
  Definition regular_stack (l0 : C * C) (rest : list (C * C)) (n : nat) : Prop :=
    regular_arg (fst l0 * snd l0) n /\
    regular_layers l0 rest (exact_first l0 n) n /\
    regular_final (last rest l0) (exact_layers l0 rest (exact_first l0 n) n) n.
End Regular.

(* Bohren-Huffman (4.56), (4.57): homogeneous sphere, relative index m, size x *)
Definition bh_a (m x : C) (n : nat) : C :=
  (m * true_psi n (m * x) * true_dpsi n x - true_psi n x * true_dpsi n (m * x))
  / (m * true_psi n (m * x) * true_dzeta n x - true_zeta n x * true_dpsi n (m * x)).
Definition bh_b (m x : C) (n : nat) : C :=
  (true_psi n (m * x) * true_dpsi n x - m * true_psi n x * true_dpsi n (m * x))
  / (true_psi n (m * x) * true_dzeta n x - m * true_zeta n x * true_dpsi n (m * x)).
