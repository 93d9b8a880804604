(** Specification: the spherical Bessel functions themselves.

    j_n and y_n are the elementary functions given by
      j_0 = sin z / z,  j_1 = sin z / z^2 - cos z / z,
      y_0 = -cos z / z, y_1 = -cos z / z^2 - sin z / z,
    and f_(n+1) = (2n+1)/z f_n - f_(n-1); psi_n = z j_n, zeta_n = z (j_n + i y_n)
    are the Riccati-Bessel functions.  [BesselTrue] proves that the derivative
    formulas below are their complex derivatives.  Nothing here refers to the
    model. *)
From Coq Require Import Reals.
From Coquelicot Require Import Coquelicot.
From Verif Require Import CTrig.
Open Scope C_scope.

Fixpoint three_term (f0 f1 : C) (z : C) (n : nat) : C * C :=   (* (f_n, f_(n+1)) *)
  match n with
  | O => (f0, f1)
  | S m => let (a, b) := three_term f0 f1 z m in (b, RtoC (INR (2 * m + 3)) / z * b - a)
  end.
Definition true_j (n : nat) (z : C) : C := fst (three_term (Csin z / z) (Csin z / (z * z) - Ccos z / z) z n).
Definition true_y (n : nat) (z : C) : C := fst (three_term (- (Ccos z / z)) (- (Ccos z / (z * z)) - Csin z / z) z n).
Definition true_psi (n : nat) (z : C) : C := z * true_j n z.
Definition true_zeta (n : nat) (z : C) : C := z * (true_j n z + Ci * true_y n z).
(* derivatives (n >= 1), proved to be such in BesselTrue *)
Definition true_dpsi (n : nat) (z : C) : C := true_psi (n - 1) z - RtoC (INR n) / z * true_psi n z.
Definition true_dzeta (n : nat) (z : C) : C := true_zeta (n - 1) z - RtoC (INR n) / z * true_zeta n z.
