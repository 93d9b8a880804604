(** Small independent vocabulary used in the statements of the properties.
    Nothing here refers to the model. *)
From Coq Require Import Reals List.
From Coquelicot Require Import Coquelicot.
Open Scope R_scope.

(* f 1 + ... + f n *)
Fixpoint sum1 (f : nat -> R) (n : nat) : R :=
  match n with O => 0 | S m => sum1 f m + f (S m) end.
Fixpoint csum1 (f : nat -> C) (n : nat) : C :=
  match n with O => RtoC 0 | S m => Cplus (csum1 f m) (f (S m)) end.

(* Legendre polynomials, by Bonnet's recurrence, (P_n, P_{n+1}) *)
Fixpoint legendre2 (x : R) (n : nat) : R * R :=
  match n with
  | O => (1, x)
  | S m => let (p, q) := legendre2 x m in
           (q, ((2 * INR m + 3) * x * q - (INR m + 1) * p) / (INR m + 2))
  end.
Definition legendre (n : nat) (x : R) : R := fst (legendre2 x n).

(* the safeguard "where(|x| < eps, x + eps, x)" leaves x untouched *)
Definition no_guard (eps : R) (x : C) : Prop := eps <= Cmod x.
Arguments no_guard eps%R x%C.

(* (2n+1)!! = 1 * 3 * ... * (2n+1) *)
Fixpoint odd_dfact (n : nat) : R :=
  match n with O => 1 | S m => INR (2 * n + 1) * odd_dfact m end.
(* z^n *)
Fixpoint Cpow_n (z : C) (n : nat) : C := match n with O => RtoC 1 | S m => Cmult z (Cpow_n z m) end.
