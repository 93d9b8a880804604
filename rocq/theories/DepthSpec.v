(** Error of a downward recurrence that is started from zero (C101). *)
From Coq Require Import Reals.
Open Scope R_scope.

(** started at order n + d + 1, read at order n: one factor per order crossed *)
Fixpoint depth_error (m : R) (n d : nat) : R :=
  match d with
  | O => 2 * (m / INR (S n))
  | S d' => (m / (INR (2 * n + 3) - m)) ^ 2 * depth_error m (S n) d'
  end.
