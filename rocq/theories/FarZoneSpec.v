(** Limits at infinity of complex functions of the distance r (C80).  No reference to the model. *)
From Coq Require Import Reals.
From Coquelicot Require Import Coquelicot.
Open Scope C_scope.

Definition far (f : R -> C) (l : C) : Prop :=
  forall eps : R, (0 < eps)%R -> exists M : R, forall r : R, (M < r)%R -> (Cmod (f r - l)%C < eps)%R.
