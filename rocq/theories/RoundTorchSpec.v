(** Specification for C107; the smoothness conditions are those of C106. *)
From Coq Require Import Reals List Arith.
From Coquelicot Require Import Coquelicot.
From Verif Require Import Ops ROps ModelSpecial ModelMie ModelBatch ModelRound RoundSpec.

(* all eight coefficients approach those of [c] *)
Definition settles_coeffs (q : arithmetic -> @coeffs R) (c : @coeffs R) : Prop :=
  let st (g : @coeffs R -> C) := csettles (fun A => g (q A)) (g c) in
  (st an /\ st bn) /\ (st cn /\ st dn /\ st fn /\ st gn /\ st vn /\ st wn).
(* a recurrence depth that every sufficiently precise arithmetic finds *)
Definition agreed (q : arithmetic -> nat) (d : nat) : Prop := eventually (fun A => q A = d).
(* int() of a stored number involves no rounding *)
Definition truncates (A : arithmetic) : Prop := forall x, @rtrunc R (ar_ops A) x = Rtrunc x.
(* the automatic depth of special.py:756-759 in the arithmetic A, for one argument *)
Definition depth_in (O : RealOps R) (z : C) : nat := @n_add_auto R O (@cabs R O z).
Definition off_step (z : C) : Prop := forall i : Z, (3 / 2 * Cmod z)%R <> IZR i.
