(** Electrostatics of a layered sphere (C96).  No reference to the model.

    In region i the potential of order n is (A r^n + B r^-(n+1)) P_n(cos theta).
    It is regular at the centre, has unit applied part outside, and the
    potential and the normal displacement eps dphi/dr are continuous at every
    interface; eps = m^2 is the permittivity relative to the environment. *)
From Coq Require Import Reals List Arith.
From Coquelicot Require Import Coquelicot.
From Verif Require Import Spec NearSpec.
Import ListNotations.
Open Scope C_scope.

Definition potential (n : nat) (AB : C * C) (r : C) : C := fst AB * Cpow_n r n + snd AB / Cpow_n r (n + 1).
(* r dphi/dr *)
Definition slope (n : nat) (AB : C * C) (r : C) : C :=
  RtoC (INR n) * (fst AB * Cpow_n r n) - RtoC (INR (n + 1)) * (snd AB / Cpow_n r (n + 1)).
Definition static_solution (n : nat) (l0 : C * C) (rest : list (C * C)) (P : nat -> C * C) : Prop :=
  snd (P 0%nat) = RtoC 0 /\ fst (P (S (length rest))) = RtoC 1 /\
  forall i, (i <= length rest)%nat ->
    let r := size_at (l0 :: rest) i in let m := index_at (l0 :: rest) i in let m' := index_at (l0 :: rest) (S i) in
    potential n (P i) r = potential n (P (S i)) r /\ m * m * slope n (P i) r = m' * m' * slope n (P (S i)) r.
(* induced multipole of the particle: the decaying part of the outer potential *)
Definition induced (rest : list (C * C)) (P : nat -> C * C) : C := snd (P (S (length rest))).

(* the stack with all sizes multiplied by t: radii times the wavenumber *)
Definition scaled (t : R) (l : C * C) : C * C := (fst l, RtoC t * snd l).
Definition nonzero_stack (layers : list (C * C)) : Prop :=
  forall i, (i < length layers)%nat -> index_at layers i <> RtoC 0 /\ size_at layers i <> RtoC 0.
(* leading coefficient of a_n: i (n+1) / (n (2n+1)!! (2n-1)!!) *)
Definition leading (n : nat) : C := Ci * RtoC (INR (n + 1) / (INR n * odd_dfact n * odd_dfact (n - 1))).
(* coated sphere, dipole: Bohren-Huffman (5.36) with f = (r1/r2)^3 *)
Definition coated (e1 e2 r1 r2 : C) : C :=
  let f := Cpow_n r1 3 / Cpow_n r2 3 in
  ((e2 - RtoC 1) * (e1 + RtoC 2 * e2) + f * (e1 - e2) * (RtoC 1 + RtoC 2 * e2)) / ((e2 + RtoC 2) * (e1 + RtoC 2 * e2) + f * (RtoC 2 * e2 - RtoC 2) * (e1 - e2)).
