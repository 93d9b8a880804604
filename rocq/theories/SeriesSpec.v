(** Convergence of the multipole series as the number of orders grows (C86).  No reference to the model. *)
From Coq Require Import Reals List Arith.
From Coquelicot Require Import Coquelicot.
From Verif Require Import Spec ModelNear NearSpec MaxwellSpec NearLimitSpec.
Import ListNotations.
Open Scope R_scope.

(* no layer has a negative real relative permittivity: a lossless layer is a dielectric *)
Definition no_lossless_metal (layers : list (C * C)) : Prop :=
  forall i, (i < length layers)%nat -> let eps := (index_at layers i * index_at layers i)%C in snd eps = 0 -> 0 < fst eps.
(* the amplitudes of all orders n >= 1 *)
Definition all_orders (l0 : C * C) (rest : list (C * C)) (As : nat -> list (@amps R)) : Prop :=
  forall n, (1 <= n)%nat -> near_solution n l0 rest (As n).
(* |u_N - l| = O(q^N) for every q > 0: faster than any geometric sequence *)
Definition fast_to (u : nat -> R) (l : R) : Prop := forall q, 0 < q < 1 -> exists K, 0 < K /\ forall N, Rabs (u N - l) <= K * q ^ N.
(* the same for a family of complex sequences, uniformly *)
Definition fast_all {I : Type} (u : I -> nat -> C) (l : I -> C) : Prop :=
  forall q, 0 < q < 1 -> exists K, 0 < K /\ forall i N, Cmod (u i N - l i)%C <= K * q ^ N.
(* radial arguments of region i: those of its own points, m_i s with the real size parameter s between those of the
   boundaries, and also complex numbers whose modulus lies strictly between those of the boundary values *)
Definition in_layer (layers : list (C * C)) (i : nat) (rho : C) : Prop :=
  let m := index_at layers i in
  (exists s, 0 < s /\ rho = (m * RtoC s)%C /\ match i with O => True | S j => fst (size_at layers j) <= s end /\ ((i < length layers)%nat -> s <= fst (size_at layers i))) \/
  (rho <> RtoC 0 /\ match i with O => True | S j => Cmod (m * size_at layers j)%C < Cmod rho end /\ ((i < length layers)%nat -> Cmod rho < Cmod (m * size_at layers i)%C)).
(* vector fields on the sphere of directions (theta, phi), computed from the orders 1..N: uniform convergence of all components *)
Definition fast_field (u : nat -> R -> R -> cvec) (l : R -> R -> cvec) : Prop :=
  forall c : cvec -> C, c = c_r \/ c = c_th \/ c = c_ph -> fast_all (fun d N => c (u N (fst d) (snd d))) (fun d : R * R => c (l (fst d) (snd d))).
