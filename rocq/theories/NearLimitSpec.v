(** Statements about the limit n_add -> infinity of the near fields. *)
From Coq Require Import Reals List Arith.
From Coquelicot Require Import Coquelicot.
From Verif Require Import Ops ROps Spec StackSpec CTrig BesselSpec ConvergeSpec ModelSpecial ModelMie ModelNear NearSpec MaxwellSpec.
Import ListNotations.
Open Scope C_scope.

Definition tends_amps (u : nat -> @amps R) (A : @amps R) : Prop :=
  tends (fun k => na (u k)) (na A) /\ tends (fun k => nb (u k)) (nb A) /\ tends (fun k => nc (u k)) (nc A) /\ tends (fun k => nd (u k)) (nd A).
Definition tends_vec (u : nat -> @vec3 R) (v : @vec3 R) : Prop :=
  tends (fun k => v1 (u k)) (v1 v) /\ tends (fun k => v2 (u k)) (v2 v) /\ tends (fun k => v3 (u k)) (v3 v).
(* multishell.py:1125-1126 in the limit: psi_n and zeta_n at the layer boundaries stay below 1/e *)
Definition regular_near (e : R) (layers : list (C * C)) (n : nat) : Prop :=
  forall i, (i < length layers)%nat -> let z := index_at layers i * size_at layers i in
    (e * Cmod (true_psi n z)%C < 1)%R /\ (e * Cmod (true_zeta n z)%C < 1)%R.
(* the exact boundary-value problem of order n: regular core, unit incident
   wave outside, tangential fields continuous at every interface, for the
   true Riccati-Bessel functions *)
Definition near_solution (n : nat) (l0 : C * C) (rest : list (C * C)) (As : list (@amps R)) : Prop :=
  length As = S (S (length rest)) /\
  (na (nth 0 As amp0) = RtoC 0 /\ nb (nth 0 As amp0) = RtoC 0) /\
  (nc (nth (S (length rest)) As amp0) = RtoC 1 /\ nd (nth (S (length rest)) As amp0) = RtoC 1) /\
  forall tm i, (i <= length rest)%nat ->
    interface_ok tm (size_at (l0 :: rest) i) (true_rf n) (index_at (l0 :: rest) i) (pair_of tm (nth i As amp0))
      (true_rf n) (index_at (l0 :: rest) (S i)) (pair_of tm (nth (S i) As amp0)).
