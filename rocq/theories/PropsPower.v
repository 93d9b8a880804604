(** Property C81: energy balance of the near fields. *)
From Coq Require Import Reals ZArith Lra Lia List Arith.
From Coquelicot Require Import Coquelicot.
From Verif Require Import Ops ROps Spec StackSpec CTrig BesselSpec ConvergeSpec ModelSpecial ModelMie ModelNear MaxwellSpec PowerSpec PowerFlux.
Import ListNotations.
Open Scope R_scope.

(** C81: in a lossless environment, the scattered expansion of [nearfields] carries through every sphere around the particle
    exactly the power mr |E0|^2 C_sca, with C_sca as computed by [cross_sections] from the same coefficients. *)
Theorem C81_scattered_power : forall (k0 mr : R) (E0 : C) (A : nat -> @amps R) (N : nat) (r : R), 0 < k0 -> 0 < mr -> 0 < r ->
  sphere_power (true_E k0 (RtoC mr) E0 true A N) (true_H k0 (RtoC mr) E0 true A N) r
    (mr * (Cmod E0)² * @cs_sca R ROps N (RtoC (k0 * mr)) (fun n => na (A n)) (fun n => nb (A n))).
Proof. exact scattered_power. Qed.
Print Assumptions C81_scattered_power.
(** C81: the total expansion (unit incident amplitudes) brings exactly mr |E0|^2 C_abs into every such sphere. *)
Theorem C81_absorbed_power : forall (k0 mr : R) (E0 : C) (A : nat -> @amps R) (N : nat) (r : R), 0 < k0 -> 0 < mr -> 0 < r ->
  (forall n, nc (A n) = RtoC 1 /\ nd (A n) = RtoC 1) ->
  sphere_power (true_E k0 (RtoC mr) E0 false A N) (true_H k0 (RtoC mr) E0 false A N) r
    (- (mr * (Cmod E0)² * @cs_abs R ROps N (RtoC (k0 * mr)) (fun n => na (A n)) (fun n => nb (A n)))).
Proof. exact absorbed_power. Qed.
Print Assumptions C81_absorbed_power.
(* one electric dipole, a_1 = 1/2: Re a - |a|^2 = 1/4, so that the absorbed power is positive *)
Example C81_instance : let A (n : nat) : @amps R := {| na := RtoC (1/2); nb := RtoC 0; nc := RtoC 1; nd := RtoC 1 |} in
  (forall n, nc (A n) = RtoC 1 /\ nd (A n) = RtoC 1) /\
  sphere_power (true_E 1 (RtoC 1) (RtoC 1) false A 1) (true_H 1 (RtoC 1) (RtoC 1) false A 1) 5 (- (3 / 2 * PI)).
Proof.
  cbv zeta. split; [intros n; split; reflexivity|].
  replace (- (3 / 2 * PI)) with (1 * (Cmod (RtoC 1))² * (2 * PI / (1 * 1 * (1 * 1))) * sum1 (fun n => (2 * INR n + 1) * (net false (RtoC (1/2)) (RtoC 1) + net false (RtoC 0) (RtoC 1))) 1).
  - exact (power_val 1 1 (RtoC 1) false _ 1 5 ltac:(lra) ltac:(lra) ltac:(lra)).
  - unfold net, AngularIntegral.dot, Rsqr. rewrite !CLemmas.Cmod_sqr. cbn. field.
Qed.
