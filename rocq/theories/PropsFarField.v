(** Properties C01-C08: cross sections and angular scattering. *)
From Coq Require Import Reals ZArith Lra Lia List.
From Coquelicot Require Import Coquelicot.
From Verif Require Import Ops ROps Spec CLemmas ModelSpecial ModelMie AngularProofs FarFieldProofs AngularIntegral.
Import ListNotations.
Open Scope R_scope.

(** C01: ext = sca + abs, totals and per multipole, cross sections and efficiencies. *)
Theorem C01_energy_balance : forall (n_max : nat) (k : C) (r : R) (a b : nat -> C),
  k <> RtoC 0 -> 0 < r ->
  cs_ext n_max k a b = cs_sca n_max k a b + cs_abs n_max k a b /\
  q_ext n_max k r a b = q_sca n_max k r a b + q_abs n_max k r a b /\
  (forall t n, cs_ext_multipole k a b t n = cs_sca_multipole k a b t n + cs_abs_multipole k a b t n) /\
  (forall t n, q_ext_multipole k r a b t n = q_sca_multipole k r a b t n + q_abs_multipole k r a b t n).
Proof. exact balance_all. Qed.
Print Assumptions C01_energy_balance.

(** C01: totals are the sums of the reported multipole entries; q * (pi r^2) = cs. *)
Theorem C01_totals : forall (n_max : nat) (k : C) (r : R) (a b : nat -> C),
  k <> RtoC 0 -> 0 < r ->
  cs_ext n_max k a b = sum1 (cs_ext_multipole k a b false) n_max + sum1 (cs_ext_multipole k a b true) n_max /\
  cs_sca n_max k a b = sum1 (cs_sca_multipole k a b false) n_max + sum1 (cs_sca_multipole k a b true) n_max /\
  cs_abs n_max k a b = sum1 (cs_abs_multipole k a b false) n_max + sum1 (cs_abs_multipole k a b true) n_max /\
  q_ext n_max k r a b * (PI * r ^ 2) = cs_ext n_max k a b /\
  q_sca n_max k r a b * (PI * r ^ 2) = cs_sca n_max k a b /\
  q_abs n_max k r a b * (PI * r ^ 2) = cs_abs n_max k a b.
Proof. exact totals_all. Qed.
Print Assumptions C01_totals.
(* non-trivial instance: a_1 = 1/2, b_1 = 0, k = 1: extinction 3 pi, scattering 3/2 pi *)
Example C01_instance : cs_ext 1 (RtoC 1) (fun _ => RtoC (1/2)) (fun _ => RtoC 0) = 3 * PI /\
  cs_sca 1 (RtoC 1) (fun _ => RtoC (1/2)) (fun _ => RtoC 0) = 3 / 2 * PI /\ RtoC 1 <> RtoC 0.
Proof.
  rewrite cs_ext_sum, cs_sca_sum. cbn [sum1].
  rewrite !cs_ext_mp_real, !cs_sca_mp_real by lra. cbn [coef]. rewrite !Cmod_R, Rabs_R0, Rabs_pos_eq by lra.
  unfold Rsqr. simpl. repeat split; try field. apply RtoC_neq; lra.
Qed.

(** C02 *)
Theorem C02_scattering_nonneg : forall (k : R) (a b : nat -> C), k <> 0 ->
  (forall t n, 0 <= cs_sca_multipole (RtoC k) a b t n) /\
  (forall n_max, 0 <= cs_sca n_max (RtoC k) a b) /\
  (forall n_max, cs_sca n_max (RtoC k) a b = 0 ->
     forall n, (1 <= n <= n_max)%nat -> a n = RtoC 0 /\ b n = RtoC 0).
Proof. exact sca_nonneg_all. Qed.
Print Assumptions C02_scattering_nonneg.

(** C03: optical theorem between the two API functions. *)
Theorem C03_optical_theorem : forall (n_max : nat) (k : R) (a b : nat -> C), k <> 0 ->
  cs_ext n_max (RtoC k) a b = 4 * PI / (k * k) * fst (S1 n_max a b 0).
Proof. exact optical_theorem. Qed.
Print Assumptions C03_optical_theorem.

(** C04 *)
Theorem C04_forward_backward : forall (n_max : nat) (a b : nat -> C),
  S2 n_max a b 0 = S1 n_max a b 0 /\
  S2 n_max a b PI = Copp (S1 n_max a b PI) /\
  (0 < i_unpol n_max a b 0 -> pol_degree n_max a b 0 = 0) /\
  (0 < i_unpol n_max a b PI -> pol_degree n_max a b PI = 0).
Proof. exact fwd_bwd_all. Qed.
Print Assumptions C04_forward_backward.
(* the intensity hypothesis is met by a single electric dipole *)
Example C04_instance : S1 1 (fun _ => RtoC 1) (fun _ => RtoC 0) 0 = RtoC (3/2) /\
  0 < i_unpol 1 (fun _ => RtoC 1) (fun _ => RtoC 0) 0.
Proof.
  assert (E : S1 1 (fun _ => RtoC 1) (fun _ => RtoC 0) 0 = RtoC (3/2)).
  { rewrite S1_forward. cbn [csum1]. apply C_eq; simpl; field. }
  split; [exact E|].
  rewrite i_unpol_eq, i_per_eq, i_par_eq, S2_forward, E, Cmod_R, Rabs_pos_eq by lra.
  unfold Rsqr. lra.
Qed.

(** C05 *)
Theorem C05_physical_intensities : forall (n_max : nat) (a b : nat -> C) (th : R),
  0 <= i_per n_max a b th /\ 0 <= i_par n_max a b th /\ 0 <= i_unpol n_max a b th /\
  i_unpol n_max a b th = (i_per n_max a b th + i_par n_max a b th) / 2 /\
  (0 < i_unpol n_max a b th -> -1 <= pol_degree n_max a b th <= 1).
Proof. exact intens_all. Qed.
Print Assumptions C05_physical_intensities.
Theorem C05_even_periodic : forall (n_max : nat) (a b : nat -> C) (th : R),
  S1 n_max a b (- th) = S1 n_max a b th /\ S2 n_max a b (- th) = S2 n_max a b th /\
  S1 n_max a b (th + 2 * PI) = S1 n_max a b th /\ S2 n_max a b (th + 2 * PI) = S2 n_max a b th.
Proof. exact even_periodic. Qed.
Print Assumptions C05_even_periodic.

(** C06: the two returned lists hold P_j' and mu P_j' - (1 - mu^2) P_j''. *)
Theorem C06_pi_tau_legendre : forall (n_max : Z) (x : R), (1 <= n_max)%Z ->
  exists lp lt, pi_tau n_max x = Ok (lp, lt) /\
  length lp = S (Z.to_nat n_max) /\ length lt = S (Z.to_nat n_max) /\
  forall j, (j <= Z.to_nat n_max)%nat -> exists p t d,
    nth_error lp j = Some p /\ nth_error lt j = Some t /\
    is_derive (legendre j) x p /\ is_derive (fun y => Derive (legendre j) y) x d /\
    t = x * p - (1 - x * x) * d.
Proof. exact pi_tau_spec. Qed.
Print Assumptions C06_pi_tau_legendre.
Theorem C06_rejects_order_zero : forall (n_max : Z) (x : R), (n_max < 1)%Z ->
  pi_tau n_max x = Err AssertionError.
Proof. exact pi_tau_rejects. Qed.
Print Assumptions C06_rejects_order_zero.
Theorem C06_symmetry : forall (n : nat) (x : R),
  pi_n (- x) n = (-1) ^ (n + 1) * pi_n x n /\ tau_n (- x) n = (-1) ^ n * tau_n x n /\
  pi_n 1 n = INR n * (INR n + 1) / 2 /\ tau_n 1 n = INR n * (INR n + 1) / 2.
Proof. exact pi_tau_sym. Qed.
Print Assumptions C06_symmetry.
Example C06_instance : pi_n (1/2) 3 = 3/8 /\ legendre 3 2 = 17.
Proof. rewrite !pi_SS, pi_1, pi_0, !leg_SS, leg_1, leg_0. simpl. split; field. Qed.

(** C07: integrated intensity equals the scattering cross section. *)
Theorem C07_integrated_intensity : forall (n_max : nat) (k : R) (a b : nat -> C), k <> 0 ->
  PI / (k * k) * RInt (fun t => (i_per n_max a b t + i_par n_max a b t) * sin t) 0 PI
  = cs_sca n_max (RtoC k) a b.
Proof. exact integrated_intensity. Qed.
Print Assumptions C07_integrated_intensity.
(* the integral in C07 really exists (RInt is not a default value) *)
Theorem C07_integrable : forall (n_max : nat) (a b : nat -> C),
  is_RInt (fun t => (i_per n_max a b t + i_par n_max a b t) * sin t) 0 PI
    (sum1 (fun n => 2 * (2 * INR n + 1) * ((Cmod (a n))² + (Cmod (b n))²)) n_max).
Proof. exact intensity_integral. Qed.
Print Assumptions C07_integrable.

(** C08 *)
Theorem C08_pi_bound : forall (x : R) (n : nat), -1 <= x <= 1 ->
  Rabs (pi_n x n) <= INR n * (INR n + 1) / 2.
Proof. exact pi_bound. Qed.
Print Assumptions C08_pi_bound.
Theorem C08_tau_bound : forall (x : R) (n : nat), -1 <= x <= 1 ->
  Rabs (tau_n x n) <= INR n * (INR n + 1) / 2.
Proof. exact tau_bound. Qed.
Print Assumptions C08_tau_bound.
Theorem C08_amplitude_bound : forall (n_max : nat) (a b : nat -> C) (th : R),
  Cmod (S1 n_max a b th) <= sum1 (fun n => (2 * INR n + 1) / 2 * (Cmod (a n) + Cmod (b n))) n_max /\
  Cmod (S2 n_max a b th) <= sum1 (fun n => (2 * INR n + 1) / 2 * (Cmod (a n) + Cmod (b n))) n_max.
Proof. exact S_bound. Qed.
Print Assumptions C08_amplitude_bound.
(* the bound is attained in the forward direction for non-negative coefficients *)
Example C08_instance : Rabs (pi_n 1 4) = 10 /\ Rabs (tau_n 1 4) = 10.
Proof. rewrite pi_at_1, tau_at_1. simpl. rewrite !Rabs_pos_eq by lra. split; field. Qed.
