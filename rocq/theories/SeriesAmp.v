(** Decay with the order of the fields at any radial argument of a region (C86). *)
From Coq Require Import Reals ZArith Lra Lia Bool List Arith.
From Coquelicot Require Import Coquelicot.
From Verif Require Import Ops ROps Spec StackSpec CLemmas CTrig ComplexDiff BesselProofs BesselSpec BesselTrue ConvergeSpec BesselMinimal ModelSpecial ModelMie AngularIntegral
  ExampleStack TorchConverge StackConverge ModelNear NearSpec MaxwellSpec MaxwellProofs NearLimitSpec PlaneExp PassiveSpec Passive PassiveStack SeriesSpec SeriesGrowth SeriesFlux SeriesDecay SeriesSum SeriesFar SeriesInside.
Import ListNotations.
Open Scope R_scope.
Arguments nsq c%C_scope.
Arguments Cmod x%C_scope.

Lemma psi_compare (y z : C) : y <> RtoC 0 -> z <> RtoC 0 -> Cmod y < Cmod z -> exists K N, 0 < K /\ forall n, (N <= n)%nat -> Cmod (true_psi n y) <= K * Cmod (true_psi n z).
Proof.
  intros Hy Hz Hl. pose proof (mod_pos z Hz) as Mz. pose proof (mod_pos y Hy) as My.
  destruct (psi_ratio z Hz 1 ltac:(lra)) as [N1 H1]. destruct (psi_ratio y Hy 1 ltac:(lra)) as [N2 H2].
  set (d := / Cmod y - / Cmod z). assert (Hd : 0 < d) by (unfold d; pose proof (Rinv_lt_contravar _ _ (Rmult_lt_0_compat _ _ My Mz) Hl); lra).
  destruct (nat_above (2 / d)) as [N3 H3]. destruct (nat_above (Cmod y)) as [N4 H4]. set (N := (N1 + N2 + N3 + N4)%nat).
  assert (ZN : 0 < Cmod (true_psi N z)).
  { pose proof (cas_mod z Hz N) as Q. pose proof (H1 N ltac:(unfold N; lia)) as Q1. pose proof (Cmod_ge_0 (true_psi N z)) as P0. pose proof (Cmod_ge_0 (true_psi (S N) z)) as P1. destruct (Req_dec (Cmod (true_psi N z)) 0) as [E|E]; [|lra].
    rewrite E in Q, Q1. assert (E1 : Cmod (true_psi (S N) z) = 0) by lra. rewrite E1 in Q. lra. }
  set (K := Cmod (true_psi N y) / Cmod (true_psi N z) + 1). exists K, N.
  assert (HK : 0 < K) by (unfold K; assert (0 <= Cmod (true_psi N y) / Cmod (true_psi N z)) by (apply Rdiv_le_0_compat; [apply Cmod_ge_0|exact ZN]); lra). split; [exact HK|].
  assert (G : forall k, Cmod (true_psi (N + k) y) <= K * Cmod (true_psi (N + k) z)).
  { induction k as [|k IH].
    - rewrite Nat.add_0_r. unfold K. replace ((Cmod (true_psi N y) / Cmod (true_psi N z) + 1) * Cmod (true_psi N z)) with (Cmod (true_psi N y) + Cmod (true_psi N z)) by (field; lra). lra.
    - replace (N + S k)%nat with (S (N + k)) by lia. set (n := (N + k)%nat) in *.
      assert (Hm : Cmod y <= INR (S n)) by (apply H4; unfold n, N; lia).
      pose proof (down_step y (fun k => true_psi k y) Hy (fun k => true_psi_rec k y) n (psi_minimal y (S n) Hy Hm)) as D. cbv beta in D.
      assert (U : Cmod (true_psi n z) <= (INR (2 * n + 3) / Cmod z + 1) * Cmod (true_psi (S n) z)).
      { pose proof (H1 (S n) ltac:(unfold n, N; lia)) as Q. assert (E : true_psi n z = (RtoC (INR (2 * n + 3)) / z * true_psi (S n) z + - true_psi (S (S n)) z)%C) by (rewrite (true_psi_rec n z); ring).
        rewrite E. eapply Rle_trans; [apply Cmod_triangle|]. rewrite Cmod_opp, Cmod_mult, Cmod_div, Cmod_R, Rabs_pos_eq by (auto using pos_INR). lra. }
      assert (R3 : INR (2 * n + 3) / Cmod z + 1 <= INR (2 * n + 3) / Cmod y - 1).
      { assert (H : 2 / d <= INR (2 * n + 3)) by (apply H3; unfold n, N; lia). apply (Rmult_le_compat_r d) in H; [|lra]. replace (2 / d * d) with 2 in H by (field; lra). unfold d in H. unfold Rdiv. lra. }
      assert (I : 0 <= INR (2 * n + 3) / Cmod z) by (apply Rdiv_le_0_compat; [apply pos_INR|exact Mz]). set (c := INR (2 * n + 3) / Cmod y - 1) in *.
      apply (Rmult_le_reg_l c); [lra|]. eapply Rle_trans; [exact D|]. eapply Rle_trans; [exact IH|]. pose proof (Cmod_ge_0 (true_psi (S n) z)) as P1.
      apply Rle_trans with (K * (c * Cmod (true_psi (S n) z))); [|right; ring]. apply Rmult_le_compat_l; [lra|]. eapply Rle_trans; [exact U|]. apply Rmult_le_compat_r; lra. }
  intros n Hn. specialize (G (n - N)%nat). now replace (N + (n - N))%nat with n in G by lia.
Qed.
Lemma cross_bounded (z : C) : z <> RtoC 0 -> exists K N, 0 < K /\ forall n, (N <= n)%nat ->
  Cmod (true_psi n z) * Cmod (true_zeta n z) <= K /\ Cmod (true_psi (n - 1) z) * Cmod (true_zeta n z) <= K /\ Cmod (true_zeta (n - 1) z) <= Cmod (true_zeta n z).
Proof.
  intros Hz. destruct (psi_zeta_bounded z Hz) as (K & N1 & HK & H1). destruct (zeta_ratio z Hz 1) as [N2 H2]. exists (K + 1), (S (N1 + N2)). split; [lra|]. intros n Hn. pose proof (H1 n ltac:(lia)) as A.
  set (k := (n - 1)%nat). assert (En : n = S k) by (unfold k; lia). rewrite En in *. destruct (H2 k ltac:(lia)) as [Z0 Z1]. split; [lra|]. split; [|lra].
  pose proof (true_casoratian z k Hz) as E. pose proof (f_equal Cmod E) as E1. rewrite Cmod_opp, Cmod_Ci in E1.
  pose proof (Cmod_triangle (true_psi k z * true_zeta (S k) z - true_psi (S k) z * true_zeta k z)%C (true_psi (S k) z * true_zeta k z)%C) as T.
  replace (true_psi k z * true_zeta (S k) z - true_psi (S k) z * true_zeta k z + true_psi (S k) z * true_zeta k z)%C with (true_psi k z * true_zeta (S k) z)%C in T by ring.
  rewrite E1, !Cmod_mult in T. pose proof (Cmod_ge_0 (true_psi (S k) z)) as P1. assert (Cmod (true_psi (S k) z) * Cmod (true_zeta k z) <= Cmod (true_psi (S k) z) * Cmod (true_zeta (S k) z)) by (apply Rmult_le_compat_l; lra). lra.
Qed.
Lemma dpsi_mod n (z : C) : z <> RtoC 0 -> Cmod (true_dpsi n z) <= Cmod (true_psi (n - 1) z) + INR n / Cmod z * Cmod (true_psi n z).
Proof.
  intros Hz. unfold true_dpsi, Cminus. eapply Rle_trans; [apply Cmod_triangle|]. rewrite Cmod_opp, Cmod_mult, Cmod_div, Cmod_R, Rabs_pos_eq by (auto using pos_INR). lra.
Qed.
Lemma dzeta_mod n (z : C) : z <> RtoC 0 -> Cmod (true_dzeta n z) <= Cmod (true_zeta (n - 1) z) + INR n / Cmod z * Cmod (true_zeta n z).
Proof.
  intros Hz. unfold true_dzeta, Cminus. eapply Rle_trans; [apply Cmod_triangle|]. rewrite Cmod_opp, Cmod_mult, Cmod_div, Cmod_R, Rabs_pos_eq by (auto using pos_INR). lra.
Qed.
Lemma slope_tame (z : C) : z <> RtoC 0 -> tame (fun n => 1 + INR n / Cmod z).
Proof. intros Hz. apply tame_plus; [apply tame_const; lra|]. unfold Rdiv. apply tame_mult; [apply tame_INR|apply tame_const; left; apply Rinv_0_lt_compat; now apply Cmod_gt_0]. Qed.
Lemma ratio_pos n (z : C) : z <> RtoC 0 -> 0 <= INR n / Cmod z.
Proof. intros Hz. apply Rdiv_le_0_compat; [apply pos_INR|now apply Cmod_gt_0]. Qed.
Lemma mod_comb (w d f g : C) : Cmod ((w * f - d * g) / Ci)%C <= Cmod w * Cmod f + Cmod d * Cmod g.
Proof.
  rewrite Cmod_div by apply Ci_nz. rewrite Cmod_Ci. unfold Rdiv. rewrite Rinv_1, Rmult_1_r. unfold Cminus. eapply Rle_trans; [apply Cmod_triangle|]. rewrite Cmod_opp, !Cmod_mult. lra.
Qed.
(* the common estimate: products of a coefficient bounded by (|w| s + |d|) g and functions bounded by f, f' *)
Lemma prod_decay (w d a f f' : nat -> C) (z rho : C) K N : z <> RtoC 0 -> rho <> RtoC 0 -> 0 <= K -> rapid (fun n => Cmod (w n)) -> rapid (fun n => Cmod (d n)) ->
  (forall n, (N <= n)%nat -> exists g h, 0 <= g /\ 0 <= h /\ g * h <= K /\ Cmod (a n) <= (Cmod (w n) * (1 + INR n / Cmod z) + Cmod (d n)) * g /\ Cmod (f n) <= h /\ Cmod (f' n) <= (1 + INR n / Cmod rho) * h) ->
  rapid (fun n => Cmod (a n * f n)%C) /\ rapid (fun n => Cmod (a n * f' n)%C).
Proof.
  intros Hz Hr HK Hw Hd HB.
  set (v := fun n => (Cmod (w n) + Cmod (d n)) * (K * ((1 + INR n / Cmod z) * (1 + INR n / Cmod rho)))).
  assert (V : rapid v).
  { unfold v. apply rapid_mult; [intros n _; pose proof (Cmod_ge_0 (w n)); pose proof (Cmod_ge_0 (d n)); lra|now apply rapid_plus|]. apply tame_mult; [now apply tame_const|]. apply tame_mult; now apply slope_tame. }
  assert (G : forall n, (N <= n)%nat -> Cmod (a n) * Cmod (f n) <= v n /\ Cmod (a n) * Cmod (f' n) <= v n).
  { intros n Hn. destruct (HB n Hn) as (g & h & G0 & H0 & GH & A & F & F'). pose proof (ratio_pos n z Hz) as R1. pose proof (ratio_pos n rho Hr) as R2. pose proof (Cmod_ge_0 (w n)) as W0. pose proof (Cmod_ge_0 (d n)) as D0.
    unfold v. set (s := INR n / Cmod z) in *. set (t := INR n / Cmod rho) in *. set (W := Cmod (w n)) in *. set (Dd := Cmod (d n)) in *.
    assert (E1 : (W * (1 + s) + Dd) <= (W + Dd) * (1 + s)) by nra. assert (Q0 : 0 <= (W + Dd) * (1 + s)) by nra.
    assert (A' : Cmod (a n) <= (W + Dd) * (1 + s) * g) by (eapply Rle_trans; [exact A|apply Rmult_le_compat_r; assumption]).
    assert (B : (W + Dd) * (1 + s) * g * ((1 + t) * h) <= (W + Dd) * (K * ((1 + s) * (1 + t)))).
    { replace ((W + Dd) * (1 + s) * g * ((1 + t) * h)) with ((W + Dd) * (1 + s) * (1 + t) * (g * h)) by ring. replace ((W + Dd) * (K * ((1 + s) * (1 + t)))) with ((W + Dd) * (1 + s) * (1 + t) * K) by ring. apply Rmult_le_compat_l; [apply Rmult_le_pos; lra|exact GH]. }
    split; (eapply Rle_trans; [|exact B]); apply Rmult_le_compat; try apply Cmod_ge_0; try exact A'; [nra|exact F']. }
  split; apply (rapid_le _ v N V); intros n Hn; rewrite Cmod_mult; apply (G n Hn).
Qed.
Lemma regular_decay (w d : nat -> C) (z rho : C) : z <> RtoC 0 -> rho <> RtoC 0 -> Cmod rho < Cmod z -> rapid (fun n => Cmod (w n)) -> rapid (fun n => Cmod (d n)) ->
  let B n := ((w n * true_dzeta n z - d n * true_zeta n z) / Ci)%C in rapid (fun n => Cmod (B n * true_psi n rho)%C) /\ rapid (fun n => Cmod (B n * true_dpsi n rho)%C).
Proof.
  intros Hz Hr Hl Hw Hd B. destruct (psi_compare rho z Hr Hz Hl) as (K1 & N1 & HK1 & H1). destruct (cross_bounded z Hz) as (K & N & HK & HB).
  apply (prod_decay w d B _ _ z rho (K1 * (K + K)) (S (N1 + N)) Hz Hr ltac:(nra) Hw Hd). intros n Hn. destruct (HB n ltac:(lia)) as (B1 & B2 & B3). pose proof (H1 n ltac:(lia)) as C1. pose proof (H1 (n - 1)%nat ltac:(lia)) as C2.
  exists (Cmod (true_zeta n z)), (K1 * (Cmod (true_psi n z) + Cmod (true_psi (n - 1) z))). pose proof (Cmod_ge_0 (true_zeta n z)) as Z0. pose proof (Cmod_ge_0 (true_psi n z)) as P0. pose proof (Cmod_ge_0 (true_psi (n - 1) z)) as P1.
  split; [exact Z0|]. split; [nra|]. split; [|split; [|split]].
  - replace (Cmod (true_zeta n z) * (K1 * (Cmod (true_psi n z) + Cmod (true_psi (n - 1) z)))) with (K1 * (Cmod (true_psi n z) * Cmod (true_zeta n z) + Cmod (true_psi (n - 1) z) * Cmod (true_zeta n z))) by ring. apply Rmult_le_compat_l; lra.
  - unfold B. eapply Rle_trans; [apply mod_comb|]. pose proof (dzeta_mod n z Hz) as D. pose proof (Cmod_ge_0 (w n)) as W0. pose proof (ratio_pos n z Hz) as R1.
    assert (D' : Cmod (true_dzeta n z) <= (1 + INR n / Cmod z) * Cmod (true_zeta n z)) by lra. apply (Rmult_le_compat_l (Cmod (w n))) in D'; [|exact W0]. lra.
  - nra.
  - pose proof (dpsi_mod n rho Hr) as D. pose proof (ratio_pos n rho Hr) as R1. set (t := INR n / Cmod rho) in *. apply Rle_trans with (K1 * Cmod (true_psi (n - 1) z) + t * (K1 * Cmod (true_psi n z))).
    + eapply Rle_trans; [exact D|]. apply Rplus_le_compat; [exact C2|]. apply Rmult_le_compat_l; [exact R1|exact C1].
    + assert (0 <= K1 * Cmod (true_psi n z)) by (apply Rmult_le_pos; lra). assert (0 <= K1 * Cmod (true_psi (n - 1) z)) by (apply Rmult_le_pos; lra). nra.
Qed.
Lemma irregular_decay (w d : nat -> C) (z rho : C) : z <> RtoC 0 -> rho <> RtoC 0 -> Cmod z < Cmod rho -> rapid (fun n => Cmod (w n)) -> rapid (fun n => Cmod (d n)) ->
  let A n := ((w n * true_dpsi n z - d n * true_psi n z) / Ci)%C in rapid (fun n => Cmod (A n * true_zeta n rho)%C) /\ rapid (fun n => Cmod (A n * true_dzeta n rho)%C).
Proof.
  intros Hz Hr Hl Hw Hd A. destruct (zeta_compare z rho Hz Hr Hl) as (K1 & N1 & HK1 & H1). destruct (cross_bounded z Hz) as (K & N & HK & HB).
  apply (prod_decay w d A _ _ z rho (K1 * (K + K)) (S (N1 + N)) Hz Hr ltac:(nra) Hw Hd). intros n Hn. destruct (HB n ltac:(lia)) as (B1 & B2 & B3). pose proof (H1 n ltac:(lia)) as C1. pose proof (H1 (n - 1)%nat ltac:(lia)) as C2.
  exists (Cmod (true_psi n z) + Cmod (true_psi (n - 1) z)), (K1 * Cmod (true_zeta n z)). pose proof (Cmod_ge_0 (true_zeta n z)) as Z0. pose proof (Cmod_ge_0 (true_psi n z)) as P0. pose proof (Cmod_ge_0 (true_psi (n - 1) z)) as P1.
  split; [lra|]. split; [nra|]. split; [|split; [|split]].
  - replace ((Cmod (true_psi n z) + Cmod (true_psi (n - 1) z)) * (K1 * Cmod (true_zeta n z))) with (K1 * (Cmod (true_psi n z) * Cmod (true_zeta n z) + Cmod (true_psi (n - 1) z) * Cmod (true_zeta n z))) by ring. apply Rmult_le_compat_l; lra.
  - unfold A. eapply Rle_trans; [apply mod_comb|]. pose proof (dpsi_mod n z Hz) as D. pose proof (Cmod_ge_0 (w n)) as W0. pose proof (Cmod_ge_0 (d n)) as D0. pose proof (ratio_pos n z Hz) as R1. set (s := INR n / Cmod z) in *.
    assert (D' : Cmod (true_dpsi n z) <= (1 + s) * (Cmod (true_psi n z) + Cmod (true_psi (n - 1) z))) by nra. apply (Rmult_le_compat_l (Cmod (w n))) in D'; [|exact W0]. nra.
  - exact C1.
  - pose proof (dzeta_mod n rho Hr) as D. pose proof (ratio_pos n rho Hr) as R1. set (t := INR n / Cmod rho) in *. eapply Rle_trans; [exact D|]. apply Rle_trans with (K1 * Cmod (true_zeta n z) + t * (K1 * Cmod (true_zeta n z))); [|right; ring].
    apply Rplus_le_compat; [|apply Rmult_le_compat_l; [exact R1|exact C1]]. eapply Rle_trans; [exact C2|]. apply Rmult_le_compat_l; lra.
Qed.
