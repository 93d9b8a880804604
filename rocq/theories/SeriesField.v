(** Convergence of the near-field expansions (C86). *)
From Coq Require Import Reals ZArith Lra Lia Bool List Arith.
From Coquelicot Require Import Coquelicot.
From Verif Require Import Ops ROps Spec StackSpec CLemmas CTrig ComplexDiff BesselSpec ConvergeSpec ModelSpecial ModelMie AngularProofs PlaneWaveProofs
  ModelNear NearSpec MaxwellSpec NearLimitSpec NearExact PlaneVector PassiveSpec SeriesSpec SeriesDecay SeriesSum SeriesFar SeriesInside SeriesAmp SeriesRegion.
Import ListNotations.
Open Scope R_scope.
Arguments Cmod x%C_scope.

Lemma csum_l_csum1 (f : nat -> C) N : csum_l (map f (orders N)) = csum1 f N.
Proof. unfold orders. rewrite <- csum_seq. reflexivity. Qed.
Lemma pw_bound n (E0 : C) : (1 <= n)%nat -> Cmod (@pw_factor R ROps n E0) <= Cmod E0 * (2 * INR n + 1).
Proof.
  intros Hn. rewrite pw_factor_eq by exact Hn. rewrite !Cmod_mult, ipow_mod, Cmod_R, Rabs_pos_eq by (left; apply weight_pos; lia). apply Rmult_le_compat_l; [apply Cmod_ge_0|]. unfold PlaneWaveProofs.weight.
  assert (1 <= INR n) by (change 1 with (INR 1); now apply le_INR). rewrite Rmult_1_l. apply (Rmult_le_reg_r (INR n * (INR n + 1))); [nra|]. unfold Rdiv. rewrite Rmult_assoc, Rinv_l by nra. nra.
Qed.
Lemma fast_csum {I} (f : I -> nat -> C) (u : nat -> R) : rapid u -> (forall i n, (1 <= n)%nat -> Cmod (f i n) <= u n) -> exists S : I -> C, fast_all (fun i N => csum1 (f i) N) S.
Proof. exact (family_sum f u). Qed.

Section Region.
  Variables (E0 M rho : C) (A : nat -> @amps R).
  Hypothesis Hr : rho <> RtoC 0.
  Hypothesis HD : decays A rho.
  Notation F tm n := (Cmod (Fld (true_rf n) (pair_of tm (A n)) rho)).
  Notation G tm n := (Cmod (dFld (true_rf n) (pair_of tm (A n)) rho)).
  Definition sumq (n : nat) : R := F true n + F false n + (G true n + G false n).
  Definition r1 : R := / Cmod rho.
  Definition big (n : nat) : R := sumq n * (Cmod E0 * (2 * INR n + 1) * ((nn n + 1) * (nn n + 1) * ((1 + r1) * (1 + r1) * (1 + Cmod M)))).
  Lemma r1_pos : 0 < r1. Proof. apply Rinv_0_lt_compat. now apply Cmod_gt_0. Qed.
  Lemma sumq_rapid : rapid sumq.
  Proof. destruct (HD true) as [T1 T2]. destruct (HD false) as [T3 T4]. unfold sumq. apply rapid_plus; now apply rapid_plus. Qed.
  Lemma sumq_ge n : 0 <= sumq n. Proof. unfold sumq. pose proof (Cmod_ge_0 (Fld (true_rf n) (pair_of true (A n)) rho)). pose proof (Cmod_ge_0 (Fld (true_rf n) (pair_of false (A n)) rho)). pose proof (Cmod_ge_0 (dFld (true_rf n) (pair_of true (A n)) rho)). pose proof (Cmod_ge_0 (dFld (true_rf n) (pair_of false (A n)) rho)). lra. Qed.
  Lemma big_rapid : rapid big.
  Proof.
    pose proof r1_pos as R0. pose proof (Cmod_ge_0 M) as M0. unfold big. apply rapid_mult; [intros; apply sumq_ge|apply sumq_rapid|]. apply tame_mult; [apply tame_mult; [apply tame_const, Cmod_ge_0|apply weight_tame]|].
    assert (T : tame (fun n => nn n + 1)) by (apply tame_plus; [apply nn_tame|apply tame_const; lra]). apply tame_mult; [now apply tame_mult|apply tame_const]. apply Rmult_le_pos; [nra|lra].
  Qed.
  Lemma cos1 t : Cmod (RtoC (cos t)) <= 1. Proof. rewrite Cmod_R. apply Rabs_le, COS_bound. Qed.
  Lemma sin1 t : Cmod (RtoC (sin t)) <= 1. Proof. rewrite Cmod_R. apply Rabs_le, SIN_bound. Qed.
  Lemma pt_le th n : Cmod (RtoC (@pi_n R ROps (cos th) n)) <= nn n /\ Cmod (RtoC (@tau_n R ROps (cos th) n)) <= nn n.
  Proof. rewrite !Cmod_R. pose proof (pi_bound (cos th) n (COS_bound th)) as P. pose proof (tau_bound (cos th) n (COS_bound th)) as T. pose proof (nn_ge n). pose proof (pos_INR n). unfold nn in *. split; lra. Qed.
  Lemma comb_le (p t f g : C) n : Cmod p <= nn n -> Cmod t <= nn n -> Cmod (p * f - Ci * t * g)%C <= nn n * (Cmod f + Cmod g).
  Proof.
    intros Hp Ht. unfold Cminus. eapply Rle_trans; [apply Cmod_triangle|]. rewrite Cmod_opp, !Cmod_mult, Cmod_Ci, Rmult_1_l. pose proof (Cmod_ge_0 f). pose proof (Cmod_ge_0 g). nra.
  Qed.
  (* three shapes of terms *)
  Lemma shape_rad (e a b c f : C) n k : (1 <= n)%nat -> 0 <= k <= 1 + Cmod M -> Cmod e <= Cmod E0 * (2 * INR n + 1) -> Cmod a <= 1 -> Cmod b <= 1 -> Cmod c <= nn n -> Cmod f <= sumq n ->
    k * Cmod (e * Ci * a * (RtoC (INR n) * (RtoC (INR n) + RtoC 1)) * b * c * f * (/ rho * / RtoC 1) * (/ rho * / RtoC 1))%C <= big n.
  Proof.
    intros Hn Hk He Ha Hb Hc Hf. assert (H1 : RtoC 1 <> RtoC 0) by (intros Q; injection Q; lra). rewrite !Cmod_mult, !Cmod_inv, Cmod_Ci, Cmod_1 by assumption. fold r1.
    rewrite <- RtoC_plus, !Cmod_R, !Rabs_pos_eq by (pose proof (pos_INR n); lra). rewrite Rinv_1, !Rmult_1_r.
    pose proof (nn_ge n) as N0. pose proof (pos_INR n) as I0. pose proof r1_pos as R0. pose proof (Cmod_ge_0 M) as M0. pose proof (sumq_ge n) as S0. pose proof (Cmod_ge_0 E0) as E00.
    pose proof (Cmod_ge_0 e). pose proof (Cmod_ge_0 a). pose proof (Cmod_ge_0 b). pose proof (Cmod_ge_0 c). pose proof (Cmod_ge_0 f). change (INR n * (INR n + 1)) with (nn n). set (W := Cmod E0 * (2 * INR n + 1)) in *. assert (W0 : 0 <= W) by (apply Rmult_le_pos; lra).
    unfold big. fold W. set (N := nn n) in *.
    replace (k * (Cmod e * Cmod a * N * Cmod b * Cmod c * Cmod f * r1 * r1)) with (Cmod f * (Cmod e * (N * Cmod c * (r1 * r1 * k)) * (Cmod a * Cmod b))) by ring.
    apply Rmult_le_compat; [assumption| |exact Hf|].
    - repeat apply Rmult_le_pos; lra.
    - rewrite <- (Rmult_1_r (W * _)). apply Rmult_le_compat; [repeat apply Rmult_le_pos; lra|apply Rmult_le_pos; lra| |].
      + apply Rmult_le_compat; [lra|repeat apply Rmult_le_pos; lra|exact He|]. apply Rmult_le_compat; [apply Rmult_le_pos; lra|repeat apply Rmult_le_pos; lra|apply Rmult_le_compat; lra|]. apply Rmult_le_compat; [nra|lra|apply Rmult_le_compat; lra|lra].
      + rewrite <- (Rmult_1_r 1). apply Rmult_le_compat; lra.
  Qed.
  Lemma shape_tan (e a c : C) n k s : (1 <= n)%nat -> 0 <= k <= 1 + Cmod M -> Cmod e <= Cmod E0 * (2 * INR n + 1) -> Cmod a <= 1 -> 0 <= s <= sumq n -> Cmod c <= nn n * (s * r1) -> k * (Cmod e * Cmod a * Cmod c) <= big n.
  Proof.
    intros Hn Hk He Ha Hs Hc. pose proof (nn_ge n) as N0. pose proof (pos_INR n) as I0. pose proof r1_pos as R0. pose proof (Cmod_ge_0 M) as M0. pose proof (sumq_ge n) as S0. pose proof (Cmod_ge_0 E0) as E00.
    pose proof (Cmod_ge_0 e). pose proof (Cmod_ge_0 a). pose proof (Cmod_ge_0 c). set (W := Cmod E0 * (2 * INR n + 1)) in *. assert (W0 : 0 <= W) by (apply Rmult_le_pos; lra).
    unfold big. fold W. set (N := nn n) in *. apply Rle_trans with (k * (W * 1 * (N * (s * r1)))).
    - apply Rmult_le_compat_l; [lra|]. apply Rmult_le_compat; [now apply Rmult_le_pos|assumption|apply Rmult_le_compat; assumption|exact Hc].
    - replace (k * (W * 1 * (N * (s * r1)))) with (s * (W * (N * 1 * (r1 * 1 * k)))) by ring. apply Rmult_le_compat; [lra|repeat apply Rmult_le_pos; lra|lra|]. apply Rmult_le_compat; [lra|repeat apply Rmult_le_pos; lra|lra|].
      apply Rmult_le_compat; [lra|repeat apply Rmult_le_pos; lra|apply Rmult_le_compat; lra|]. apply Rmult_le_compat; [lra|lra|apply Rmult_le_compat; lra|lra].
  Qed.
  Notation one := (RtoC 1).
  Lemma one_nz : one <> RtoC 0. Proof. intros Q. injection Q. lra. Qed.
  Notation Et n d := (@E_region R ROps E0 false (A n) (rad_vsh n false rho (fst d) (snd d)) (rad_vsh n true rho (fst d) (snd d)) n).
  Notation Ht n d := (@H_region R ROps E0 M false (A n) (rad_vsh n false rho (fst d) (snd d)) (rad_vsh n true rho (fst d) (snd d)) n).
  Lemma E_erf n (d : R * R) : Et n d = Erf E0 one (fst d) (snd d) n (true_rf n) rho (A n).
  Proof. unfold Erf, vsh_rf, rad_vsh. cbn [true_rf rf_psi rf_zeta rf_dpsi rf_dzeta]. now replace (rho * one)%C with rho by ring. Qed.
  Lemma H_hrf n (d : R * R) : Ht n d = Hrf E0 (M / rho)%C one (fst d) (snd d) n (true_rf n) rho (A n).
  Proof. unfold Hrf, vsh_rf, rad_vsh. cbn [true_rf rf_psi rf_zeta rf_dpsi rf_dzeta]. replace (rho * one)%C with rho by ring. replace (rho * (M / rho))%C with M by (field; exact Hr). reflexivity. Qed.
  Lemma rho1 : (rho * one)%C = rho. Proof. ring. Qed.
  Lemma mod_div1 (f : C) : Cmod (f / rho)%C = Cmod f * r1. Proof. now rewrite Cmod_div by exact Hr. Qed.
  Lemma E_terms n (d : R * R) : (1 <= n)%nat -> Cmod (v1 (Et n d)) <= big n /\ Cmod (v2 (Et n d)) <= big n /\ Cmod (v3 (Et n d)) <= big n.
  Proof.
    intros Hn. rewrite E_erf. destruct (Erf_parts E0 one (fst d) (snd d) n (true_rf n) rho (A n) Hr one_nz) as (e1 & e2 & e3). rewrite e1, e2, e3. clear e1 e2 e3. rewrite rho1.
    pose proof (pw_bound n E0 Hn) as W. set (e := @pw_factor R ROps n E0 : C) in *. change (@pw_factor R ROps n E0) with e. destruct (pt_le (fst d) n) as [P T]. pose proof (Cmod_ge_0 M) as M0.
    pose proof (Cmod_ge_0 (Fld (true_rf n) (pair_of true (A n)) rho)) as Q1. pose proof (Cmod_ge_0 (Fld (true_rf n) (pair_of false (A n)) rho)) as Q2. pose proof (Cmod_ge_0 (dFld (true_rf n) (pair_of true (A n)) rho)) as Q3. pose proof (Cmod_ge_0 (dFld (true_rf n) (pair_of false (A n)) rho)) as Q4.
    split; [|split].
    - rewrite Cmod_opp. rewrite <- (Rmult_1_l (Cmod _)). apply shape_rad; try assumption; try apply cos1; try apply sin1; [lra|]. unfold sumq. lra.
    - replace (Cmod _) with (1 * (Cmod e * Cmod (RtoC (cos (snd d))) * Cmod (RtoC (@pi_n R ROps (cos (fst d)) n) * (Fld (true_rf n) (pair_of false (A n)) rho / rho) - Ci * RtoC (@tau_n R ROps (cos (fst d)) n) * (dFld (true_rf n) (pair_of true (A n)) rho / rho))%C)).
      + apply (shape_tan _ _ _ n 1 (F false n + G true n)); try assumption; try apply cos1; [lra|unfold sumq; lra|]. eapply Rle_trans; [apply (comb_le _ _ _ _ n P T)|]. rewrite !mod_div1. right. ring.
      + rewrite Rmult_1_l, <- !Cmod_mult. f_equal. field. first [exact Hr|exact (conj Hr one_nz)|exact (conj one_nz Hr)].
    - rewrite Cmod_opp. replace (Cmod _) with (1 * (Cmod e * Cmod (RtoC (sin (snd d))) * Cmod (RtoC (@tau_n R ROps (cos (fst d)) n) * (Fld (true_rf n) (pair_of false (A n)) rho / rho) - Ci * RtoC (@pi_n R ROps (cos (fst d)) n) * (dFld (true_rf n) (pair_of true (A n)) rho / rho))%C)).
      + apply (shape_tan _ _ _ n 1 (F false n + G true n)); try assumption; try apply sin1; [lra|unfold sumq; lra|]. eapply Rle_trans; [apply (comb_le _ _ _ _ n T P)|]. rewrite !mod_div1. right. ring.
      + rewrite Rmult_1_l, <- !Cmod_mult. f_equal. field. first [exact Hr|exact (conj Hr one_nz)|exact (conj one_nz Hr)].
  Qed.
  Lemma H_terms n (d : R * R) : (1 <= n)%nat -> Cmod (v1 (Ht n d)) <= big n /\ Cmod (v2 (Ht n d)) <= big n /\ Cmod (v3 (Ht n d)) <= big n.
  Proof.
    intros Hn. rewrite H_hrf. destruct (Hrf_parts E0 (M / rho)%C one (fst d) (snd d) n (true_rf n) rho (A n) Hr one_nz) as (e1 & e2 & e3). rewrite e1, e2, e3. clear e1 e2 e3. rewrite rho1. replace (rho * (M / rho))%C with M by (field; exact Hr).
    pose proof (pw_bound n E0 Hn) as W. set (e := @pw_factor R ROps n E0 : C) in *. change (@pw_factor R ROps n E0) with e. destruct (pt_le (fst d) n) as [P T]. pose proof (Cmod_ge_0 M) as M0.
    pose proof (Cmod_ge_0 (Fld (true_rf n) (pair_of true (A n)) rho)) as Q1. pose proof (Cmod_ge_0 (Fld (true_rf n) (pair_of false (A n)) rho)) as Q2. pose proof (Cmod_ge_0 (dFld (true_rf n) (pair_of true (A n)) rho)) as Q3. pose proof (Cmod_ge_0 (dFld (true_rf n) (pair_of false (A n)) rho)) as Q4.
    assert (K : 0 <= Cmod M <= 1 + Cmod M) by lra.
    split; [|split].
    - rewrite Cmod_opp.
      replace (Cmod _) with (Cmod M * Cmod (e * Ci * RtoC (sin (snd d)) * (RtoC (INR n) * (RtoC (INR n) + RtoC 1)) * RtoC (sin (fst d)) * RtoC (@pi_n R ROps (cos (fst d)) n) * Fld (true_rf n) (pair_of false (A n)) rho * (/ rho * / one) * (/ rho * / one))%C) by (rewrite <- Cmod_mult; f_equal; ring).
      apply shape_rad; try assumption; try apply sin1. unfold sumq. lra.
    - replace (Cmod _) with (Cmod M * (Cmod e * Cmod (RtoC (sin (snd d))) * Cmod (RtoC (@pi_n R ROps (cos (fst d)) n) * (Fld (true_rf n) (pair_of true (A n)) rho / rho) - Ci * RtoC (@tau_n R ROps (cos (fst d)) n) * (dFld (true_rf n) (pair_of false (A n)) rho / rho))%C)).
      + apply (shape_tan _ _ _ n (Cmod M) (F true n + G false n)); try assumption; try apply sin1; [unfold sumq; lra|]. eapply Rle_trans; [apply (comb_le _ _ _ _ n P T)|]. rewrite !mod_div1. right. ring.
      + rewrite <- !Cmod_mult. f_equal. field. first [exact Hr|exact (conj Hr one_nz)|exact (conj one_nz Hr)].
    - replace (Cmod _) with (Cmod M * (Cmod e * Cmod (RtoC (cos (snd d))) * Cmod (RtoC (@tau_n R ROps (cos (fst d)) n) * (Fld (true_rf n) (pair_of true (A n)) rho / rho) - Ci * RtoC (@pi_n R ROps (cos (fst d)) n) * (dFld (true_rf n) (pair_of false (A n)) rho / rho))%C)).
      + apply (shape_tan _ _ _ n (Cmod M) (F true n + G false n)); try assumption; try apply cos1; [unfold sumq; lra|]. eapply Rle_trans; [apply (comb_le _ _ _ _ n T P)|]. rewrite !mod_div1. right. ring.
      + rewrite <- !Cmod_mult. f_equal. field. first [exact Hr|exact (conj Hr one_nz)|exact (conj one_nz Hr)].
  Qed.
  Theorem fields_fast : exists E H : R -> R -> cvec, fast_field (fun N th ph => rad_E E0 false A N rho th ph) E /\ fast_field (fun N th ph => rad_H M E0 false A N rho th ph) H.
  Proof.
    destruct (fast_csum (fun d n => v1 (Et n d) : C) big big_rapid (fun d n Hn => proj1 (E_terms n d Hn))) as (e1 & X1).
    destruct (fast_csum (fun d n => v2 (Et n d) : C) big big_rapid (fun d n Hn => proj1 (proj2 (E_terms n d Hn)))) as (e2 & X2).
    destruct (fast_csum (fun d n => v3 (Et n d) : C) big big_rapid (fun d n Hn => proj2 (proj2 (E_terms n d Hn)))) as (e3 & X3).
    destruct (fast_csum (fun d n => v1 (Ht n d) : C) big big_rapid (fun d n Hn => proj1 (H_terms n d Hn))) as (h1 & Y1).
    destruct (fast_csum (fun d n => v2 (Ht n d) : C) big big_rapid (fun d n Hn => proj1 (proj2 (H_terms n d Hn)))) as (h2 & Y2).
    destruct (fast_csum (fun d n => v3 (Ht n d) : C) big big_rapid (fun d n Hn => proj2 (proj2 (H_terms n d Hn)))) as (h3 & Y3).
    exists (fun th ph => (e1 (th, ph), e2 (th, ph), e3 (th, ph))), (fun th ph => (h1 (th, ph), h2 (th, ph), h3 (th, ph))).
    assert (T : forall (u : nat -> R * R -> C) (l : R * R -> C) (c : nat -> R * R -> C), fast_all (fun d N => csum1 (fun n => u n d) N) l -> (forall N d, c N d = csum1 (fun n => u n d) N) -> fast_all (fun d N => c N d) l).
    { intros u l c Hu Hc q Hq. destruct (Hu q Hq) as (K & HK & HB). exists K. split; [exact HK|]. intros d N. rewrite Hc. apply HB. }
    unfold rad_E, rad_H. split; intros c [-> |[-> | ->]]; intros q Hq; change c_r with (@v1 R); change c_th with (@v2 R); change c_ph with (@v3 R).
    - destruct (X1 q Hq) as (K & HK & HB). exists K. split; [exact HK|]. intros [th ph] N. rewrite (proj1 (vsum_parts _ _)), csum_l_csum1. exact (HB (th, ph) N).
    - destruct (X2 q Hq) as (K & HK & HB). exists K. split; [exact HK|]. intros [th ph] N. rewrite (proj1 (proj2 (vsum_parts _ _))), csum_l_csum1. exact (HB (th, ph) N).
    - destruct (X3 q Hq) as (K & HK & HB). exists K. split; [exact HK|]. intros [th ph] N. rewrite (proj2 (proj2 (vsum_parts _ _))), csum_l_csum1. exact (HB (th, ph) N).
    - destruct (Y1 q Hq) as (K & HK & HB). exists K. split; [exact HK|]. intros [th ph] N. rewrite (proj1 (vsum_parts _ _)), csum_l_csum1. exact (HB (th, ph) N).
    - destruct (Y2 q Hq) as (K & HK & HB). exists K. split; [exact HK|]. intros [th ph] N. rewrite (proj1 (proj2 (vsum_parts _ _))), csum_l_csum1. exact (HB (th, ph) N).
    - destruct (Y3 q Hq) as (K & HK & HB). exists K. split; [exact HK|]. intros [th ph] N. rewrite (proj2 (proj2 (vsum_parts _ _))), csum_l_csum1. exact (HB (th, ph) N).
  Qed.
End Region.
