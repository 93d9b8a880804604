(** Far-field observables: cross sections and angular scattering (C01-C05, C08). *)
From Coq Require Import Reals ZArith Lra Lia Bool List Arith.
From Coquelicot Require Import Coquelicot.
From Verif Require Import Ops ROps Spec CLemmas ModelSpecial ModelMie AngularProofs.
Import ListNotations.
Open Scope R_scope.

Notation coefR := (@coef R).

Lemma sum01_eq n_max (f : bool -> nat -> C) :
  @sum01 R ROps n_max f = sum1 (fun n => fst (f false n)) n_max + sum1 (fun n => fst (f true n)) n_max.
Proof.
  unfold sum01, types, orders. cbn [map].
  rewrite !csum_cons. change (@nil (cplx R)) with (@nil C). rewrite csum_nil, !csum_seq.
  unfold cre. cbn [fst Cplus RtoC]. rewrite !fst_csum1. ring.
Qed.

Section CS.
  Variables (n_max : nat) (k : C) (r : R) (a b : nat -> C).

  Lemma cs_ext_sum : @cs_ext R ROps n_max k a b =
    sum1 (@cs_ext_multipole R ROps k a b false) n_max + sum1 (@cs_ext_multipole R ROps k a b true) n_max.
  Proof. unfold cs_ext. rewrite sum01_eq. reflexivity. Qed.
  Lemma cs_sca_sum : @cs_sca R ROps n_max k a b =
    sum1 (@cs_sca_multipole R ROps k a b false) n_max + sum1 (@cs_sca_multipole R ROps k a b true) n_max.
  Proof. unfold cs_sca. rewrite sum01_eq. reflexivity. Qed.
  Lemma cs_abs_sum : @cs_abs R ROps n_max k a b =
    sum1 (@cs_abs_multipole R ROps k a b false) n_max + sum1 (@cs_abs_multipole R ROps k a b true) n_max.
  Proof. unfold cs_abs. rewrite sum01_eq. reflexivity. Qed.

  Lemma mp_balance t n : @cs_ext_multipole R ROps k a b t n =
    @cs_sca_multipole R ROps k a b t n + @cs_abs_multipole R ROps k a b t n.
  Proof.
    unfold cs_ext_multipole, cs_sca_multipole, cs_abs_multipole, cs_abs_mp, cre. toC.
    unfold Cminus. cbn [fst Cplus Copp]. ring.
  Qed.
  Lemma cs_balance : @cs_ext R ROps n_max k a b = @cs_sca R ROps n_max k a b + @cs_abs R ROps n_max k a b.
  Proof.
    rewrite cs_ext_sum, cs_sca_sum, cs_abs_sum.
    rewrite (sum1_ext _ _ n_max (fun n _ => mp_balance false n)).
    rewrite (sum1_ext _ _ n_max (fun n _ => mp_balance true n)).
    rewrite !sum1_plus. ring.
  Qed.
End CS.

(* real host: the multipole entries are real numbers *)
Section CSreal.
  Variables (k : R) (a b : nat -> C).
  Hypothesis Hk : k <> 0.
  Lemma prefactor_real : @prefactor R ROps (RtoC k) = RtoC (2 * PI / (k * k)).
  Proof.
    unfold prefactor, csqr, rtwo. toC. cbn -[Cdiv Cmult].
    rewrite <- RtoC_mult, Cdiv_R by (now apply Rmult_integral_contrapositive_currified).
    f_equal.
  Qed.
  Lemma cs_ext_mp_real t n : @cs_ext_multipole R ROps (RtoC k) a b t n =
    2 * PI / (k * k) * (2 * INR n + 1) * fst (coefR a b t n).
  Proof.
    unfold cs_ext_multipole, cs_ext_mp. rewrite prefactor_real, rofn_R. toC.
    rewrite plus_INR, mult_INR. simpl (INR 2). simpl (INR 1).
    unfold cre. cbn. ring.
  Qed.
  Lemma cs_sca_mp_real t n : @cs_sca_multipole R ROps (RtoC k) a b t n =
    2 * PI / (k * k) * (2 * INR n + 1) * (Cmod (coefR a b t n))².
  Proof.
    unfold cs_sca_multipole, cs_sca_mp. rewrite prefactor_real, rofn_R, rsqr_R. toC.
    rewrite plus_INR, mult_INR. simpl (INR 2). simpl (INR 1).
    unfold cre, Rsqr. cbn. ring.
  Qed.
  Lemma pref_pos n : 0 < 2 * PI / (k * k) * (2 * INR n + 1).
  Proof.
    posn n. apply Rmult_lt_0_compat; [|lra].
    apply Rdiv_lt_0_compat; [pose proof PI_RGT_0; lra|]. nra.
  Qed.
  Lemma cs_sca_mp_nonneg t n : 0 <= @cs_sca_multipole R ROps (RtoC k) a b t n.
  Proof.
    rewrite cs_sca_mp_real. apply Rmult_le_pos; [apply Rlt_le, pref_pos|apply Rle_0_sqr].
  Qed.
  Lemma cs_sca_nonneg n_max : 0 <= @cs_sca R ROps n_max (RtoC k) a b.
  Proof.
    rewrite cs_sca_sum. apply Rplus_le_le_0_compat; apply sum1_nonneg; intros; apply cs_sca_mp_nonneg.
  Qed.
  Lemma cs_sca_mp_zero t n : @cs_sca_multipole R ROps (RtoC k) a b t n = 0 -> coefR a b t n = RtoC 0.
  Proof.
    rewrite cs_sca_mp_real. intros H. pose proof (pref_pos n).
    apply Rmult_integral in H. destruct H as [H|H]; [lra|].
    apply Rsqr_0_uniq in H. now apply Cmod_eq_0.
  Qed.
  Lemma cs_sca_zero n_max : @cs_sca R ROps n_max (RtoC k) a b = 0 ->
    forall n, (1 <= n <= n_max)%nat -> a n = RtoC 0 /\ b n = RtoC 0.
  Proof.
    rewrite cs_sca_sum. intros H n Hn.
    assert (HA : 0 <= sum1 (@cs_sca_multipole R ROps (RtoC k) a b false) n_max)
      by (apply sum1_nonneg; intros; apply cs_sca_mp_nonneg).
    assert (HB : 0 <= sum1 (@cs_sca_multipole R ROps (RtoC k) a b true) n_max)
      by (apply sum1_nonneg; intros; apply cs_sca_mp_nonneg).
    split.
    - apply (cs_sca_mp_zero false). eapply sum1_zero; [| |exact Hn]; [intros; apply cs_sca_mp_nonneg|lra].
    - apply (cs_sca_mp_zero true). eapply sum1_zero; [| |exact Hn]; [intros; apply cs_sca_mp_nonneg|lra].
  Qed.
End CSreal.

(** ** Angular scattering *)
Definition wR (n : nat) : R := (2 * INR n + 1) / (INR n * (INR n + 1)).
Lemma ang_w_R n : (1 <= n)%nat -> @ang_w R ROps n = RtoC (wR n).
Proof.
  intros Hn. unfold ang_w. rewrite !rofn_R. toC. f_equal.
  rewrite mult_INR, !plus_INR, mult_INR. simpl (INR 2). simpl (INR 1). reflexivity.
Qed.
Lemma S1_eq n_max a b th : @S1 R ROps n_max a b th =
  csum1 (fun n => (RtoC (wR n) * (a n * RtoC (pi_ (cos th) n) + b n * RtoC (tau_ (cos th) n)))%C) n_max.
Proof.
  unfold S1, orders, mu. cbn [rcos ROps]. rewrite csum_seq. apply csum1_ext. intros n Hn.
  rewrite ang_w_R by lia. reflexivity.
Qed.
Lemma S2_eq n_max a b th : @S2 R ROps n_max a b th =
  csum1 (fun n => (RtoC (wR n) * (a n * RtoC (tau_ (cos th) n) + b n * RtoC (pi_ (cos th) n)))%C) n_max.
Proof.
  unfold S2, orders, mu. cbn [rcos ROps]. rewrite csum_seq. apply csum1_ext. intros n Hn.
  rewrite ang_w_R by lia. reflexivity.
Qed.
Lemma wR_half n : (1 <= n)%nat -> wR n * (INR n * (INR n + 1) / 2) = (2 * INR n + 1) / 2.
Proof.
  intros Hn. unfold wR. assert (0 < INR n) by (apply lt_0_INR; lia). field. lra.
Qed.
Lemma S1_forward n_max a b : @S1 R ROps n_max a b 0 =
  csum1 (fun n => (RtoC ((2 * INR n + 1) / 2) * (a n + b n))%C) n_max.
Proof.
  rewrite S1_eq. apply csum1_ext. intros n Hn. rewrite cos_0, pi_at_1, tau_at_1.
  rewrite <- (wR_half n) by lia. rewrite RtoC_mult. ring.
Qed.
Lemma S2_forward n_max a b : @S2 R ROps n_max a b 0 = @S1 R ROps n_max a b 0.
Proof.
  rewrite S1_eq, S2_eq. apply csum1_ext. intros n Hn. rewrite cos_0, pi_at_1, tau_at_1. ring.
Qed.
Lemma S2_backward n_max a b : @S2 R ROps n_max a b PI = Copp (@S1 R ROps n_max a b PI).
Proof.
  rewrite S1_eq, S2_eq, <- csum1_opp. apply csum1_ext. intros n Hn. rewrite cos_PI.
  replace (-1) with (- (1)) by ring.
  rewrite pi_parity, tau_parity, pi_at_1, tau_at_1.
  replace (- (-1) ^ n * (INR n * (INR n + 1) / 2)) with (- ((-1) ^ n * (INR n * (INR n + 1) / 2))) by ring.
  rewrite RtoC_opp. ring.
Qed.

Lemma optical_theorem n_max (k : R) a b : k <> 0 ->
  @cs_ext R ROps n_max (RtoC k) a b = 4 * PI / (k * k) * fst (@S1 R ROps n_max a b 0).
Proof.
  intros Hk. rewrite cs_ext_sum, S1_forward, fst_csum1, <- sum1_plus, <- sum1_scal.
  apply sum1_ext. intros n Hn. rewrite !cs_ext_mp_real by exact Hk. cbn [coef].
  cbn [fst Cmult RtoC Cplus snd]. field. exact Hk.
Qed.

Section Intens.
  Variables (n_max : nat) (a b : nat -> C).
  Notation iper := (@i_per R ROps n_max a b).
  Notation ipar := (@i_par R ROps n_max a b).
  Notation iunp := (@i_unpol R ROps n_max a b).
  Notation pold := (@pol_degree R ROps n_max a b).
  Lemma i_per_eq th : iper th = (Cmod (@S1 R ROps n_max a b th))².
  Proof. unfold i_per. rewrite rsqr_R. reflexivity. Qed.
  Lemma i_par_eq th : ipar th = (Cmod (@S2 R ROps n_max a b th))².
  Proof. unfold i_par. rewrite rsqr_R. reflexivity. Qed.
  Lemma i_unpol_eq th : iunp th = (iper th + ipar th) / 2.
  Proof. unfold i_unpol, rtwo. cbn -[i_per i_par]. f_equal; ring. Qed.
  Lemma pol_eq th : pold th = (iper th - ipar th) / (iper th + ipar th).
  Proof. reflexivity. Qed.
  Lemma i_per_nonneg th : 0 <= iper th. Proof. rewrite i_per_eq. apply Rle_0_sqr. Qed.
  Lemma i_par_nonneg th : 0 <= ipar th. Proof. rewrite i_par_eq. apply Rle_0_sqr. Qed.
  Lemma pol_bound th : 0 < iunp th -> -1 <= pold th <= 1.
  Proof.
    rewrite i_unpol_eq, pol_eq. intros H.
    pose proof (i_per_nonneg th). pose proof (i_par_nonneg th).
    assert (Hs : 0 < iper th + ipar th) by lra.
    split.
    - apply (Rmult_le_reg_r (iper th + ipar th)); [exact Hs|].
      unfold Rdiv. rewrite Rmult_assoc, Rinv_l by lra. lra.
    - apply (Rmult_le_reg_r (iper th + ipar th)); [exact Hs|].
      unfold Rdiv. rewrite Rmult_assoc, Rinv_l by lra. lra.
  Qed.
  Lemma pol_forward : 0 < iunp 0 -> pold 0 = 0.
  Proof.
    rewrite i_unpol_eq, pol_eq, i_per_eq, i_par_eq, S2_forward. intros H.
    unfold Rdiv. rewrite Rminus_eq_0. ring.
  Qed.
  Lemma pol_backward : 0 < iunp PI -> pold PI = 0.
  Proof.
    rewrite i_unpol_eq, pol_eq, i_per_eq, i_par_eq, S2_backward, Cmod_opp. intros H.
    unfold Rdiv. rewrite Rminus_eq_0. ring.
  Qed.
  Lemma S_cos th th' : cos th = cos th' ->
    @S1 R ROps n_max a b th = @S1 R ROps n_max a b th' /\ @S2 R ROps n_max a b th = @S2 R ROps n_max a b th'.
  Proof. intros H. rewrite !S1_eq, !S2_eq, H. auto. Qed.
  Lemma S_bound th :
    Cmod (@S1 R ROps n_max a b th) <= sum1 (fun n => (2 * INR n + 1) / 2 * (Cmod (a n) + Cmod (b n))) n_max /\
    Cmod (@S2 R ROps n_max a b th) <= sum1 (fun n => (2 * INR n + 1) / 2 * (Cmod (a n) + Cmod (b n))) n_max.
  Proof.
    pose proof (COS_bound th) as Hc.
    assert (HW : forall n, (1 <= n)%nat -> 0 <= wR n).
    { intros n Hn. unfold wR. assert (0 < INR n) by (apply lt_0_INR; lia).
      apply Rlt_le, Rdiv_lt_0_compat; [lra|]. apply Rmult_lt_0_compat; lra. }
    assert (HB : forall n (u v : C) p q, (1 <= n)%nat -> Rabs p <= INR n * (INR n + 1) / 2 ->
       Rabs q <= INR n * (INR n + 1) / 2 ->
       Cmod (RtoC (wR n) * (u * RtoC p + v * RtoC q))%C <= (2 * INR n + 1) / 2 * (Cmod u + Cmod v)).
    { intros n u v p q Hn Hp Hq.
      rewrite Cmod_mult, Cmod_R, (Rabs_pos_eq _ (HW n Hn)).
      rewrite <- (wR_half n Hn), Rmult_assoc. apply Rmult_le_compat_l; [exact (HW n Hn)|].
      eapply Rle_trans; [apply Cmod_triangle|]. rewrite !Cmod_mult, !Cmod_R.
      pose proof (Cmod_ge_0 u). pose proof (Cmod_ge_0 v). nra. }
    rewrite S1_eq, S2_eq. split; (eapply Rle_trans; [apply Cmod_csum1|]); apply sum1_le; intros n Hn.
    - apply HB; [lia|now apply pi_bound|now apply tau_bound].
    - apply HB; [lia|now apply tau_bound|now apply pi_bound].
  Qed.
End Intens.

(** ** Packaged statements *)
Lemma balance_all n_max (k : C) (r : R) (a b : nat -> C) : k <> RtoC 0 -> 0 < r ->
  @cs_ext R ROps n_max k a b = @cs_sca R ROps n_max k a b + @cs_abs R ROps n_max k a b /\
  @q_ext R ROps n_max k r a b = @q_sca R ROps n_max k r a b + @q_abs R ROps n_max k r a b /\
  (forall t n, @cs_ext_multipole R ROps k a b t n =
     @cs_sca_multipole R ROps k a b t n + @cs_abs_multipole R ROps k a b t n) /\
  (forall t n, @q_ext_multipole R ROps k r a b t n =
     @q_sca_multipole R ROps k r a b t n + @q_abs_multipole R ROps k r a b t n).
Proof.
  intros _ Hr. repeat split.
  - apply cs_balance.
  - unfold q_ext, q_sca, q_abs. cbn [rdiv ROps]. rewrite cs_balance. unfold Rdiv; ring.
  - intros; apply mp_balance.
  - intros; unfold q_ext_multipole, q_sca_multipole, q_abs_multipole. cbn [rdiv ROps].
    rewrite mp_balance. unfold Rdiv; ring.
Qed.
Lemma cs_geo_eq r : @cs_geo R ROps r = PI * r ^ 2.
Proof. unfold cs_geo. rewrite rsqr_R. cbn. ring. Qed.
Lemma totals_all n_max (k : C) (r : R) (a b : nat -> C) : k <> RtoC 0 -> 0 < r ->
  @cs_ext R ROps n_max k a b = sum1 (@cs_ext_multipole R ROps k a b false) n_max + sum1 (@cs_ext_multipole R ROps k a b true) n_max /\
  @cs_sca R ROps n_max k a b = sum1 (@cs_sca_multipole R ROps k a b false) n_max + sum1 (@cs_sca_multipole R ROps k a b true) n_max /\
  @cs_abs R ROps n_max k a b = sum1 (@cs_abs_multipole R ROps k a b false) n_max + sum1 (@cs_abs_multipole R ROps k a b true) n_max /\
  @q_ext R ROps n_max k r a b * (PI * r ^ 2) = @cs_ext R ROps n_max k a b /\
  @q_sca R ROps n_max k r a b * (PI * r ^ 2) = @cs_sca R ROps n_max k a b /\
  @q_abs R ROps n_max k r a b * (PI * r ^ 2) = @cs_abs R ROps n_max k a b.
Proof.
  intros _ Hr. split; [apply cs_ext_sum|]. split; [apply cs_sca_sum|]. split; [apply cs_abs_sum|].
  assert (PI * r ^ 2 <> 0).
  { apply Rgt_not_eq, Rmult_lt_0_compat; [apply PI_RGT_0|]. apply pow_lt; exact Hr. }
  unfold q_ext, q_sca, q_abs. cbn [rdiv ROps]. rewrite cs_geo_eq.
  repeat split; field; split; try apply Rgt_not_eq, PI_RGT_0; lra.
Qed.
Lemma sca_nonneg_all (k : R) a b : k <> 0 ->
  (forall t n, 0 <= @cs_sca_multipole R ROps (RtoC k) a b t n) /\
  (forall n_max, 0 <= @cs_sca R ROps n_max (RtoC k) a b) /\
  (forall n_max, @cs_sca R ROps n_max (RtoC k) a b = 0 ->
     forall n, (1 <= n <= n_max)%nat -> a n = RtoC 0 /\ b n = RtoC 0).
Proof.
  intros Hk. split; [|split].
  - intros; now apply cs_sca_mp_nonneg.
  - intros; now apply cs_sca_nonneg.
  - intros n_max H n Hn. eapply cs_sca_zero; eauto.
Qed.
Lemma fwd_bwd_all n_max a b :
  @S2 R ROps n_max a b 0 = @S1 R ROps n_max a b 0 /\
  @S2 R ROps n_max a b PI = Copp (@S1 R ROps n_max a b PI) /\
  (0 < @i_unpol R ROps n_max a b 0 -> @pol_degree R ROps n_max a b 0 = 0) /\
  (0 < @i_unpol R ROps n_max a b PI -> @pol_degree R ROps n_max a b PI = 0).
Proof.
  split; [apply S2_forward|]. split; [apply S2_backward|]. split; [apply pol_forward|apply pol_backward].
Qed.
Lemma intens_all n_max a b th :
  0 <= @i_per R ROps n_max a b th /\ 0 <= @i_par R ROps n_max a b th /\
  0 <= @i_unpol R ROps n_max a b th /\
  @i_unpol R ROps n_max a b th = (@i_per R ROps n_max a b th + @i_par R ROps n_max a b th) / 2 /\
  (0 < @i_unpol R ROps n_max a b th -> -1 <= @pol_degree R ROps n_max a b th <= 1).
Proof.
  pose proof (i_per_nonneg n_max a b th). pose proof (i_par_nonneg n_max a b th).
  repeat split; auto.
  - rewrite i_unpol_eq. lra.
  - apply i_unpol_eq.
  - now apply pol_bound.
  - now apply pol_bound.
Qed.
Lemma even_periodic n_max a b th :
  @S1 R ROps n_max a b (- th) = @S1 R ROps n_max a b th /\
  @S2 R ROps n_max a b (- th) = @S2 R ROps n_max a b th /\
  @S1 R ROps n_max a b (th + 2 * PI) = @S1 R ROps n_max a b th /\
  @S2 R ROps n_max a b (th + 2 * PI) = @S2 R ROps n_max a b th.
Proof.
  pose proof (S_cos n_max a b (- th) th (cos_neg th)) as [H1 H2].
  assert (E : cos (th + 2 * PI) = cos th)
    by (replace (2 * PI) with (2 * INR 1 * PI) by (simpl; ring); apply cos_period).
  pose proof (S_cos n_max a b _ _ E) as [H3 H4].
  auto.
Qed.
