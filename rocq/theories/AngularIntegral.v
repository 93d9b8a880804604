(** Orthogonality of the angular functions and the integrated intensity (C07). *)
From Coq Require Import Reals ZArith Lra Lia Bool List Arith.
From Coquelicot Require Import Coquelicot.
From Verif Require Import Ops ROps Spec CLemmas ModelSpecial ModelMie AngularProofs FarFieldProofs.
Import ListNotations.
Open Scope R_scope.

Definition PL (n : nat) (t : R) : R := legendre n (cos t).
Definition PP (n : nat) (t : R) : R := pi_ (cos t) n.
Definition PT (n : nat) (t : R) : R := tau_ (cos t) n.
Definition SP (n : nat) (t : R) : R := sin t * PP n t.

Lemma PL_derive n t : is_derive (PL n) t (- SP n t). Proof. apply leg_cos_derive. Qed.
Lemma SP_derive n t : is_derive (SP n) t (PT n t). Proof. apply sin_pi_derive. Qed.
Lemma DPL n t : Derive (fun x : R => PL n x) t = - SP n t.
Proof. apply is_derive_unique, PL_derive. Qed.
Lemma DSP n t : Derive (fun x : R => SP n x) t = PT n t.
Proof. apply is_derive_unique, SP_derive. Qed.
Lemma PT_eq n t : PT n t = INR n * (INR n + 1) * PL n t - cos t * PP n t.
Proof. apply tau_leg. Qed.
Lemma PP_ex_derive n t : ex_derive (PP n) t.
Proof.
  destruct (pi_derive_ex n (cos t)) as [d [Hd _]].
  unfold PP. apply (ex_derive_comp (fun x => pi_ x n) cos).
  - eexists; exact Hd.
  - auto_derive; trivial.
Qed.
Lemma cont_of_ex (f : R -> R) t : ex_derive f t -> continuous f t.
Proof. apply @ex_derive_continuous. Qed.
Lemma sin_c t : continuous sin t. Proof. apply cont_of_ex. auto_derive; trivial. Qed.
Lemma cos_c t : continuous cos t. Proof. apply cont_of_ex. auto_derive; trivial. Qed.
Lemma PL_c n t : continuous (PL n) t. Proof. apply cont_of_ex. eexists; apply PL_derive. Qed.
Lemma PP_c n t : continuous (PP n) t. Proof. apply cont_of_ex, PP_ex_derive. Qed.
Lemma mul_c (f g : R -> R) t : continuous f t -> continuous g t -> continuous (fun x => f x * g x) t.
Proof. intros Hf Hg. apply (continuous_mult (K := R_AbsRing) f g); assumption. Qed.
Lemma add_c (f g : R -> R) t : continuous f t -> continuous g t -> continuous (fun x => f x + g x) t.
Proof. intros Hf Hg. apply (continuous_plus (V := R_NormedModule) f g); assumption. Qed.
Lemma sub_c (f g : R -> R) t : continuous f t -> continuous g t -> continuous (fun x => f x - g x) t.
Proof. intros Hf Hg. apply (continuous_minus (V := R_NormedModule) f g); assumption. Qed.
Lemma const_c (c : R) (t : R) : continuous (fun _ : R => c) t. Proof. apply continuous_const. Qed.
Lemma PT_c n t : continuous (PT n) t.
Proof.
  apply continuous_ext with (fun t => INR n * (INR n + 1) * PL n t - cos t * PP n t).
  - intros x; now rewrite PT_eq.
  - apply sub_c; apply mul_c; auto using const_c, PL_c, cos_c, PP_c.
Qed.
Ltac cont := lazymatch goal with
  | |- continuous (fun t => _ * _) _ => apply mul_c; cont
  | |- continuous (fun t => _ + _) _ => apply add_c; cont
  | |- continuous (fun t => _ - _) _ => apply sub_c; cont
  | |- continuous (fun t => sin t) _ => exact (sin_c _)
  | |- continuous (fun t => cos t) _ => exact (cos_c _)
  | |- continuous (fun t => PL _ t) _ => exact (PL_c _ _)
  | |- continuous (fun t => PP _ t) _ => exact (PP_c _ _)
  | |- continuous (fun t => PT _ t) _ => exact (PT_c _ _)
  | |- continuous sin _ => exact (sin_c _)
  | |- continuous cos _ => exact (cos_c _)
  | |- continuous (PL _) _ => exact (PL_c _ _)
  | |- continuous (PP _) _ => exact (PP_c _ _)
  | |- continuous (PT _) _ => exact (PT_c _ _)
  | |- continuous (fun t => ?c) _ => exact (const_c c _)
  | |- _ => assumption
  end.

Lemma ftc (F f : R -> R) : (forall t, is_derive F t (f t)) -> (forall t, continuous f t) ->
  is_RInt f 0 PI (F PI - F 0).
Proof.
  intros HD HC. apply (is_RInt_derive F f); intros; auto.
Qed.

Ltac isplus := apply (is_RInt_plus (V := R_NormedModule)).

(* cross terms vanish *)
Lemma cross_int n m : is_RInt (fun t => (PP n t * PT m t + PT n t * PP m t) * sin t) 0 PI 0.
Proof.
  replace 0 with (SP n PI * SP m PI - SP n 0 * SP m 0) at 2
    by (unfold SP; rewrite sin_PI, sin_0; ring).
  apply (ftc (fun t => SP n t * SP m t)).
  - intros t.
    replace ((PP n t * PT m t + PT n t * PP m t) * sin t)
      with (PT n t * SP m t + SP n t * PT m t) by (unfold SP; ring).
    pose proof (SP_derive n t) as Hn. pose proof (SP_derive m t) as Hm.
    auto_derive; [repeat split; eexists; eassumption|].
    rewrite !DSP. ring.
  - intros t. cont.
Qed.

Definition KI (n m : nat) : R := RInt (fun t => PL n t * PL m t * sin t) 0 PI.
Definition JI (n m : nat) : R := RInt (fun t => SP n t * SP m t * sin t) 0 PI.
Definition II (n m : nat) : R := RInt (fun t => (PP n t * PP m t + PT n t * PT m t) * sin t) 0 PI.

Lemma ex_c (f : R -> R) : (forall t, continuous f t) -> ex_RInt f 0 PI.
Proof. intros H. apply @ex_RInt_continuous. intros; apply H. Qed.
Lemma KI_is n m : is_RInt (fun t => PL n t * PL m t * sin t) 0 PI (KI n m).
Proof. apply (RInt_correct (V := R_CompleteNormedModule)), ex_c. intros t. cont. Qed.
Lemma JI_is n m : is_RInt (fun t => SP n t * SP m t * sin t) 0 PI (JI n m).
Proof. apply (RInt_correct (V := R_CompleteNormedModule)), ex_c. intros t. unfold SP. cont. Qed.
Lemma II_is n m : is_RInt (fun t => (PP n t * PP m t + PT n t * PT m t) * sin t) 0 PI (II n m).
Proof. apply (RInt_correct (V := R_CompleteNormedModule)), ex_c. intros t. cont. Qed.

Lemma is_lin (f g : R -> R) (c d u v : R) : is_RInt f 0 PI u -> is_RInt g 0 PI v ->
  is_RInt (fun t => c * f t + d * g t) 0 PI (c * u + d * v).
Proof.
  intros Hf Hg. apply (is_RInt_plus (V := R_NormedModule)); now apply (is_RInt_scal (V := R_NormedModule)).
Qed.
Lemma is_uniq (f g : R -> R) u v : (forall t, f t = g t) -> is_RInt f 0 PI u -> is_RInt g 0 PI v -> u = v.
Proof.
  intros E Hf Hg. apply (is_RInt_ext f g) in Hf; [|intros; apply E].
  rewrite <- (is_RInt_unique _ _ _ _ Hf). apply (is_RInt_unique _ _ _ _ Hg).
Qed.

Lemma sc2 t : sin t * sin t = 1 - cos t * cos t.
Proof. pose proof (sin2_cos2 t) as H. unfold Rsqr in H. lra. Qed.

Lemma II_JI n m : II n m = INR n * (INR n + 1) * JI n m.
Proof.
  assert (HD : is_RInt (fun t => 1 * ((PP n t * PP m t + PT n t * PT m t) * sin t)
                                + (- (INR n * (INR n + 1))) * (SP n t * SP m t * sin t)) 0 PI 0).
  { replace 0 with ((sin PI * PT n PI) * SP m PI - (sin 0 * PT n 0) * SP m 0) at 2
      by (rewrite sin_PI, sin_0; ring).
    apply (ftc (fun t => (sin t * PT n t) * SP m t)).
    - intros t.
      apply is_derive_ext with (fun t => (INR n * (INR n + 1) * (sin t * PL n t) - cos t * SP n t) * SP m t);
        [intros u; rewrite PT_eq; unfold SP; match goal with |- @eq _ ?a ?b => change (@eq R a b) end; ring|].
      pose proof (SP_derive n t) as Hn. pose proof (SP_derive m t) as Hm. pose proof (PL_derive n t) as Hl.
      auto_derive; [repeat split; eexists; eassumption|].
      rewrite !DSP, !DPL.
      rewrite !PT_eq. unfold SP.
      match goal with |- ?l = ?r => 
        assert (E : l - r = ((sin t * sin t) - (1 - cos t * cos t)) * PP n t * PP m t * sin t) by ring end.
      rewrite sc2 in E. lra.
    - intros t. unfold SP. cont. }
  pose proof (is_uniq _ _ _ _ (fun t => eq_refl) HD (is_lin _ _ 1 (- (INR n * (INR n + 1))) _ _ (II_is n m) (JI_is n m))).
  lra.
Qed.
Lemma JI_KI n m : JI n m = INR n * (INR n + 1) * KI n m.
Proof.
  assert (HD : is_RInt (fun t => (INR n * (INR n + 1)) * (PL n t * PL m t * sin t)
                                + (- 1) * (SP n t * SP m t * sin t)) 0 PI 0).
  { replace 0 with ((sin PI * SP n PI) * PL m PI - (sin 0 * SP n 0) * PL m 0) at 2
      by (rewrite sin_PI, sin_0; ring).
    apply (ftc (fun t => (sin t * SP n t) * PL m t)).
    - intros t.
      pose proof (SP_derive n t) as Hn. pose proof (PL_derive m t) as Hl.
      auto_derive; [repeat split; eexists; eassumption|].
      rewrite !DSP, !DPL.
      rewrite PT_eq. unfold SP. ring.
    - intros t. unfold SP. cont. }
  pose proof (is_uniq _ _ _ _ (fun t => eq_refl) HD (is_lin _ _ (INR n * (INR n + 1)) (-1) _ _ (KI_is n m) (JI_is n m))).
  lra.
Qed.
Lemma KI_sym n m : KI n m = KI m n.
Proof. eapply is_uniq; [|apply KI_is|apply KI_is]. intros t; cbn beta; ring. Qed.
Lemma JI_sym n m : JI n m = JI m n.
Proof. eapply is_uniq; [|apply JI_is|apply JI_is]. intros t; cbn beta; ring. Qed.
Lemma KI_off n m : n <> m -> KI n m = 0.
Proof.
  intros Hne. pose proof (JI_KI n m) as H1. pose proof (JI_KI m n) as H2.
  rewrite JI_sym, H2, KI_sym in H1.
  assert (INR n * (INR n + 1) <> INR m * (INR m + 1)).
  { intros E. apply Hne, INR_eq. posn n. posn m.
    assert ((INR n - INR m) * (INR n + INR m + 1) = 0) by lra.
    apply Rmult_integral in H. destruct H; lra. }
  assert ((INR m * (INR m + 1) - INR n * (INR n + 1)) * KI n m = 0) by lra.
  apply Rmult_integral in H0. destruct H0; lra.
Qed.
Lemma KI_diag n : KI n n = 2 / (2 * INR n + 1).
Proof.
  induction n as [|n IH].
  - apply (is_uniq (fun t => PL 0 t * PL 0 t * sin t) sin _ _); [|apply KI_is|].
    + intros t; unfold PL; rewrite leg_0; ring.
    + replace (2 / (2 * INR 0 + 1)) with (- cos PI - - cos 0) by (rewrite cos_PI, cos_0; simpl; field).
      apply (ftc (fun t => - cos t)); [intros t; auto_derive; [trivial|ring]|intros t; exact (sin_c t)].
  - posn n.
    set (X := RInt (fun t => cos t * PL n t * PL (S n) t * sin t) 0 PI).
    assert (HX : is_RInt (fun t => cos t * PL n t * PL (S n) t * sin t) 0 PI X)
      by (apply (RInt_correct (V := R_CompleteNormedModule)), ex_c; intros t; cont).
    assert (E1 : (INR n + 1) * KI (S n) (S n) = (2 * INR n + 1) * X).
    { destruct n as [|n].
      - assert (E : 1 * KI 1 1 + 0 * KI 1 1 = 1 * X + 0 * X).
        { eapply is_uniq; [|exact (is_lin _ _ 1 0 _ _ (KI_is 1 1) (KI_is 1 1))|exact (is_lin _ _ 1 0 _ _ HX HX)].
          intros t; cbn beta. unfold PL; rewrite leg_0, leg_1; ring. }
        simpl; lra.
      - assert (E : (INR (S n) + 1) * KI (S (S n)) (S (S n)) + (INR (S n)) * KI n (S (S n)) =
                     (2 * INR (S n) + 1) * X + 0 * X).
        { eapply is_uniq; [|exact (is_lin _ _ _ _ _ _ (KI_is (S (S n)) (S (S n))) (KI_is n (S (S n))))|exact (is_lin _ _ _ 0 _ _ HX HX)].
          intros t; cbn beta. unfold PL; rewrite leg_SS, S_INR. posn n. field. lra. }
        rewrite (KI_off n (S (S n))) in E by lia. lra. }
    assert (E2 : (2 * INR n + 3) * X = (INR n + 1) * KI n n).
    { assert (E : (2 * INR n + 3) * X + 0 * X = (INR n + 2) * KI n (S (S n)) + (INR n + 1) * KI n n).
      { eapply is_uniq; [|exact (is_lin _ _ _ 0 _ _ HX HX)|exact (is_lin _ _ _ _ _ _ (KI_is n (S (S n))) (KI_is n n))].
        intros t; cbn beta. unfold PL; rewrite leg_SS. field. lra. }
      rewrite (KI_off n (S (S n))) in E by lia. lra. }
    rewrite S_INR. rewrite IH in E2.
    assert (EX : X = (INR n + 1) * (2 / (2 * INR n + 1)) / (2 * INR n + 3))
      by (apply (Rmult_eq_reg_l (2 * INR n + 3)); [rewrite E2; field; lra|lra]).
    rewrite EX in E1. apply (Rmult_eq_reg_l (INR n + 1)); [|lra]. rewrite E1. field. lra.
Qed.
Lemma II_val n m : II n m = if Nat.eq_dec n m then 2 * (INR n * (INR n + 1))² / (2 * INR n + 1) else 0.
Proof.
  rewrite II_JI, JI_KI. destruct (Nat.eq_dec n m) as [<-|Hne].
  - rewrite KI_diag. posn n. unfold Rsqr. field. lra.
  - rewrite KI_off by exact Hne. ring.
Qed.

(** ** Double sums *)
Lemma is_RInt_sum1 (f : nat -> R -> R) (v : nat -> R) N :
  (forall i, (1 <= i <= N)%nat -> is_RInt (f i) 0 PI (v i)) ->
  is_RInt (fun t => sum1 (fun i => f i t) N) 0 PI (sum1 v N).
Proof.
  induction N as [|N IH]; intros H; simpl.
  - pose proof (is_RInt_const (V := R_NormedModule) 0 PI 0) as H0.
    match type of H0 with is_RInt _ _ _ ?v => replace v with 0 in H0; [exact H0|] end.
    unfold scal; simpl; unfold mult; simpl; ring.
  - apply (is_RInt_plus (V := R_NormedModule)); [apply IH; intros; apply H; lia|apply H; lia].
Qed.
Lemma sum1_sqr f N : sum1 f N * sum1 f N = sum1 (fun n => sum1 (fun m => f n * f m) N) N.
Proof.
  rewrite <- (sum1_scal (sum1 f N)). apply sum1_ext. intros n _.
  rewrite sum1_scal. ring.
Qed.
Lemma sum1_delta (g : nat -> R) n N : (1 <= n <= N)%nat ->
  sum1 (fun m => if Nat.eq_dec n m then g m else 0) N = g n.
Proof.
  induction N as [|N IH]; intros Hn; [lia|]. simpl.
  destruct (Nat.eq_dec n (S N)) as [->|Hne].
  - replace (sum1 (fun m => if Nat.eq_dec (S N) m then g m else 0) N) with 0; [ring|].
    symmetry. rewrite (sum1_ext _ (fun _ => 0 * 0)).
    + rewrite sum1_scal. ring.
    + intros i Hi. destruct (Nat.eq_dec (S N) i); [lia|ring].
  - rewrite IH by lia. ring.
Qed.

Definition dot (u v : C) : R := fst u * fst v + snd u * snd v.
Lemma dot_self u : dot u u = (Cmod u)².
Proof. unfold dot, Rsqr. now rewrite Cmod_sqr. Qed.

Lemma intensity_sum n_max a b t :
  @i_per R ROps n_max a b t + @i_par R ROps n_max a b t =
  sum1 (fun n => sum1 (fun m => wR n * wR m *
     ((dot (a n) (a m) + dot (b n) (b m)) * (PP n t * PP m t + PT n t * PT m t)
      + (dot (a n) (b m) + dot (b n) (a m)) / 2 * ((PP n t * PT m t + PT n t * PP m t))
      + (dot (a n) (b m) - dot (b n) (a m)) * 0
      + ((dot (a n) (b m) + dot (b n) (a m)) / 2 * ((PP n t * PT m t + PT n t * PP m t))))) n_max) n_max.
Proof.
  rewrite i_per_eq, i_par_eq. unfold Rsqr. rewrite !Cmod_sqr, S1_eq, S2_eq, !fst_csum1, !snd_csum1.
  rewrite !sum1_sqr, <- !sum1_plus. apply sum1_ext. intros n _.
  rewrite <- !sum1_plus. apply sum1_ext. intros m _.
  fold (PP n t) (PP m t) (PT n t) (PT m t). unfold dot.
  cbn [fst snd Cmult Cplus RtoC]. field.
Qed.

Theorem intensity_integral n_max a b :
  is_RInt (fun t => (@i_per R ROps n_max a b t + @i_par R ROps n_max a b t) * sin t) 0 PI
    (sum1 (fun n => 2 * (2 * INR n + 1) * ((Cmod (a n))² + (Cmod (b n))²)) n_max).
Proof.
  apply (is_RInt_ext (fun t => sum1 (fun n => sum1 (fun m => 
     (wR n * wR m * (dot (a n) (a m) + dot (b n) (b m))) * ((PP n t * PP m t + PT n t * PT m t) * sin t)
      + (wR n * wR m * (dot (a n) (b m) + dot (b n) (a m))) * ((PP n t * PT m t + PT n t * PP m t) * sin t)) n_max) n_max)).
  { intros t _. rewrite intensity_sum, Rmult_comm, <- sum1_scal. apply sum1_ext. intros n _.
    rewrite <- sum1_scal. apply sum1_ext. intros m _. match goal with |- @eq _ ?a ?b => change (@eq R a b) end. field. }
  replace (sum1 (fun n => 2 * (2 * INR n + 1) * ((Cmod (a n))² + (Cmod (b n))²)) n_max)
    with (sum1 (fun n => sum1 (fun m => 
     (wR n * wR m * (dot (a n) (a m) + dot (b n) (b m))) * II n m
      + (wR n * wR m * (dot (a n) (b m) + dot (b n) (a m))) * 0) n_max) n_max).
  - apply is_RInt_sum1. intros n _. apply is_RInt_sum1. intros m _.
    exact (is_lin _ _ _ _ _ _ (II_is n m) (cross_int n m)).
  - apply sum1_ext. intros n Hn.
    rewrite (sum1_ext _ (fun m => if Nat.eq_dec n m
        then wR n * wR m * (dot (a n) (a m) + dot (b n) (b m)) * (2 * (INR n * (INR n + 1))² / (2 * INR n + 1)) else 0)).
    + rewrite (sum1_delta (fun m => wR n * wR m * (dot (a n) (a m) + dot (b n) (b m)) * (2 * (INR n * (INR n + 1))² / (2 * INR n + 1)))) by exact Hn.
      rewrite !dot_self. unfold wR. assert (0 < INR n) by (apply lt_0_INR; lia). unfold Rsqr. field. lra.
    + intros m _. rewrite II_val. destruct (Nat.eq_dec n m); ring.
Qed.

Theorem integrated_intensity n_max (k : R) a b : k <> 0 ->
  PI / (k * k) * RInt (fun t => (@i_per R ROps n_max a b t + @i_par R ROps n_max a b t) * sin t) 0 PI
  = @cs_sca R ROps n_max (RtoC k) a b.
Proof.
  intros Hk. rewrite (is_RInt_unique _ _ _ _ (intensity_integral n_max a b)).
  rewrite cs_sca_sum, <- sum1_plus, <- sum1_scal. apply sum1_ext. intros n Hn.
  rewrite !cs_sca_mp_real by exact Hk. cbn [coef]. field. exact Hk.
Qed.
