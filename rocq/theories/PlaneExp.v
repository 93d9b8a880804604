(** The partial-wave expansion of the plane wave (vector Rayleigh expansion), for complex radial arguments. *)
From Coq Require Import Reals ZArith Lra Lia Bool List Arith.
From Coquelicot Require Import Coquelicot.
From Verif Require Import Ops ROps Spec CLemmas CTrig ComplexDiff ModelSpecial AngularProofs BesselProofs BesselSpec BesselTrue ConvergeSpec BesselMinimal BesselLimits.
Import ListNotations.
Open Scope R_scope.

(** ** mean value bounds with powers of the ray parameter *)
Lemma pow_mono_le (f df : R -> R) (K a b : R) k : 0 <= a <= b -> (forall s, a <= s <= b -> is_derive f s (df s)) ->
  (forall s, a <= s <= b -> df s <= K * s ^ k) -> f b - f a <= K * (b ^ S k - a ^ S k) / INR (S k).
Proof.
  intros Hab Hd HK. pose proof (lt_0_INR (S k) ltac:(lia)) as Hk.
  set (h := fun s => f s - K * s ^ S k / INR (S k)).
  assert (Hh : forall s, a <= s <= b -> is_derive h s (df s - K * s ^ k)).
  { intros s Hs. unfold h. apply (is_derive_minus (V := R_NormedModule)); [now apply Hd|].
    apply (is_derive_ext (fun s => K / INR (S k) * s ^ S k)); [intros t; match goal with |- ?a = ?b => change (@eq R a b) end; field; lra|].
    replace (K * s ^ k) with (K / INR (S k) * (INR (S k) * 1 * s ^ pred (S k))) by (cbn [pred]; field; lra).
    apply (is_derive_scal (fun s => s ^ S k)). apply (is_derive_pow (fun s => s)). apply (is_derive_id (K := R_AbsRing)). }
  destruct (MVT_gen h a b (fun s => df s - K * s ^ k)) as (t & Ht & E).
  - rewrite Rmin_left, Rmax_right by lra. intros s Hs. apply Hh. lra.
  - rewrite Rmin_left, Rmax_right by lra. intros s Hs. apply continuity_pt_filterlim, (ex_derive_continuous (V := R_NormedModule)). eexists. now apply Hh.
  - rewrite Rmin_left, Rmax_right in Ht by lra. pose proof (HK t Ht) as Q.
    assert (h b - h a <= 0) by (rewrite E; nra). unfold h in H.
    replace (K * (b ^ S k - a ^ S k) / INR (S k)) with (K * b ^ S k / INR (S k) - K * a ^ S k / INR (S k)) by (field; lra). lra.
Qed.
Lemma pow_mvt (f df : R -> R) (K a b : R) k : 0 <= a <= b -> (forall s, a <= s <= b -> is_derive f s (df s)) ->
  (forall s, a <= s <= b -> Rabs (df s) <= K * s ^ k) -> Rabs (f b - f a) <= K * (b ^ S k - a ^ S k) / INR (S k).
Proof.
  intros Hab Hd HK. apply Rabs_le. split.
  - pose proof (pow_mono_le (fun s => - f s) (fun s => - df s) K a b k Hab) as Q.
    assert (Q1 : - f b - - f a <= K * (b ^ S k - a ^ S k) / INR (S k)).
    { apply Q; [intros s Hs; apply (is_derive_opp (V := R_NormedModule)); now apply Hd|]. intros s Hs. pose proof (HK s Hs). pose proof (Rle_abs (- df s)). rewrite Rabs_Ropp in *. lra. }
    lra.
  - apply (pow_mono_le f df K a b k Hab Hd). intros s Hs. pose proof (HK s Hs). pose proof (Rle_abs (df s)). lra.
Qed.
Lemma fst_le (c : C) : Rabs (fst c) <= Cmod c.
Proof. pose proof (Rmax_Cmod c). pose proof (Rmax_l (Rabs (fst c)) (Rabs (snd c))). lra. Qed.
Lemma snd_le (c : C) : Rabs (snd c) <= Cmod c.
Proof. pose proof (Rmax_Cmod c). pose proof (Rmax_r (Rabs (fst c)) (Rabs (snd c))). lra. Qed.
Lemma ray_pow (F dF : C -> C) (z : C) (K a b : R) k : 0 <= a <= b -> (forall s, a <= s <= b -> Cderive F (RtoC s * z)%C (dF (RtoC s * z)%C)) ->
  (forall s, a <= s <= b -> Cmod (z * dF (RtoC s * z))%C <= K * s ^ k) -> Cmod (F (RtoC b * z) - F (RtoC a * z))%C <= 2 * (K * (b ^ S k - a ^ S k) / INR (S k)).
Proof.
  intros Hab Hd HK.
  assert (E0 : forall s, (0 + RtoC s * z)%C = (RtoC s * z)%C) by (intros; ring).
  assert (D : forall s, a <= s <= b -> is_derive (fun s => fst (F (0 + RtoC s * z)%C)) s (fst (z * dF (RtoC s * z))%C) /\ is_derive (fun s => snd (F (0 + RtoC s * z)%C)) s (snd (z * dF (RtoC s * z))%C)).
  { intros s Hs. apply (ray_derive F z 0 _ s). rewrite E0. now apply Hd. }
  pose proof (pow_mvt _ (fun s => fst (z * dF (RtoC s * z))%C) K a b k Hab (fun s Hs => proj1 (D s Hs)) (fun s Hs => Rle_trans _ _ _ (fst_le _) (HK s Hs))) as M1.
  pose proof (pow_mvt _ (fun s => snd (z * dF (RtoC s * z))%C) K a b k Hab (fun s Hs => proj2 (D s Hs)) (fun s Hs => Rle_trans _ _ _ (snd_le _) (HK s Hs))) as M2.
  cbv beta in M1, M2. rewrite !E0 in M1, M2.
  eapply Rle_trans; [apply Cmod_le_abs|]. unfold Cminus, Cplus, Copp. cbn [fst snd].
  unfold Rminus in M1, M2. lra.
Qed.

(** ** |j_n(w)| <= b_n |w|^n on the ray, b_n ~ 2^n / (2n+1)!! *)
Section Ray.
  Variable z : C.
  Notation m := (Cmod z).
  Definition cM : R := 2 * exp m.
  Lemma cM_pos : 0 < cM. Proof. unfold cM. pose proof (exp_pos m). lra. Qed.
  Lemma trig_bound t : 0 <= t <= 1 -> Cmod (Ccos (RtoC t * z)%C) <= cM /\ Cmod (Csin (RtoC t * z)%C) <= cM.
  Proof.
    intros Ht. unfold cM.
    set (w := (RtoC t * z)%C). assert (Hw : Rabs (snd w) <= m).
    { eapply Rle_trans; [apply snd_le|]. unfold w. rewrite Cmod_mult, Cmod_R, Rabs_pos_eq by lra. pose proof (Cmod_ge_0 z). nra. }
    assert (Ex : forall x, Rabs x <= m -> exp x <= exp m).
    { intros x Hx. destruct (Req_dec x m) as [->|]; [lra|]. left. apply exp_increasing. pose proof (Rle_abs x). lra. }
    pose proof (Ex _ Hw). pose proof (Ex (- snd w)) as E2. rewrite Rabs_Ropp in E2. specialize (E2 Hw).
    pose proof (exp_pos (snd w)). pose proof (exp_pos (- snd w)).
    assert (Rabs (sin (fst w)) <= 1) by (apply Rabs_le; pose proof (SIN_bound (fst w)); lra).
    assert (Rabs (cos (fst w)) <= 1) by (apply Rabs_le; pose proof (COS_bound (fst w)); lra).
    assert (Rabs ((exp (snd w) + exp (- snd w)) / 2) <= exp m) by (apply Rabs_le; lra).
    assert (Rabs ((exp (snd w) - exp (- snd w)) / 2) <= exp m) by (apply Rabs_le; lra).
    pose proof (Rabs_pos (sin (fst w))). pose proof (Rabs_pos (cos (fst w))). pose proof (exp_pos m).
    pose proof (Rabs_pos ((exp (snd w) + exp (- snd w)) / 2)). pose proof (Rabs_pos ((exp (snd w) - exp (- snd w)) / 2)).
    split; (eapply Rle_trans; [apply Cmod_le_abs|]); unfold Ccos, Csin; cbn [fst snd]; rewrite ?Rabs_Ropp, !Rabs_mult; nra.
  Qed.
  Fixpoint bb (n : nat) : R := match n with O => 2 * cM | S k => bb k * 2 / INR (2 * k + 3) end.
  Lemma bb_pos n : 0 < bb n.
  Proof. induction n as [|n IH]; cbn [bb]; [pose proof cM_pos; lra|]. apply Rdiv_lt_0_compat; [lra|]. apply lt_0_INR. lia. Qed.
  Lemma Csin_0 : Csin 0 = 0%C.
  Proof. unfold Csin; apply C_eq; cbn; rewrite ?Ropp_0, ?sin_0, ?exp_0; unfold Rdiv; ring. Qed.
  Lemma Ff_pow n : forall t, 0 <= t <= 1 -> Cmod (Ff n (RtoC t * z)%C) <= bb n * m ^ (2 * n + 1) * t ^ (2 * n + 1).
  Proof.
    pose proof (Cmod_ge_0 z) as Hm.
    induction n as [|n IH]; intros t Ht.
    - unfold Ff. cbn [Fpair fst bb]. change (2 * 0 + 1)%nat with 1%nat.
      assert (Q : Cmod (Csin (RtoC t * z) - Csin (RtoC 0 * z))%C <= 2 * (m * cM * (t ^ 1 - 0 ^ 1) / INR 1)).
      { apply (ray_pow Csin Ccos); [lra|intros; apply Cderive_sin|]. intros s Hs. rewrite Cmod_mult, pow_O, Rmult_1_r.
        apply Rmult_le_compat_l; [exact Hm|]. apply trig_bound. lra. }
      replace (RtoC 0 * z)%C with (RtoC 0) in Q by ring. rewrite Csin_0 in Q.
      replace (Csin (RtoC t * z) - 0)%C with (Csin (RtoC t * z)%C) in Q by ring. eapply Rle_trans; [exact Q|]. right. simpl INR. field.
    - assert (Q : Cmod (Ff (S n) (RtoC t * z) - Ff (S n) (RtoC 0 * z))%C <= 2 * (m * m * (bb n * m ^ (2 * n + 1)) * (t ^ S (2 * n + 2) - 0 ^ S (2 * n + 2)) / INR (S (2 * n + 2)))).
      { apply (ray_pow (Ff (S n)) (fun w => w * Ff n w)%C); [lra|intros; apply Ff_derive|]. intros s Hs.
        rewrite !Cmod_mult, Cmod_R, Rabs_pos_eq by lra. specialize (IH s ltac:(lra)).
        replace (s ^ (2 * n + 2)) with (s * s ^ (2 * n + 1)) by (replace (2 * n + 2)%nat with (S (2 * n + 1)) by lia; reflexivity).
        apply Rle_trans with (m * (s * m * (bb n * m ^ (2 * n + 1) * s ^ (2 * n + 1)))); [|right; ring].
        apply Rmult_le_compat_l; [exact Hm|]. apply Rmult_le_compat_l; [nra|exact IH]. }
      replace (RtoC 0 * z)%C with (RtoC 0) in Q by ring. rewrite Ff_0 in Q.
      replace (Ff (S n) (RtoC t * z) - 0)%C with (Ff (S n) (RtoC t * z)%C) in Q by ring. eapply Rle_trans; [exact Q|]. right.
      rewrite pow_ne_zero by lia. cbn [bb]. replace (2 * n + 3)%nat with (S (2 * n + 2)) by lia. replace (2 * S n + 1)%nat with (S (2 * n + 2)) by lia.
      replace (m ^ S (2 * n + 2)) with (m * m * m ^ (2 * n + 1)) by (replace (S (2 * n + 2)) with (S (S (2 * n + 1))) by lia; cbn [pow]; ring).
      pose proof (lt_0_INR (S (2 * n + 2)) ltac:(lia)). field. lra.
  Qed.
  Hypothesis Hz : z <> 0%C.
  Lemma m_pos' : 0 < m. Proof. now apply Cmod_gt_0. Qed.
  Lemma ray_nz t : 0 < t -> (RtoC t * z)%C <> 0%C.
  Proof. intros Ht E. apply (f_equal Cmod) in E. rewrite Cmod_mult, Cmod_R, Rabs_pos_eq, Cmod_0 in E by lra. pose proof m_pos'. nra. Qed.
  Lemma j_pow n t : 0 < t <= 1 -> Cmod (true_j n (RtoC t * z)%C) <= bb n * (t * m) ^ n.
  Proof.
    intros Ht. pose proof m_pos' as Hm. pose proof (ray_nz t (proj1 Ht)) as Hw. set (w := (RtoC t * z)%C) in *.
    assert (Ew : Cmod w = t * m) by (unfold w; rewrite Cmod_mult, Cmod_R, Rabs_pos_eq; lra).
    pose proof (Ff_pow n t ltac:(lra)) as B. fold w in B. rewrite (Ff_psi w n Hw) in B. unfold true_psi in B.
    rewrite !Cmod_mult, Cpow_n_mod, Ew in B.
    assert (P : 0 < (t * m) ^ S n) by (apply pow_lt; nra).
    apply (Rmult_le_reg_l _ _ _ P). replace ((t * m) ^ S n * Cmod (true_j n w)) with ((t * m) ^ n * (t * m * Cmod (true_j n w))) by (cbn [pow]; ring).
    eapply Rle_trans; [exact B|]. right. rewrite Rmult_assoc, <- Rpow_mult_distr, (Rmult_comm m t). replace (2 * n + 1)%nat with (S n + n)%nat by lia. rewrite pow_add. ring.
  Qed.
End Ray.

(** ** the bound vanishes *)
Definition ee (z : C) (n : nat) : R := (INR n + 2) ^ 3 * (bb z n * Cmod z ^ n).
Lemma ee_pos (z : C) n : z <> 0%C -> 0 < ee z n.
Proof.
  intros Hz. unfold ee. pose proof (pos_INR n). pose proof (bb_pos z n). pose proof (proj1 (Cmod_gt_0 z) Hz).
  repeat apply Rmult_lt_0_compat; try apply pow_lt; lra.
Qed.
Lemma ee_step (z : C) n : z <> 0%C -> 32 * Cmod z <= INR (2 * n + 3) -> ee z (S n) <= / 2 * ee z n.
Proof.
  intros Hz H. unfold ee. cbn [bb pow]. pose proof (pos_INR n) as Hn. pose proof (bb_pos z n) as Hb. pose proof (proj1 (Cmod_gt_0 z) Hz) as Hm.
  pose proof (pow_lt _ n Hm) as Hp. pose proof (lt_0_INR (2 * n + 3) ltac:(lia)) as Hd. set (d := INR (2 * n + 3)) in *.
  assert (X : 2 * Cmod z / d <= / 16). { apply (Rmult_le_reg_r d); [exact Hd|]. unfold Rdiv. rewrite Rmult_assoc, Rinv_l by lra. lra. }
  assert (Y : (INR (S n) + 2) ^ 3 <= 8 * (INR n + 2) ^ 3).
  { rewrite S_INR. replace (8 * (INR n + 2) ^ 3) with ((2 * (INR n + 2)) ^ 3) by ring. apply pow_incr. lra. }
  set (bm := bb z n * Cmod z ^ n) in *. assert (Hbm : 0 < bm) by (unfold bm; nra).
  replace ((INR (S n) + 2) * ((INR (S n) + 2) * ((INR (S n) + 2) * 1)) * (bb z n * 2 / d * (Cmod z * Cmod z ^ n))) with ((INR (S n) + 2) ^ 3 * (bm * (2 * Cmod z / d))) by (unfold bm; field; lra).
  change ((INR n + 2) * ((INR n + 2) * ((INR n + 2) * 1))) with ((INR n + 2) ^ 3).
  assert (0 < (INR n + 2) ^ 3) by (apply pow_lt; lra). assert (0 <= 2 * Cmod z / d) by (apply Rdiv_le_0_compat; lra).
  assert (0 < (INR (S n) + 2) ^ 3) by (apply pow_lt; rewrite S_INR; lra).
  apply Rle_trans with (8 * (INR n + 2) ^ 3 * (bm * / 16)); [|right; field]. apply Rmult_le_compat; try nra.
Qed.
Definition vanish (u : nat -> R) : Prop := forall eps, 0 < eps -> exists M, forall N, (M <= N)%nat -> u N < eps.
Lemma vanish_ee (z : C) : z <> 0%C -> vanish (ee z).
Proof.
  intros Hz. destruct (archimed (32 * Cmod z)) as [Ha _]. set (n0 := Z.to_nat (up (32 * Cmod z))).
  assert (H0 : 32 * Cmod z <= INR n0).
  { unfold n0. rewrite INR_IZR_INZ, Z2Nat.id; [lra|]. apply le_IZR. pose proof (Cmod_ge_0 z). lra. }
  assert (G : forall k, ee z (n0 + k) <= ee z n0 * (/ 2) ^ k).
  { induction k as [|k IH]; [rewrite Nat.add_0_r; cbn [pow]; lra|]. rewrite Nat.add_succ_r. eapply Rle_trans; [apply (ee_step z _ Hz)|].
    - eapply Rle_trans; [exact H0|]. apply le_INR. lia.
    - cbn [pow]. lra. }
  intros eps He. pose proof (ee_pos z n0 Hz) as Hp.
  destruct (pow_lt_1_zero (/ 2) ltac:(rewrite Rabs_pos_eq; lra) (eps / ee z n0) ltac:(now apply Rdiv_lt_0_compat)) as [K HK].
  exists (n0 + K)%nat. intros N HN. replace N with (n0 + (N - n0))%nat by lia. eapply Rle_lt_trans; [apply G|].
  specialize (HK (N - n0)%nat ltac:(lia)). rewrite Rabs_pos_eq in HK by (apply pow_le; lra).
  apply (Rmult_lt_compat_l (ee z n0)) in HK; [|exact Hp]. replace (ee z n0 * (eps / ee z n0)) with eps in HK by (field; lra). exact HK.
Qed.
Lemma vanish_S u : vanish u -> vanish (fun N => u (S N)).
Proof. intros H eps He. destruct (H eps He) as [M HM]. exists M. intros N HN. apply HM. lia. Qed.
Lemma vanish_plus u v : vanish u -> vanish v -> vanish (fun N => u N + v N).
Proof.
  intros H K eps He. destruct (H (eps / 2) ltac:(lra)) as [M HM]. destruct (K (eps / 2) ltac:(lra)) as [M' HM']. exists (M + M')%nat. intros N HN.
  specialize (HM N ltac:(lia)). specialize (HM' N ltac:(lia)). lra.
Qed.
Lemma vanish_scal c u : 0 < c -> vanish u -> vanish (fun N => c * u N).
Proof.
  intros Hc H eps He. destruct (H (eps / c) ltac:(now apply Rdiv_lt_0_compat)) as [M HM]. exists M. intros N HN. specialize (HM N HN).
  apply (Rmult_lt_compat_l c) in HM; [|exact Hc]. replace (c * (eps / c)) with eps in HM by (field; lra). exact HM.
Qed.
Lemma vanish_tends (u : nat -> C) (l : C) e : vanish e -> (forall N, (1 <= N)%nat -> Cmod (u N - l)%C <= e N) -> tends u l.
Proof.
  intros H B eps He. destruct (H eps He) as [M HM]. exists (S M). intros N HN. eapply Rle_lt_trans; [apply B; lia|apply HM; lia].
Qed.
