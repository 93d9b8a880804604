(** Termwise differentiation of the multipole series (C90). *)
From Coq Require Import Reals ZArith Lra Lia Bool List Arith.
From Coquelicot Require Import Coquelicot.
From Verif Require Import Ops ROps Spec StackSpec CLemmas CTrig ComplexDiff BesselSpec ConvergeSpec ModelNear NearSpec MaxwellSpec MaxwellProofs PlaneExp Passive SeriesSpec SeriesGrowth SeriesDecay SeriesSum SeriesFar SeriesRegion.
Open Scope R_scope.
Arguments Cmod x%C_scope.

(** ** limit of derivatives *)
Lemma mvt_bound (f df : R -> R) a b M : a <= b -> (forall t, a <= t <= b -> is_derive f t (df t)) -> (forall t, a <= t <= b -> Rabs (df t) <= M) -> Rabs (f b - f a) <= M * (b - a).
Proof.
  intros Hab Hd Hm. destruct (MVT_gen f a b df) as (c & Hc & E).
  - intros t Ht. rewrite Rmin_left, Rmax_right in Ht by lra. apply Hd; lra.
  - intros t Ht. rewrite Rmin_left, Rmax_right in Ht by lra. apply derivable_continuous_pt. exists (df t). apply is_derive_Reals, Hd; lra.
  - rewrite Rmin_left, Rmax_right in Hc by lra. rewrite E, Rabs_mult, (Rabs_pos_eq (b - a)) by lra. apply Rmult_le_compat_r; [lra|]. now apply Hm.
Qed.
Lemma mvt_sym (f df : R -> R) a b x y M : (forall t, a < t < b -> is_derive f t (df t)) -> (forall t, a < t < b -> Rabs (df t) <= M) -> a < x < b -> a < y < b -> Rabs (f y - f x) <= M * Rabs (y - x).
Proof.
  intros Hd Hm Hx Hy. destruct (Rle_dec x y).
  - rewrite (Rabs_pos_eq (y - x)) by lra. apply mvt_bound with df; [lra|intros; apply Hd; lra|intros; apply Hm; lra].
  - rewrite (Rabs_minus_sym (f y)), (Rabs_minus_sym y), (Rabs_pos_eq (x - y)) by lra. apply mvt_bound with df; [lra|intros; apply Hd; lra|intros; apply Hm; lra].
Qed.
Lemma lim_abs_le (u : nat -> R) (l B : R) N : is_lim_seq u l -> (forall M, (N <= M)%nat -> Rabs (u M) <= B) -> Rabs l <= B.
Proof.
  intros Hu HB. apply Rabs_le. split.
  - change (Rbar_le (- B) l). apply (is_lim_seq_le_loc (fun _ => - B) u (- B) l); [|apply is_lim_seq_const|exact Hu]. exists N. intros M HM. pose proof (proj1 (Rabs_le_between (u M) B) (HB M HM)). lra.
  - change (Rbar_le l B). apply (is_lim_seq_le_loc u (fun _ => B) l B); [|exact Hu|apply is_lim_seq_const]. exists N. intros M HM. pose proof (proj1 (Rabs_le_between (u M) B) (HB M HM)). lra.
Qed.
Lemma limit_derive (F G : nat -> R -> R) (fl : R -> R) (gl : R) a b t0 (e : nat -> R) : a < t0 < b ->
  (forall N t, a < t < b -> is_derive (F N) t (G N t)) -> (forall N M t, (N <= M)%nat -> a < t < b -> Rabs (G M t - G N t) <= e N) ->
  (forall t, a < t < b -> is_lim_seq (fun N => F N t) (fl t)) -> is_lim_seq (fun N => G N t0) gl -> (forall eps, 0 < eps -> exists N, e N < eps) -> is_derive fl t0 gl.
Proof.
  intros Ht Hd Hc HF HG He. apply is_derive_Reals. intros eps Heps. destruct (He (eps / 4) ltac:(lra)) as [N HN].
  assert (A1 : Rabs (gl - G N t0) <= e N).
  { apply (lim_abs_le (fun M => G M t0 - G N t0) (gl - G N t0) (e N) N); [|intros M HM; now apply Hc].
    apply (is_lim_seq_minus' _ _ gl (G N t0)); [exact HG|apply is_lim_seq_const]. }
  pose proof (proj1 (is_derive_Reals _ _ _) (Hd N t0 Ht) (eps / 4) ltac:(lra)) as [d Hdd].
  assert (P : 0 < Rmin d (Rmin (t0 - a) (b - t0))) by (apply Rmin_glb_lt; [apply cond_pos|apply Rmin_glb_lt; lra]).
  exists (mkposreal _ P). intros h Hh Hlt. cbn in Hlt. pose proof (Rmin_l d (Rmin (t0 - a) (b - t0))). pose proof (Rmin_r d (Rmin (t0 - a) (b - t0))). pose proof (Rmin_l (t0 - a) (b - t0)). pose proof (Rmin_r (t0 - a) (b - t0)).
  assert (Hin : a < t0 + h < b) by (pose proof (Rle_abs h); pose proof (Rle_abs (- h)); rewrite Rabs_Ropp in *; lra).
  specialize (Hdd h Hh ltac:(lra)).
  assert (A2 : Rabs ((fl (t0 + h) - F N (t0 + h)) - (fl t0 - F N t0)) <= e N * Rabs h).
  { apply (lim_abs_le (fun M => (F M (t0 + h) - F N (t0 + h)) - (F M t0 - F N t0)) _ _ N).
    - apply (is_lim_seq_minus' _ _ (fl (t0 + h) - F N (t0 + h)) (fl t0 - F N t0)).
      + apply (is_lim_seq_minus' _ _ (fl (t0 + h)) (F N (t0 + h))); [now apply HF|apply is_lim_seq_const].
      + apply (is_lim_seq_minus' _ _ (fl t0) (F N t0)); [now apply HF|apply is_lim_seq_const].
    - intros M HM. replace h with (t0 + h - t0) at 3 by ring. apply (mvt_sym (fun t => F M t - F N t) (fun t => G M t - G N t) a b); [|intros; now apply Hc|exact Ht|exact Hin].
      intros t Htt. apply (@is_derive_minus R_AbsRing R_NormedModule); now apply Hd. }
  replace ((fl (t0 + h) - fl t0) / h - gl) with (((F N (t0 + h) - F N t0) / h - G N t0) + (((fl (t0 + h) - F N (t0 + h)) - (fl t0 - F N t0)) / h - (gl - G N t0))) by (field; exact Hh).
  eapply Rle_lt_trans; [apply Rabs_triang|]. assert (A3 : Rabs (((fl (t0 + h) - F N (t0 + h)) - (fl t0 - F N t0)) / h) <= e N).
  { unfold Rdiv. rewrite Rabs_mult, Rabs_inv. pose proof (Rabs_pos_lt h Hh). apply (Rmult_le_reg_r (Rabs h)); [assumption|]. rewrite Rmult_assoc, Rinv_l by lra. lra. }
  pose proof (Rabs_triang (((fl (t0 + h) - F N (t0 + h)) - (fl t0 - F N t0)) / h) (- (gl - G N t0))) as A4. rewrite Rabs_Ropp in A4.
  set (Y := ((fl (t0 + h) - F N (t0 + h)) - (fl t0 - F N t0)) / h) in *. set (Z := gl - G N t0) in *. change (Y + - Z) with (Y - Z) in A4. lra.
Qed.

(** ** series *)
Lemma rc_csum (f g : nat -> R -> C) t N : (forall n, (1 <= n)%nat -> RCderive (f n) t (g n t)) -> RCderive (fun s => csum1 (fun n => f n s) N) t (csum1 (fun n => g n t) N).
Proof. intros H. induction N as [|N IH]; cbn [csum1]; [apply rc_const|]. apply rc_plus; [exact IH|apply H; lia]. Qed.
Lemma tends_fst (u : nat -> C) l : tends u l -> is_lim_seq (fun N => fst (u N)) (fst l).
Proof.
  intros H. apply is_lim_seq_spec. intros eps. destruct (H eps (cond_pos eps)) as [M HM]. exists M. intros N HN. specialize (HM N HN). eapply Rle_lt_trans; [|exact HM].
  change (fst (u N) - fst l) with (fst (u N - l)%C). apply fst_le.
Qed.
Lemma tends_snd (u : nat -> C) l : tends u l -> is_lim_seq (fun N => snd (u N)) (snd l).
Proof.
  intros H. apply is_lim_seq_spec. intros eps. destruct (H eps (cond_pos eps)) as [M HM]. exists M. intros N HN. specialize (HM N HN). eapply Rle_lt_trans; [|exact HM].
  change (snd (u N) - snd l) with (snd (u N - l)%C). apply snd_le.
Qed.
(* derivative of a limit, together with the derivatives of the partial sums *)
Definition dlim (fN : nat -> R -> C) (f : R -> C) (t : R) : Prop :=
  exists (dN : nat -> C) (d : C), (forall N, RCderive (fN N) t (dN N)) /\ tends dN d /\ RCderive f t d.
Theorem series_derive (f g : nat -> R -> C) (u : nat -> R) (S : R -> C) a b t0 : a < t0 < b -> rapid u ->
  (forall n t, (1 <= n)%nat -> a < t < b -> RCderive (f n) t (g n t) /\ Cmod (g n t) <= u n) ->
  (forall t, a < t < b -> tends (fun N => csum1 (fun n => f n t) N) (S t)) -> dlim (fun N t => csum1 (fun n => f n t) N) S t0.
Proof.
  intros Ht Hu H HS.
  pose (I := {t : R | a < t < b}). pose (h := fun (i : I) n => g n (proj1_sig i)).
  assert (Hh : forall i n, (1 <= n)%nat -> Cmod (h i n) <= u n) by (intros [t Hi] n Hn; apply (H n t Hn Hi)).
  destruct (family_sum h u Hu Hh) as (G & FG). pose (i0 := exist _ t0 Ht : I).
  assert (T0 : tends (fun N => csum1 (fun n => g n t0) N) (G i0)).
  { destruct (FG (/ 2) ltac:(lra)) as (K & HK & HB). intros eps He. destruct (pow_small (/ 2) ltac:(lra) (eps / K) ltac:(now apply Rdiv_lt_0_compat)) as [N HN]. exists N. intros M HM. eapply Rle_lt_trans; [apply (HB i0)|].
    specialize (HN M HM). apply (Rmult_lt_compat_l K) in HN; [|exact HK]. replace (K * (eps / K)) with eps in HN by (field; lra). exact HN. }
  exists (fun N => csum1 (fun n => g n t0) N), (G i0). split; [intros N; apply (rc_csum f g); intros n Hn; apply (H n t0 Hn Ht)|]. split; [exact T0|].
  destruct (Hu (/ 2) ltac:(lra)) as (K & HK & HB). pose (e := fun N => K / (1 - / 2) * (/ 2) ^ N).
  assert (He : forall eps, 0 < eps -> exists N, e N < eps).
  { intros eps Heps. assert (P : 0 < K / (1 - / 2)) by (apply Rdiv_lt_0_compat; lra). destruct (pow_small (/ 2) ltac:(lra) (eps / (K / (1 - / 2))) ltac:(now apply Rdiv_lt_0_compat)) as [N HN]. exists N. specialize (HN N (le_n _)).
    apply (Rmult_lt_compat_l (K / (1 - / 2))) in HN; [|exact P]. unfold e. replace eps with (K / (1 - / 2) * (eps / (K / (1 - / 2)))) by (field; lra). exact HN. }
  assert (Hblk : forall N M t, (N <= M)%nat -> a < t < b -> Cmod (csum1 (fun n => g n t) M - csum1 (fun n => g n t) N)%C <= e N).
  { intros N M t HNM Hi. replace M with (N + (M - N))%nat by lia. apply (block' h u Hh (exist _ t Hi : I) (/ 2) K N (M - N)); [lra|exact HK|exact HB]. }
  assert (HD : forall N t, a < t < b -> RCderive (fun s => csum1 (fun n => f n s) N) t (csum1 (fun n => g n t) N)) by (intros N t Hi; apply (rc_csum f g); intros n Hn; apply (H n t Hn Hi)).
  split.
  - apply (limit_derive (fun N t => fst (csum1 (fun n => f n t) N)) (fun N t => fst (csum1 (fun n => g n t) N)) (fun t => fst (S t)) (fst (G i0)) a b t0 e Ht).
    + intros N t Hi. apply (HD N t Hi).
    + intros N M t HNM Hi. eapply Rle_trans; [|apply (Hblk N M t HNM Hi)]. change (fst (csum1 (fun n => g n t) M) - fst (csum1 (fun n => g n t) N)) with (fst (csum1 (fun n => g n t) M - csum1 (fun n => g n t) N)%C). apply fst_le.
    + intros t Hi. apply (tends_fst _ _ (HS t Hi)).
    + apply (tends_fst _ _ T0).
    + exact He.
  - apply (limit_derive (fun N t => snd (csum1 (fun n => f n t) N)) (fun N t => snd (csum1 (fun n => g n t) N)) (fun t => snd (S t)) (snd (G i0)) a b t0 e Ht).
    + intros N t Hi. apply (HD N t Hi).
    + intros N M t HNM Hi. eapply Rle_trans; [|apply (Hblk N M t HNM Hi)]. change (snd (csum1 (fun n => g n t) M) - snd (csum1 (fun n => g n t) N)) with (snd (csum1 (fun n => g n t) M - csum1 (fun n => g n t) N)%C). apply snd_le.
    + intros t Hi. apply (tends_snd _ _ (HS t Hi)).
    + apply (tends_snd _ _ T0).
    + exact He.
Qed.

(** ** radial functions on an interval *)
Lemma convex_max (f df ddf : R -> R) a b s : a <= s <= b -> (forall t, a <= t <= b -> is_derive f t (df t)) -> (forall t, a <= t <= b -> is_derive df t (ddf t)) -> (forall t, a <= t <= b -> 0 <= ddf t) -> f s <= Rmax (f a) (f b).
Proof.
  intros Hs H1 H2 H3. apply Rnot_lt_le. intros Hgt. pose proof (Rmax_l (f a) (f b)). pose proof (Rmax_r (f a) (f b)).
  assert (Ha : a < s) by (destruct (Req_dec a s) as [<-|]; lra). assert (Hb : s < b) by (destruct (Req_dec s b) as [<-|]; lra).
  assert (M : forall (g dg : R -> R) x y, x < y -> a <= x -> y <= b -> (forall t, a <= t <= b -> is_derive g t (dg t)) -> exists c, x <= c <= y /\ g y - g x = dg c * (y - x)).
  { intros g dg x y Hxy Hx Hy Hg. destruct (MVT_gen g x y dg) as (c & Hc & E).
    - intros t Ht. rewrite Rmin_left, Rmax_right in Ht by lra. apply Hg; lra.
    - intros t Ht. rewrite Rmin_left, Rmax_right in Ht by lra. apply derivable_continuous_pt. exists (dg t). apply is_derive_Reals, Hg; lra.
    - rewrite Rmin_left, Rmax_right in Hc by lra. exists c. split; assumption. }
  destruct (M f df a s Ha ltac:(lra) ltac:(lra) H1) as (c1 & C1 & E1). destruct (M f df s b Hb ltac:(lra) ltac:(lra) H1) as (c2 & C2 & E2).
  assert (D1 : 0 < df c1) by (apply (Rmult_lt_reg_r (s - a)); lra). assert (D2 : df c2 < 0) by (apply (Rmult_lt_reg_r (b - s)); lra).
  assert (c1 < c2) by (destruct (Req_dec c1 c2) as [<-|]; lra). destruct (M df ddf c1 c2 ltac:(lra) ltac:(lra) ltac:(lra) H2) as (c3 & C3 & E3). pose proof (H3 c3 ltac:(lra)). nra.
Qed.
Definition sq2 (f : R -> C) (t : R) : R := fst (f t) * fst (f t) + snd (f t) * snd (f t).
Lemma sq2_mod f t : sq2 f t = Cmod (f t) * Cmod (f t).
Proof. unfold sq2, Cmod. rewrite sqrt_sqrt; [|nra]. cbn [pow]. ring. Qed.
Lemma pair_derive (f g : R -> C) t df dg : RCderive f t df -> RCderive g t dg ->
  is_derive (fun s => fst (f s) * fst (g s) + snd (f s) * snd (g s)) t (fst df * fst (g t) + fst (f t) * fst dg + (snd df * snd (g t) + snd (f t) * snd dg)).
Proof.
  intros [F1 F2] [G1 G2]. apply (@is_derive_plus R_AbsRing R_NormedModule);
    [apply (is_derive_mult (K := R_AbsRing) (fun s => fst (f s)) (fun s => fst (g s)))|apply (is_derive_mult (K := R_AbsRing) (fun s => snd (f s)) (fun s => snd (g s)))]; try assumption; intros; apply Rmult_comm.
Qed.
Section Radial.
  Variables (k : C) (r1 r2 : R) (f df : R -> C) (n : nat).
  Hypotheses (H1 : 0 < r1) (H2 : r1 < r2) (Hk : k <> RtoC 0).
  Hypothesis Hf : forall s, 0 < s -> RCderive f s (k * df s)%C.
  Hypothesis Hdf : forall s, 0 < s -> RCderive df s (k * ((RtoC (nn n) / (k * RtoC s * (k * RtoC s)) - RtoC 1) * f s))%C.
  Lemma Rs_nz s : 0 < s -> RtoC s <> RtoC 0. Proof. intros Hs Q. injection Q. lra. Qed.
  Lemma f_max s : r1 <= s <= r2 -> fst (k * k)%C <= nn n / (r2 * r2) -> Cmod (f s) <= Cmod (f r1) + Cmod (f r2).
  Proof.
    intros Hs HN. pose (kdf := fun s => (k * df s)%C).
    assert (D1 : forall t, r1 <= t <= r2 -> is_derive (sq2 f) t (2 * (fst (kdf t) * fst (f t) + snd (kdf t) * snd (f t)))).
    { intros t Ht. pose proof (pair_derive f f t _ _ (Hf t ltac:(lra)) (Hf t ltac:(lra))) as D. match type of D with is_derive _ _ ?v => match goal with |- is_derive _ _ ?w => replace w with v; [exact D|] end end. unfold kdf. ring. }
    assert (D2 : forall t, r1 <= t <= r2 -> is_derive (fun t => 2 * (fst (kdf t) * fst (f t) + snd (kdf t) * snd (f t))) t (2 * (sq2 kdf t + (nn n / (t * t) - fst (k * k)%C) * sq2 f t))).
    { intros t Ht. apply is_derive_scal. pose proof (rc_scal k _ _ _ (Hdf t ltac:(lra))) as D0. pose proof (pair_derive kdf f t _ _ D0 (Hf t ltac:(lra))) as D.
      match type of D with is_derive _ _ ?v => match goal with |- is_derive _ _ ?w => replace w with v; [exact D|] end end.
      assert (E : (k * (k * ((RtoC (nn n) / (k * RtoC t * (k * RtoC t)) - RtoC 1) * f t)))%C = ((RtoC (nn n / (t * t)) - k * k) * f t)%C).
      { rewrite RtoC_div by (intros Q; nra). rewrite RtoC_mult. match goal with |- ?a = ?b => change (@eq C a b) end. field. split; [apply Rs_nz; lra|exact Hk]. }
      rewrite E. fold (kdf t). set (q := nn n / (t * t)). unfold sq2. destruct (f t) as [x y], (kdf t) as [u v], k as [kx ky]. cbn. ring. }
    assert (G : sq2 f s <= Rmax (sq2 f r1) (sq2 f r2)).
    { apply (convex_max (sq2 f) _ _ r1 r2 s Hs D1 D2). intros t Ht. assert (Q : nn n / (r2 * r2) <= nn n / (t * t)).
      { apply Rmult_le_compat_l; [unfold nn; pose proof (pos_INR n); nra|]. apply Rinv_le_contravar; nra. }
      rewrite !sq2_mod. pose proof (Rle_0_sqr (Cmod (kdf t))). pose proof (Rle_0_sqr (Cmod (f t))). unfold Rsqr in *. nra. }
    rewrite !sq2_mod in G. pose proof (Cmod_ge_0 (f r1)). pose proof (Cmod_ge_0 (f r2)). pose proof (Cmod_ge_0 (f s)). unfold Rmax in G. destruct (Rle_dec _ _) in G; nra.
  Qed.
  Lemma f_bdd : exists B, 0 <= B /\ forall s, r1 <= s <= r2 -> Cmod (f s) <= B.
  Proof.
    destruct (continuity_ab_maj (sq2 f) r1 r2 ltac:(lra)) as (x & Hx & Hx').
    { intros c Hc. apply derivable_continuous_pt. eexists. apply is_derive_Reals. exact (pair_derive f f c _ _ (Hf c ltac:(lra)) (Hf c ltac:(lra))). }
    exists (Cmod (f x)). split; [apply Cmod_ge_0|]. intros s Hs. pose proof (Hx s Hs) as Q. rewrite !sq2_mod in Q. pose proof (Cmod_ge_0 (f x)). pose proof (Cmod_ge_0 (f s)). nra.
  Qed.
  Lemma df_bound U : 0 <= U -> (forall s, r1 <= s <= r2 -> Cmod (f s) <= U) -> forall s, r1 <= s <= r2 ->
    Cmod (df s) <= Cmod (df r1) + 2 * (Cmod k * ((nn n / (Cmod k * r1 * (Cmod k * r1)) + 1) * U) * (r2 - r1)).
  Proof.
    intros HU HB s Hs. set (M := Cmod k * ((nn n / (Cmod k * r1 * (Cmod k * r1)) + 1) * U)). pose proof (proj1 (Cmod_gt_0 k) Hk) as K0.
    assert (N0 : 0 <= nn n) by (unfold nn; pose proof (pos_INR n); nra).
    pose (g := fun t => (k * ((RtoC (nn n) / (k * RtoC t * (k * RtoC t)) - RtoC 1) * f t))%C).
    assert (HM : forall t, r1 <= t <= s -> Cmod (g t) <= M).
    { intros t Ht. unfold g, M. rewrite !Cmod_mult. apply Rmult_le_compat_l; [lra|]. apply Rmult_le_compat; [apply Cmod_ge_0|apply Cmod_ge_0| |apply HB; lra].
      unfold Cminus. eapply Rle_trans; [apply Cmod_triangle|]. rewrite Cmod_opp, Cmod_1. apply Rplus_le_compat_r. rewrite Cmod_div by (repeat apply Cmult_neq_0; first [exact Hk|apply Rs_nz; lra]).
      rewrite !Cmod_mult, !Cmod_R, (Rabs_pos_eq (nn n)), (Rabs_pos_eq t) by lra. apply Rmult_le_compat_l; [exact N0|]. apply Rinv_le_contravar; [repeat apply Rmult_lt_0_compat; lra|].
      apply Rmult_le_compat; try (apply Rmult_le_pos; lra); apply Rmult_le_compat_l; lra. }
    assert (A1 : Rabs (fst (df s) - fst (df r1)) <= M * (s - r1)).
    { apply (mvt_bound (fun t => fst (df t)) (fun t => fst (g t))); [lra|intros t Ht; apply (Hdf t ltac:(lra))|intros t Ht; eapply Rle_trans; [apply fst_le|now apply HM]]. }
    assert (A2 : Rabs (snd (df s) - snd (df r1)) <= M * (s - r1)).
    { apply (mvt_bound (fun t => snd (df t)) (fun t => snd (g t))); [lra|intros t Ht; apply (Hdf t ltac:(lra))|intros t Ht; eapply Rle_trans; [apply snd_le|now apply HM]]. }
    assert (M0 : 0 <= M) by (eapply Rle_trans; [apply (Cmod_ge_0 (g r1))|apply HM; lra]).
    replace (df s) with (df r1 + (df s - df r1))%C by ring. eapply Rle_trans; [apply Cmod_triangle|]. apply Rplus_le_compat_l. eapply Rle_trans; [apply Cmod_le_abs|]. cbn [fst snd Cminus Cplus Copp]. unfold Rminus in A1, A2. nra.
  Qed.
End Radial.
(* decay at the ends of an interval is decay on all of it, uniformly *)
Lemma fin_bound (P : nat -> R -> Prop) N : (forall n, exists B, 0 <= B /\ P n B) -> (forall n B B', P n B -> B <= B' -> P n B') -> exists B, 0 <= B /\ forall n, (n < N)%nat -> P n B.
Proof.
  intros H Hm. induction N as [|N (B & HB & IH)]; [exists 0; split; [lra|intros; lia]|]. destruct (H N) as (B' & HB' & HP). exists (Rmax B B'). split; [eapply Rle_trans; [exact HB|apply Rmax_l]|].
  intros n Hn. destruct (Nat.eq_dec n N) as [->|]; [apply (Hm _ B' _ HP), Rmax_r|apply (Hm _ B); [apply IH; lia|apply Rmax_l]].
Qed.
Theorem uniform_decay (A : nat -> @amps R) (k : C) r1 r2 : 0 < r1 -> r1 < r2 -> k <> RtoC 0 -> decays A (k * RtoC r1)%C -> decays A (k * RtoC r2)%C ->
  exists u, rapid u /\ (forall n, 0 <= u n) /\ forall n tm s, (1 <= n)%nat -> r1 <= s <= r2 ->
    Cmod (Fld (true_rf n) (pair_of tm (A n)) (k * RtoC s)%C) <= u n /\ Cmod (dFld (true_rf n) (pair_of tm (A n)) (k * RtoC s)%C) <= u n.
Proof.
  intros H1 H2 Hk D1 D2. pose proof (proj1 (Cmod_gt_0 k) Hk) as K0.
  pose (f := fun n tm s => Fld (true_rf n) (pair_of tm (A n)) (k * RtoC s)%C). pose (df := fun n tm s => dFld (true_rf n) (pair_of tm (A n)) (k * RtoC s)%C).
  assert (X : forall n tm, (1 <= n)%nat -> (forall s, 0 < s -> RCderive (f n tm) s (k * df n tm s)%C) /\ forall s, 0 < s -> RCderive (df n tm) s (k * ((RtoC (nn n) / (k * RtoC s * (k * RtoC s)) - RtoC 1) * f n tm s))%C).
  { intros n tm Hn. split; intros s Hs; destruct (fld_derive n Hn k (pair_of tm (A n)) s Hk Hs) as [E1 E2]; [exact E1|]. eapply rc_val; [|exact E2]. unfold nn. rewrite RtoC_mult, RtoC_plus. reflexivity. }
  destruct (nat_above (Rabs (fst (k * k)%C) * (r2 * r2) + 1)) as [N0 HN0].
  destruct (fin_bound (fun n B => (1 <= n)%nat -> forall tm s, r1 <= s <= r2 -> Cmod (f n tm s) <= B) N0) as (B & HB & HBn).
  { intros n. destruct n as [|n]; [exists 0; split; [lra|intros; lia]|]. destruct (f_bdd k r1 r2 (f (S n) true) (df (S n) true) H1 H2 (proj1 (X (S n) true ltac:(lia)))) as (B1 & P1 & Q1). destruct (f_bdd k r1 r2 (f (S n) false) (df (S n) false) H1 H2 (proj1 (X (S n) false ltac:(lia)))) as (B2 & P2 & Q2).
    exists (B1 + B2). split; [lra|]. intros _ [] s Hs; [pose proof (Q1 s Hs)|pose proof (Q2 s Hs)]; lra. }
  { intros n B B' HP Hle Hn tm s Hs. pose proof (HP Hn tm s Hs). lra. }
  pose (e := fun n => Cmod (f n true r1) + Cmod (f n true r2) + (Cmod (f n false r1) + Cmod (f n false r2))).
  pose (U := fun n => e n + (if (n <? N0)%nat then B else 0)).
  assert (Rf : forall tm, rapid (fun n => Cmod (f n tm r1) + Cmod (f n tm r2))) by (intros tm; apply rapid_plus; [apply (D1 tm)|apply (D2 tm)]).
  assert (e0 : forall n, 0 <= e n) by (intros n; unfold e; pose proof (Cmod_ge_0 (f n true r1)); pose proof (Cmod_ge_0 (f n true r2)); pose proof (Cmod_ge_0 (f n false r1)); pose proof (Cmod_ge_0 (f n false r2)); lra).
  assert (U0 : forall n, 0 <= U n) by (intros n; unfold U; pose proof (e0 n); destruct (n <? N0)%nat; lra).
  assert (RU : rapid U).
  { apply (rapid_le U e N0); [apply rapid_plus; apply Rf|]. intros n Hn. unfold U. destruct (Nat.ltb_spec n N0); [lia|lra]. }
  assert (BU : forall n tm s, (1 <= n)%nat -> r1 <= s <= r2 -> Cmod (f n tm s) <= U n).
  { intros n tm s Hn Hs. unfold U. destruct (Nat.ltb_spec n N0) as [Hlt|Hge].
    - pose proof (HBn n Hlt Hn tm s Hs). pose proof (e0 n). lra.
    - destruct (X n tm Hn) as [X1 X2]. eapply Rle_trans; [apply (f_max k r1 r2 (f n tm) (df n tm) n H1 Hk X1 X2 s Hs)|].
      + apply (Rmult_le_reg_r (r2 * r2)); [nra|]. unfold Rdiv. rewrite Rmult_assoc, Rinv_l by nra. pose proof (HN0 n Hge) as Q. pose proof (nn_ge n). pose proof (Rle_abs (fst (k * k)%C)). assert (fst (k * k)%C * (r2 * r2) <= Rabs (fst (k * k)%C) * (r2 * r2)) by (apply Rmult_le_compat_r; nra). lra.
      + unfold e. pose proof (Cmod_ge_0 (f n true r1)). pose proof (Cmod_ge_0 (f n true r2)). pose proof (Cmod_ge_0 (f n false r1)). pose proof (Cmod_ge_0 (f n false r2)). destruct tm; lra. }
  pose (V := fun n => Cmod (df n true r1) + Cmod (df n false r1) + U n * (2 * (Cmod k * ((nn n / (Cmod k * r1 * (Cmod k * r1)) + 1) * 1) * (r2 - r1)))).
  assert (kr : 0 < Cmod k * r1 * (Cmod k * r1)) by (repeat apply Rmult_lt_0_compat; lra).
  assert (T : tame (fun n => 2 * (Cmod k * ((nn n / (Cmod k * r1 * (Cmod k * r1)) + 1) * 1) * (r2 - r1)))).
  { apply tame_mult; [apply tame_const; lra|]. apply tame_mult; [|apply tame_const; lra]. apply tame_mult; [apply tame_const; lra|]. apply tame_mult; [|apply tame_const; lra].
    apply tame_plus; [|apply tame_const; lra]. apply tame_mult; [apply nn_tame|apply tame_const]. left. now apply Rinv_0_lt_compat. }
  assert (T0 : forall n, 0 <= 2 * (Cmod k * ((nn n / (Cmod k * r1 * (Cmod k * r1)) + 1) * 1) * (r2 - r1))).
  { intros n. assert (0 <= nn n / (Cmod k * r1 * (Cmod k * r1))) by (apply Rmult_le_pos; [unfold nn; pose proof (pos_INR n); nra|left; now apply Rinv_0_lt_compat]). repeat apply Rmult_le_pos; lra. }
  exists (fun n => U n + V n). split; [|split].
  - apply rapid_plus; [exact RU|]. apply rapid_plus; [apply rapid_plus; [apply (D1 true)|apply (D1 false)]|]. apply rapid_mult; [intros; apply U0|exact RU|exact T].
  - intros n. unfold V. pose proof (U0 n). pose proof (Cmod_ge_0 (df n true r1)). pose proof (Cmod_ge_0 (df n false r1)). pose proof (Rmult_le_pos _ _ (U0 n) (T0 n)). lra.
  - intros n tm s Hn Hs. pose proof (U0 n). pose proof (Cmod_ge_0 (df n true r1)). pose proof (Cmod_ge_0 (df n false r1)). pose proof (Rmult_le_pos _ _ (U0 n) (T0 n)) as W. split.
    + pose proof (BU n tm s Hn Hs) as Q. unfold f in Q. unfold V. lra.
    + destruct (X n tm Hn) as [X1 X2]. pose proof (df_bound k r1 r2 (f n tm) (df n tm) n H1 Hk X2 (U n) (U0 n) (fun s Hs => BU n tm s Hn Hs) s Hs) as Q.
      unfold df at 1 in Q. unfold V. replace (U n * (2 * (Cmod k * ((nn n / (Cmod k * r1 * (Cmod k * r1)) + 1) * 1) * (r2 - r1)))) with (2 * (Cmod k * ((nn n / (Cmod k * r1 * (Cmod k * r1)) + 1) * U n) * (r2 - r1))) in * by ring. destruct tm; lra.
Qed.
