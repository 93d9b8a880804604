(** The list of support points and the extraction that uses it (C105). *)
From Coq Require Import Reals ZArith List Bool String Arith Lra Lia Psatz.
From Coquelicot Require Import Complex.
From Verif Require Import Ops ROps Tensor ModelMaterial ModelSpecial ModelMie ModelBatch ModelNear NearField NearLegacySpec IllumProofs ModelParticle ParticleSpec
  ModelParticleNear ModelTg TgSpec TgProofs ModelGeom ModelGpm GpmSpec GpmEnd AutogradSpec ModelSupport SupportSpec SupportProofs.
Import ListNotations.
Open Scope R_scope.

Lemma fold_sum l a : fold_left Rplus l a = a + rsum l.
Proof. revert a. induction l as [|x l IH]; intros a; cbn [fold_left rsum]; [lra|]. rewrite IH. lra. Qed.
Lemma rsum_app l l' : rsum (l ++ l') = rsum l + rsum l'.
Proof. induction l as [|x l IH]; cbn [rsum app]; [lra|]. rewrite IH. lra. Qed.
Lemma rsum_seq f n : rsum (map f (seq 0 n)) = sumR n f.
Proof. induction n as [|n IH]; [reflexivity|]. rewrite seq_S, map_app, rsum_app, IH. cbn [map rsum sumR Nat.add]. lra. Qed.

Lemma max_ge l a : (forall x, In x (a :: l) -> x <= fold_left (@rmax R ROps) l a).
Proof.
  revert a. induction l as [|y l IH]; intros a x H; cbn [fold_left]; [destruct H as [->|[]]; lra|].
  assert (G : a <= @rmax R ROps a y /\ y <= @rmax R ROps a y).
  { unfold rmax. cbn [rleb ROps]. destruct (Rleb a y) eqn:E; [apply Rleb_true in E|apply Rleb_false in E]; lra. }
  pose proof (IH (@rmax R ROps a y) _ (or_introl eq_refl)) as M.
  destruct H as [->|[->|H]]; [lra|lra|]. apply IH. now right.
Qed.

Notation hp := (fun i => (V 2 i, V 3 i, V 5 i)).
Lemma rnorm_hp i : @rnorm R ROps (hp i) = sqrt (norm2 i).
Proof. unfold rnorm, norm3, rsqr, x1, x2, x3, norm2. cbn [fst snd radd rmul rone rsqrt ROps]. f_equal. ring. Qed.

Lemma max_norm_ok n : (1 <= n)%nat -> exists m, max_norm (@halton R ROps n) = Ok m /\ 0 <= m /\ forall k, (k < n)%nat -> norm2 k <= m * m.
Proof.
  intros Hn. unfold max_norm, halton. rewrite map_map.
  assert (E : exists l, map (fun i => @rnorm R ROps (hp i)) (seq 0 n) = sqrt (norm2 0) :: l).
  { destruct n as [|n]; [lia|]. cbn [seq map]. rewrite rnorm_hp. eauto. }
  destruct E as [l E]. rewrite E. eexists. split; [reflexivity|].
  pose proof (max_ge l (sqrt (norm2 0))) as G. set (m := fold_left _ _ _) in *. clearbody m.
  assert (P : 0 <= m). { eapply Rle_trans; [apply sqrt_pos|]. apply G. now left. }
  split; [exact P|]. intros k Hk.
  assert (I : sqrt (norm2 k) <= m).
  { apply G. rewrite <- E, <- rnorm_hp. apply (in_map (fun i => @rnorm R ROps (hp i))). apply in_seq. lia. }
  assert (N0 : 0 <= norm2 k) by (unfold norm2; nra). rewrite <- (sqrt_sqrt (norm2 k)) by assumption.
  apply Rmult_le_compat; try apply sqrt_pos; exact I.
Qed.

Definition out (n : nat) (c : R) (i : nat) : R * R * R :=
  (c * (V 2 i - mean 2 n), c * (V 3 i - mean 3 n), c * (V 5 i - mean 5 n)).
Lemma support_form z r : (1 <= z)%Z -> exists m, 0 <= m /\ (forall k, (k < Z.to_nat z)%nat -> norm2 k <= m * m) /\
  @support_points R ROps z r = Ok (map (out (Z.to_nat z) (13 / 10 * r / (m + / 10000))) (seq 0 (Z.to_nat z))).
Proof.
  intros Hz. assert (Hn : (1 <= Z.to_nat z)%nat) by lia. destruct (max_norm_ok _ Hn) as (m & E & P & B). exists m. split; [exact P|]. split; [exact B|].
  unfold support_points. destruct (Z.ltb_spec z 0) as [|_]; [lia|]. rewrite E. set (n := Z.to_nat z) in *. cbn [bind].
  f_equal. unfold halton. rewrite !map_map. apply map_ext. intros i.
  assert (HN : INR n <> 0) by (apply not_0_INR; lia).
  assert (Ht : @rtenth R ROps 4 = / 10000). { unfold rtenth. cbn [rdiv rone rofZ ROps]. change (10 ^ Z.of_nat 4)%Z with 10000%Z. lra. }
  unfold mean3. rewrite map_length, seq_length, !map_map, rofn_R. unfold div3, sub3, rscale, x1, x2, x3. cbn [fst snd].
  cbn [radd rmul rdiv ropp rzero rofZ ROps]. rewrite Ht. unfold rsub, rtwo. cbn [radd rmul rdiv ropp rone ROps].
  rewrite !fold_sum.
  assert (S : forall b, rsum (map (fun x => V b x / (m + / 10000)) (seq 0 n)) = sumR n (V b) * / (m + / 10000)).
  { intros b. rewrite rsum_seq. apply sumR_scal. }
  rewrite !S. unfold out, mean. f_equal; [f_equal|]; field; split; lra || assumption.
Qed.

Lemma out_sum n c b : (1 <= n)%nat -> rsum (map (fun i => c * (V b i - mean b n)) (seq 0 n)) = 0.
Proof.
  intros Hn. rewrite rsum_seq.
  assert (G : forall k f m, sumR k (fun i => c * (f i - m)) = c * (sumR k f - INR k * m)).
  { induction k as [|k IH]; intros f m; cbn [sumR]; [cbn [INR]; ring|]. rewrite IH, S_INR. ring. }
  rewrite G. unfold mean. field. apply not_0_INR. lia.
Qed.

Lemma support_good z r : (1 <= z)%Z -> 0 < r -> exists l, @support_points R ROps z r = Ok l /\ good_support (Z.to_nat z) r l.
Proof.
  intros Hz Hr. destruct (support_form z r Hz) as (m & P & B & E). set (n := Z.to_nat z) in *. assert (Hn : (1 <= n)%nat) by (unfold n; lia).
  set (c := 13 / 10 * r / (m + / 10000)) in *. assert (Hc : 0 < c). { unfold c. apply Rdiv_lt_0_compat; lra. }
  eexists. split; [exact E|]. constructor.
  - now rewrite map_length, seq_length.
  -
    assert (G : forall l, NoDup l -> NoDup (map (out n c) l)).
    { induction l as [|i l IH]; intros H; cbn [map]; [constructor|]. inversion_clear H as [|? ? H1 H2]. constructor; [|now apply IH].
      intros I. apply in_map_iff in I. destruct I as (j & Ej & Hj). apply H1. replace i with j; [assumption|].
      unfold out in Ej. injection Ej as E2 _ _. apply (V_inj 2 ltac:(lia) (S (i + j))); [lia|lia|].
      apply Rmult_eq_reg_l in E2; [|lra]. lra. }
    apply G, seq_NoDup.
  - rewrite !map_map. unfold out. cbn [fst snd]. repeat split; now apply out_sum.
  - intros x y w I. apply in_map_iff in I. destruct I as (i & Ei & Hi). apply in_seq in Hi. unfold out in Ei. injection Ei as <- <- <-.
    destruct (dist_le n i ltac:(lia)) as (k & Hk & D). specialize (B k Hk).
    assert (Q : 169 / 100 * dist2 n i <= (9 / 10 * (m + / 10000)) * (9 / 10 * (m + / 10000))) by nra.
    rewrite <- (sqrt_square (9 / 10 * r)) by lra. apply sqrt_le_1_alt.
    unfold dist2 in Q. set (a := V 2 i - mean 2 n) in *. set (a' := V 3 i - mean 3 n) in *. set (a'' := V 5 i - mean 5 n) in *. clearbody a a' a''.
    set (d := m + / 10000) in *. assert (Hd : 0 < d) by (unfold d; lra). unfold c. clearbody d. clear c Hc E.
    apply Rmult_le_reg_r with (d * d); [nra|].
    replace ((13 / 10 * r / d * a * (13 / 10 * r / d * a) + 13 / 10 * r / d * a' * (13 / 10 * r / d * a') + 13 / 10 * r / d * a'' * (13 / 10 * r / d * a'')) * (d * d))
      with (r * r * (169 / 100 * (a * a + a' * a' + a'' * a''))) by (field; lra).
    replace (9 / 10 * r * (9 / 10 * r) * (d * d)) with (r * r * (9 / 10 * d * (9 / 10 * d))) by ring.
    apply Rmult_le_compat_l; [nra|exact Q].
Qed.
Lemma support_none z r : (z <= 0)%Z -> @support_points R ROps z r = Err ValueError.
Proof.
  intros H. unfold support_points. destruct (Z.ltb_spec z 0) as [|G]; [reflexivity|]. replace z with 0%Z by lia. reflexivity.
Qed.

(** ** the argument *)
Lemma resolve_ok a z r : (a = SInt z \/ (exists x, a = SFloat x /\ IZR z <= x < IZR z + 1) \/ (a = SNone /\ z = 36%Z)) -> (1 <= z)%Z ->
  @resolve_support R ROps a r = match @support_points R ROps z r with Ok l => Ok (points_t l) | Err e => Err e end.
Proof.
  intros H Hz. destruct H as [->|[(x & -> & Hx)|[-> ->]]]; [reflexivity| |reflexivity]. cbn [resolve_support rtrunc ROps].
  assert (E : Rtrunc x = z).
  { unfold Rtrunc. assert (Z0 : 1 <= IZR z) by (apply IZR_le in Hz; lra). destruct (Rle_dec 0 x) as [_|N]; [|lra].
    unfold Int_part. assert (U : (z + 1)%Z = up x) by (apply tech_up; rewrite plus_IZR; lra). rewrite <- U. lia. }
  rewrite E. reflexivity.
Qed.
Lemma points_pt l i : pt (@points_t R ROps l) i = nth i l (0, 0, 0).
Proof. unfold pt, points_t, x1, x2, x3. cbn [at_ nth]. cbn [rzero ROps]. destruct (nth i l (0, 0, 0)) as [[x y] z]. reflexivity. Qed.

Lemma extract_same e10 sj sy jr pi p wls ne N probe a g n b h :
  resolve_support a (at_ (enclosing_radius p) []) = Ok g ->
  @gpm_extract R ROps e10 sj sy jr pi p wls ne N probe a n b h = gpm_training e10 sj sy jr pi p wls ne N probe g n b h.
Proof.
  intros E. unfold gpm_extract, gpm_training. rewrite E. unfold bnd at 1 4. destruct (tg_env p wls ne h) as [h1 [eps|e]]; reflexivity.
Qed.

Lemma extract_fields sj sy jr e10 pi d p h wls is L rs lf v : setting sj sy jr d p h wls is L rs lf v -> forall n b N probe Q z a,
  (1 <= n)%Z -> lower (resolve_backend p b) = "pena"%string -> (-1 <= N)%Z -> shp probe = [Q; 3]%nat -> (1 <= Q)%nat -> (1 <= z)%Z -> 0 < nth (L - 1) rs 0 ->
  a = SInt z \/ (exists x, a = SFloat x /\ IZR z <= x < IZR z + 1) \/ (a = SNone /\ z = 36%Z) ->
  exists g h' ts l, good_support (Z.to_nat z) (nth (L - 1) rs 0) l /\ shp g = [Z.to_nat z; 3]%nat /\ (forall i, (i < Z.to_nat z)%nat -> pt g i = nth i l (0, 0, 0)) /\
  gpm_extract e10 sj sy jr pi p wls NNone N probe a (Some n) b h = (h', Ok ts) /\ List.length ts = List.length wls /\
  forall k t, nth_error ts k = Some t -> tr_wl t = nth k wls 0 /\ tr_env t = fst v /\
    trained (pena_fields (Z.to_nat n) 15 e10 (2 * PI / nth k wls 0)%R v (nth 0 rs 0%R, lf 0%nat k) (map (fun l => (nth l rs 0%R, lf l k)) (seq 1 (L - 1))) (RtoC 1)) (Z.to_nat N) Q (Z.to_nat z) probe g t.
Proof.
  intros St n b N probe Q z a Hn Hb HN Sp HQ Hz Hr Ha. destruct (support_good z _ Hz Hr) as (l & El & Gl).
  assert (Er : resolve_support a (at_ (enclosing_radius p) []) = Ok (points_t l)).
  { rewrite (resolve_ok a z _ Ha Hz). rewrite (proj2 (radius_ok _ _ _ _ _ _ _ _ _ _ _ _ St)). rewrite El. reflexivity. }
  assert (Sg : shp (@points_t R ROps l) = [Z.to_nat z; 3]%nat) by exact (f_equal (fun k => [k; 3]%nat) (gs_count _ _ _ Gl)).
  destruct (training_fields _ _ _ e10 pi _ _ _ _ _ _ _ _ _ St n b N probe (points_t l) Q (Z.to_nat z) Hn Hb HN Sp Sg HQ ltac:(lia)) as (h' & ts & E & Hl & G).
  exists (points_t l), h', ts, l. split; [exact Gl|]. split; [exact Sg|]. split; [intros i Hi; exact (points_pt l i)|].
  split; [|split; [exact Hl|exact G]]. rewrite (extract_same _ _ _ _ _ _ _ _ _ _ _ _ _ _ _ Er). exact E.
Qed.
Lemma extract_none sj sy jr e10 pi d p h wls is L rs lf v : setting sj sy jr d p h wls is L rs lf v -> forall n b N probe z, (z <= 0)%Z ->
  snd (gpm_extract e10 sj sy jr pi p wls NNone N probe (SInt z) n b h) = Err ValueError.
Proof.
  intros St n b N probe z Hz.
  destruct (training_fields _ _ _ e10 pi _ _ _ _ _ _ _ _ _ St 1 (Some "pena"%string) 0 (mkT [1; 3]%nat (fun _ => 1)) (mkT [1; 3]%nat (fun _ => 1)) 1 1 ltac:(lia) eq_refl ltac:(lia) eq_refl eq_refl ltac:(lia) ltac:(lia))
    as (h' & ts & E & _ & _).
  unfold gpm_training in E. unfold gpm_extract. unfold bnd at 1 in E. unfold bnd at 1. destruct (tg_env p wls NNone h) as [h1 [eps|e]]; [|discriminate].
  cbn [resolve_support]. rewrite (support_none z _ Hz). reflexivity.
Qed.
