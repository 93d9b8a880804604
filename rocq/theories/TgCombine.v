(** Combined structures, scattered fields, block matrices. *)
From Coq Require Import Reals ZArith List Bool Arith Lia Lra.
From Coquelicot Require Import Complex.
From Verif Require Import Ops ROps CLemmas Tensor TensorProofs ModelTg TgSpec.
Import ListNotations.
Open Scope nat_scope.
Open Scope list_scope.

(** ** combine *)
Section Cmb.
  Context {T G E D : Type}.
  Notation gpm := (@gpm T G E D).
  Lemma shape_eqb_iff s1 s2 : shape_eqb s1 s2 = true <-> s1 = s2.
  Proof.
    revert s2. induction s1 as [|a s1 IH]; intros [|b s2]; cbn; try (split; congruence). rewrite andb_true_iff, Nat.eqb_eq, IH. split; [intros [-> ->]; reflexivity|intros H; injection H; auto].
  Qed.
  Lemma map_res_ok {A B} (f : A -> result B) l ys : map_res f l = Ok ys <-> List.length ys = List.length l /\ forall i x y, nth_error l i = Some x -> nth_error ys i = Some y -> f x = Ok y.
  Proof.
    revert ys. induction l as [|a l IH]; intros ys; cbn [map_res].
    - split; [intros H; injection H as <-; split; [reflexivity|intros [|i] x y; discriminate]|intros [H _]; destruct ys; [reflexivity|discriminate]].
    - split.
      + destruct (f a) as [b|] eqn:Ea; [|discriminate]. cbn [bind]. destruct (map_res f l) as [bs|] eqn:El; [|discriminate]. cbn [bind]. intros H. injection H as <-.
        destruct (proj1 (IH bs) eq_refl) as [H1 H2]. split; [cbn; now rewrite H1|]. intros [|i] x y; cbn [nth_error].
        * intros Hx Hy. injection Hx as <-. injection Hy as <-. exact Ea.
        * apply H2.
      + intros [H1 H2]. destruct ys as [|y ys]; [discriminate|]. rewrite (H2 0 a y eq_refl eq_refl). cbn [bind].
        rewrite (proj2 (IH ys)); [reflexivity|]. split; [now injection H1|]. intros i x z Hx Hz. exact (H2 (S i) x z Hx Hz).
  Qed.
  Lemma map_res_single (ss : list gpm) : (exists s l, In s ss /\ gp_dict s = Several l /\ List.length l <> 1) -> map_res (fun s => single (gp_dict s)) ss = Err ValueError.
  Proof.
    intros (s & l & Hs & Hd & Hl). induction ss as [|a ss IH]; [elim Hs|]. cbn [map_res]. destruct Hs as [->|Hs].
    - rewrite Hd. destruct l as [|x [|y l]]; [reflexivity| |reflexivity]. cbn in Hl. lia.
    - destruct (single (gp_dict a)) as [g|er] eqn:E1; [cbn [bind]; now rewrite (IH Hs)|]. cbn [bind]. unfold single in E1.
      destruct (gp_dict a) as [|[|? [|? ?]]]; try discriminate; injection E1 as <-; reflexivity.
  Qed.

  Definition dict_of (s : gpm) (g : G) : Prop := gp_dict s = One g \/ gp_dict s = Several [g].
  Lemma single_iff (s : gpm) g : single (gp_dict s) = Ok g <-> dict_of s g.
  Proof.
    unfold dict_of, single. destruct (gp_dict s) as [g0|[|g0 [|? ?]]]; (split; [intros H; first [discriminate|injection H as <-]; tauto|intros [H|H]; first [discriminate|injection H as <-; reflexivity]]).
  Qed.
  Lemma combine_ok (ss : list gpm) s0 env dev (gs : list G) : nth_error ss 0 = Some s0 -> (forall s, In s ss -> shp (gp_r0 s) = shp (gp_r0 s0)) ->
    List.length gs = List.length ss -> (forall i s g, nth_error ss i = Some s -> nth_error gs i = Some g -> dict_of s g) ->
    exists c, combine_gpm ss env dev = Ok c /\ cb_dicts c = gs /\ shp (cb_pos c) = List.length ss :: shp (gp_r0 s0) /\
      (forall i s ix, nth_error ss i = Some s -> at_ (cb_pos c) (i :: ix) = at_ (gp_r0 s) ix) /\
      cb_env c = match env with Some e => e | None => gp_env s0 end /\ cb_dev c = match dev with Some d => d | None => gp_dev s0 end.
  Proof.
    intros H0 Hs Hl Hd. destruct ss as [|s1 ss]; [discriminate|]. injection H0 as ->. unfold combine_gpm, stack. cbn [map].
    assert (F : forallb (fun t => shape_eqb (shp t) (shp (gp_r0 s0))) (gp_r0 s0 :: map gp_r0 ss) = true).
    { apply forallb_forall. intros t Ht. apply shape_eqb_iff. change (gp_r0 s0 :: map gp_r0 ss) with (map gp_r0 (s0 :: ss)) in Ht. apply in_map_iff in Ht. destruct Ht as (s & <- & Hin). now apply Hs. }
    rewrite F. cbn [bind]. change (gp_r0 s0 :: map gp_r0 ss) with (map gp_r0 (s0 :: ss)).
    rewrite (proj2 (map_res_ok (fun s => single (gp_dict s)) (s0 :: ss) gs)).
    2:{ split; [exact Hl|]. intros i s g Hi Hg. apply single_iff. now apply (Hd i). }
    cbn [bind]. eexists. split; [reflexivity|]. cbn [cb_dicts cb_pos cb_env cb_dev shp at_ insert_at nth]. rewrite map_length.
    split; [reflexivity|]. split; [reflexivity|]. split; [|split; reflexivity]. intros i s ix Hi. cbn [remove_at]. f_equal.
    rewrite map_nth. f_equal. now apply nth_error_nth.
  Qed.
  Lemma combine_bad (ss : list gpm) env dev : (exists s l, In s ss /\ gp_dict s = Several l /\ List.length l <> 1) ->
    (forall s s', In s ss -> In s' ss -> shp (gp_r0 s) = shp (gp_r0 s')) -> combine_gpm ss env dev = Err ValueError.
  Proof.
    intros Hb Hs. destruct ss as [|s0 ss]; [reflexivity|]. unfold combine_gpm, stack. cbn [map].
    assert (F : forallb (fun t => shape_eqb (shp t) (shp (gp_r0 s0))) (gp_r0 s0 :: map gp_r0 ss) = true).
    { apply forallb_forall. intros t Ht. apply shape_eqb_iff. change (gp_r0 s0 :: map gp_r0 ss) with (map gp_r0 (s0 :: ss)) in Ht. apply in_map_iff in Ht. destruct Ht as (s & <- & Hin). apply Hs; [exact Hin|now left]. }
    rewrite F. cbn [bind]. rewrite (map_res_single _ Hb). reflexivity.
  Qed.
  Lemma combine_shapes (ss : list gpm) s s' env dev : In s ss -> In s' ss -> shp (gp_r0 s) <> shp (gp_r0 s') -> combine_gpm ss env dev = Err RuntimeError.
  Proof.
    intros H1 H2 Hne. destruct ss as [|s0 ss]; [elim H1|]. unfold combine_gpm, stack. cbn [map].
    destruct (forallb (fun t => shape_eqb (shp t) (shp (gp_r0 s0))) (gp_r0 s0 :: map gp_r0 ss)) eqn:F; [|reflexivity]. elim Hne.
    rewrite forallb_forall in F. change (gp_r0 s0 :: map gp_r0 ss) with (map gp_r0 (s0 :: ss)) in F.
    rewrite (proj1 (shape_eqb_iff _ _) (F (gp_r0 s) (in_map _ _ _ H1))). symmetry. apply shape_eqb_iff, F, in_map, H2.
  Qed.
End Cmb.

(** ** scatter *)
Lemma set_nth_length {T} i x (l : list (cplx T)) : List.length (set_nth i x l) = List.length l.
Proof.
  unfold set_nth. rewrite app_length. destruct (Nat.lt_ge_cases i (List.length l)) as [H|H].
  - rewrite firstn_length_le by lia. pose proof (skipn_length i l) as Hs. destruct (skipn i l); cbn in *; lia.
  - rewrite skipn_all2, firstn_all2 by lia. cbn. lia.
Qed.
Lemma set_nth_nth {T} i x (l : list (cplx T)) j d : i < List.length l -> nth j (set_nth i x l) d = if j =? i then x else nth j l d.
Proof.
  intros H. unfold set_nth. pose proof (skipn_length i l) as Hs. destruct (skipn i l) as [|y t] eqn:E; [cbn in Hs; lia|].
  assert (Hl : l = firstn i l ++ y :: t) by (rewrite <- E; symmetry; apply firstn_skipn).
  assert (Hf : List.length (firstn i l) = i) by (apply firstn_length_le; lia).
  destruct (Nat.eqb_spec j i) as [->|Hne].
  - rewrite app_nth2 by lia. now rewrite Hf, Nat.sub_diag.
  - rewrite Hl at 2. destruct (Nat.lt_ge_cases j i).
    + rewrite !app_nth1 by lia. reflexivity.
    + rewrite !app_nth2 by lia. rewrite Hf. destruct (j - i) as [|m] eqn:Em; [lia|reflexivity].
Qed.
Lemma nonzero_in i mask j : In j (nonzero_from i mask) -> i <= j < i + List.length mask.
Proof.
  revert i. induction mask as [|b m IH]; intros i; cbn [nonzero_from]; [intros []|]. cbn [List.length]. destruct b; [intros [<-|H]; [lia|]|intros H]; specialize (IH _ H); lia.
Qed.
Lemma rank_total mask i : List.length mask <= i -> rank mask i = count_occ bool_dec mask true.
Proof.
  revert i. induction mask as [|b m IH]; intros i Hi; [now destruct i|]. destruct i as [|i]; [cbn in Hi; lia|]. cbn [rank List.length] in *. rewrite IH by lia.
  destruct b; reflexivity.
Qed.
Lemma nonzero_length i mask : List.length (nonzero_from i mask) = count_occ bool_dec mask true.
Proof. revert i. induction mask as [|b m IH]; intros i; [reflexivity|]. cbn [nonzero_from]. destruct b; cbn; rewrite IH; reflexivity. Qed.
Lemma fold_scatter {T} (mask : list bool) (vals base : list (cplx T)) i d : i + List.length mask <= List.length base -> count_occ bool_dec mask true <= List.length vals ->
  let r := fold_left (fun l iv => set_nth (fst iv) (snd iv) l) (combine (nonzero_from i mask) vals) base in
  List.length r = List.length base /\
  forall j, nth j r d = if (i <=? j) && nth (j - i) mask false then nth (rank mask (j - i)) vals d else nth j base d.
Proof.
  cbv zeta. revert i vals base. induction mask as [|b m IH]; intros i vals base Hi Hc.
  - cbn [nonzero_from combine fold_left]. split; [reflexivity|]. intros j. destruct (j - i); now rewrite andb_false_r.
  - cbn [nonzero_from]. cbn [List.length] in Hi. destruct b.
    + cbn [count_occ] in Hc. destruct (bool_dec true true) as [_|n]; [|now elim n]. destruct vals as [|x vals]; [cbn in Hc; lia|].
      cbn [combine fold_left fst snd]. destruct (IH (S i) vals (set_nth i x base)) as [L1 L2]; [rewrite set_nth_length; lia|cbn in Hc; lia|].
      split; [now rewrite L1, set_nth_length|]. intros j. rewrite L2, set_nth_nth by lia. destruct (Nat.eqb_spec j i) as [->|Hne].
      * rewrite Nat.sub_diag. cbn [nth rank]. rewrite (proj2 (Nat.leb_gt (S i) i)) by lia. rewrite Nat.leb_refl. reflexivity.
      * destruct (Nat.leb_spec (S i) j) as [H1|H1]; [|rewrite (proj2 (Nat.leb_gt i j)) by lia; reflexivity].
        rewrite (proj2 (Nat.leb_le i j)) by lia. replace (j - i) with (S (j - S i)) by lia. reflexivity.
    + cbn [count_occ] in Hc. destruct (bool_dec false true) as [n|_]; [discriminate|]. destruct (IH (S i) vals base ltac:(lia) Hc) as [L1 L2]. split; [exact L1|]. intros j. rewrite L2.
      destruct (Nat.leb_spec (S i) j) as [H1|H1].
      * rewrite (proj2 (Nat.leb_le i j)) by lia. replace (j - i) with (S (j - S i)) by lia. reflexivity.
      * destruct (Nat.leb_spec i j) as [H2|H2]; [|reflexivity]. replace (j - i) with 0 by lia. reflexivity.
Qed.
Lemma zero_fill_ok n mask (vals : list C) : List.length mask <= n -> count_occ bool_dec mask true <= List.length vals ->
  exists r, @zero_fill R ROps n mask vals = Ok r /\ List.length r = n /\
    forall j, j < n -> nth j r (RtoC 0) = if nth j mask false then nth (rank mask j) vals (RtoC 0) else RtoC 0.
Proof.
  intros Hm Hc. unfold zero_fill, scatter. rewrite nonzero_length, repeat_length. rewrite (proj2 (Nat.ltb_ge _ _)) by exact Hc.
  assert (F : forallb (fun i => i <? n) (nonzero_from 0 mask) = true). { apply forallb_forall. intros j Hj. apply nonzero_in in Hj. apply Nat.ltb_lt. lia. }
  rewrite F. cbn [negb]. eexists. split; [reflexivity|].
  destruct (fold_scatter mask vals (repeat (@cofr R ROps rzero) n) 0 (RtoC 0)) as [L1 L2]; [rewrite repeat_length; lia|exact Hc|].
  split; [now rewrite L1, repeat_length|]. intros j Hj. rewrite L2. rewrite Nat.sub_0_r. cbn [Nat.leb andb]. destruct (nth j mask false); [reflexivity|].
  apply nth_repeat.
Qed.
Lemma zero_fill_short n mask (vals : list C) : List.length vals < count_occ bool_dec mask true -> @zero_fill R ROps n mask vals = Err RuntimeError.
Proof. intros H. unfold zero_fill, scatter. rewrite nonzero_length. now rewrite (proj2 (Nat.ltb_lt _ _)) by exact H. Qed.
(** every solved value is written: the values appear in order at the true positions *)
Lemma filter_rank n mask (vals r : list C) : List.length mask = n -> List.length r = n -> count_occ bool_dec mask true = List.length vals ->
  (forall j, j < n -> nth j r (RtoC 0) = if nth j mask false then nth (rank mask j) vals (RtoC 0) else RtoC 0) ->
  map snd (filter fst (combine mask r)) = vals.
Proof.
  revert mask vals r. induction n as [|n IH]; intros mask vals r Hm Hr Hc H.
  - destruct mask; [|discriminate]. destruct vals; [reflexivity|discriminate].
  - destruct mask as [|b m]; [discriminate|]. destruct r as [|x r]; [discriminate|]. injection Hm as Hm. injection Hr as Hr. cbn [combine filter fst].
    pose proof (H 0 ltac:(lia)) as H0. cbn [nth rank] in H0. destruct b.
    + cbn [count_occ] in Hc. destruct (bool_dec true true) as [_|n0]; [|now elim n0]. destruct vals as [|v vals]; [discriminate|]. injection Hc as Hc. cbn [map snd]. rewrite H0. f_equal.
      apply IH; try assumption. intros j Hj. exact (H (S j) ltac:(lia)).
    + cbn [count_occ] in Hc. destruct (bool_dec false true) as [n0|_]; [discriminate|]. apply IH; try assumption. intros j Hj. exact (H (S j) ltac:(lia)).
Qed.

(** ** block matrices *)
Notation sqm := (@sqmat R).
Lemma total_sum (bs : list sqm) : total bs = list_sum (sizes bs).
Proof. induction bs as [|b bs IH]; [reflexivity|]. change (sq_n b + total bs = sq_n b + list_sum (sizes bs)). now rewrite IH. Qed.
Lemma total_cons b (bs : list sqm) : total (b :: bs) = sq_n b + total bs. Proof. reflexivity. Qed.
Lemma offset_0 (bs : list sqm) : offset bs 0 = 0. Proof. reflexivity. Qed.
Lemma offset_S b (bs : list sqm) i : offset (b :: bs) (S i) = sq_n b + offset bs i. Proof. reflexivity. Qed.
Lemma offset_fits (bs : list sqm) i : i < List.length bs -> offset bs i + sq_n (nth i bs zero_block) <= total bs.
Proof.
  revert i. induction bs as [|b bs IH]; intros i Hi; [cbn in Hi; lia|]. destruct i as [|i]; rewrite total_cons; [rewrite offset_0; cbn [nth]; lia|].
  rewrite offset_S. cbn [nth List.length] in *. specialize (IH i ltac:(lia)). lia.
Qed.
Lemma locate (bs : list sqm) t : t < total bs -> exists i r, i < List.length bs /\ r < sq_n (nth i bs zero_block) /\ t = offset bs i + r.
Proof.
  revert t. induction bs as [|b bs IH]; intros t Ht; [cbn in Ht; lia|]. rewrite total_cons in Ht. destruct (Nat.lt_ge_cases t (sq_n b)) as [H|H].
  - exists 0, t. cbn. split; [lia|]. split; [exact H|reflexivity].
  - destruct (IH (t - sq_n b) ltac:(lia)) as (i & r & Hi & Hr & E). exists (S i), r. rewrite offset_S. cbn [nth List.length]. split; [lia|]. split; [exact Hr|lia].
Qed.
Lemma block_ok (bs : list sqm) i j r c : i < List.length bs -> j < List.length bs -> r < sq_n (nth i bs zero_block) -> c < sq_n (nth j bs zero_block) ->
  @block_at R ROps bs (offset bs i + r) (offset bs j + c) = if i =? j then sq_at (nth i bs zero_block) r c else RtoC 0.
Proof.
  revert i j. induction bs as [|b bs IH]; intros i j Hi Hj Hr Hc; [cbn in Hi; lia|]. cbn [block_at]. cbn [List.length] in *.
  destruct i as [|i], j as [|j]; rewrite ?offset_0, ?offset_S; cbn [nth Nat.add Nat.eqb] in *.
  - rewrite (proj2 (Nat.ltb_lt _ _) Hr), (proj2 (Nat.ltb_lt _ _) Hc). reflexivity.
  - rewrite (proj2 (Nat.ltb_lt _ _) Hr), (proj2 (Nat.ltb_ge _ _)) by lia. reflexivity.
  - rewrite (proj2 (Nat.ltb_lt _ _) Hc), (proj2 (Nat.ltb_ge (sq_n b + offset bs i + r) _)) by lia. reflexivity.
  - rewrite !(proj2 (Nat.ltb_ge _ _)) by lia. cbn [andb orb]. replace (sq_n b + offset bs i + r - sq_n b) with (offset bs i + r) by lia.
    replace (sq_n b + offset bs j + c - sq_n b) with (offset bs j + c) by lia. apply IH; lia || assumption.
Qed.
Lemma sum_upto_C n f : @sum_upto R ROps n f = sumC n f.
Proof. induction n as [|n IH]; [reflexivity|]. cbn [sum_upto sumC]. rewrite IH. reflexivity. Qed.
Lemma sumC_zero n f : (forall t, t < n -> f t = RtoC 0) -> sumC n f = RtoC 0.
Proof. induction n as [|n IH]; intros H; [reflexivity|]. cbn. rewrite IH by (intros; apply H; lia). rewrite H by lia. apply Cplus_0_l. Qed.
Lemma sumC_ext n f g : (forall t, t < n -> f t = g t) -> sumC n f = sumC n g.
Proof. induction n as [|n IH]; intros H; [reflexivity|]. cbn. rewrite IH by (intros; apply H; lia). rewrite H by lia. reflexivity. Qed.
Lemma sumC_plus n m f : sumC (n + m) f = (sumC n f + sumC m (fun t => f (n + t)%nat))%C.
Proof.
  induction m as [|m IH]; [rewrite Nat.add_0_r; cbn; now rewrite Cplus_0_r|]. rewrite Nat.add_succ_r. cbn [sumC]. rewrite IH. now rewrite Cplus_assoc.
Qed.
Lemma sumC_window N o n f : o + n <= N -> (forall t, t < N -> t < o \/ o + n <= t -> f t = RtoC 0) -> sumC N f = sumC n (fun t => f (o + t)).
Proof.
  intros H Hz. replace N with (o + (n + (N - o - n))) by lia. rewrite !sumC_plus. rewrite (sumC_zero o) by (intros; apply Hz; lia).
  rewrite (sumC_zero (N - o - n)) by (intros; apply Hz; lia). now rewrite Cplus_0_l, Cplus_0_r.
Qed.
Lemma offset_lt (bs : list sqm) i j : i < j -> j < List.length bs -> offset bs i + sq_n (nth i bs zero_block) <= offset bs j.
Proof.
  revert i j. induction bs as [|b bs IH]; intros i j Hij Hj; [cbn in Hj; lia|]. destruct j as [|j]; [lia|]. cbn [List.length] in Hj. rewrite offset_S. destruct i as [|i].
  - rewrite offset_0. cbn [nth]. lia.
  - rewrite offset_S. cbn [nth]. specialize (IH i j ltac:(lia) ltac:(lia)). lia.
Qed.
Lemma sizes_nth (bs cs : list sqm) i : sizes bs = sizes cs -> sq_n (nth i bs zero_block) = sq_n (nth i cs zero_block).
Proof. intros H. change 0 with (sq_n zero_block) in *. rewrite <- !(map_nth (@sq_n R)). unfold sizes in H. now rewrite H. Qed.

Lemma gda_ok (alphas selfs : list sqm) (G : sqm) : sizes selfs = sizes alphas -> sq_n G = total alphas ->
  exists M, @g_dot_alpha R ROps alphas selfs G = Ok M /\ sq_n M = total alphas /\
    forall i j r c, i < List.length alphas -> j < List.length alphas -> r < sq_n (nth i alphas zero_block) -> c < sq_n (nth j alphas zero_block) ->
      sq_at M (offset alphas i + r) (offset alphas j + c) =
      sumC (sq_n (nth j alphas zero_block)) (fun t =>
        ((if (i =? j)%nat then sq_at (nth i selfs zero_block) r t else sq_at G (offset alphas i + r)%nat (offset alphas j + t)%nat) * sq_at (nth j alphas zero_block) t c)%C).
Proof.
  intros Hs HG. unfold g_dot_alpha, same_size.
  assert (T1 : total (map (@ones_like R ROps) alphas) = total alphas). { clear. induction alphas as [|a l IH]; [reflexivity|]. cbn [map]. rewrite !total_cons. now rewrite IH. }
  assert (T2 : total selfs = total alphas) by (now rewrite !total_sum, Hs).
  assert (S1 : sizes (map (@ones_like R ROps) alphas) = sizes alphas). { unfold sizes. rewrite map_map. reflexivity. }
  cbn [block_diag sq_n sq_at]. rewrite T1, T2, HG, !Nat.eqb_refl. cbn [bind]. eexists. split; [reflexivity|]. cbn [matmul sq_n sq_at]. split; [reflexivity|].
  intros i j r c Hi Hj Hr Hc. rewrite sum_upto_C. pose proof (offset_fits alphas j Hj) as Hf.
  assert (Lm : List.length (map (@ones_like R ROps) alphas) = List.length alphas) by apply map_length.
  assert (Ls : List.length selfs = List.length alphas). { apply (f_equal (@List.length nat)) in Hs. unfold sizes in Hs. now rewrite !map_length in Hs. }
  rewrite (sumC_window _ (offset alphas j) (sq_n (nth j alphas zero_block)) _ Hf).
  - apply sumC_ext. intros t Ht. cbn [block_diag sq_at]. rewrite (block_ok alphas j j t c Hj Hj Ht Hc), Nat.eqb_refl. change (@cmul R ROps) with Cmult. f_equal.
    assert (B1 : @block_at R ROps (map (@ones_like R ROps) alphas) (offset alphas i + r) (offset alphas j + t) = if i =? j then RtoC 1 else RtoC 0).
    { replace (offset alphas) with (offset (map (@ones_like R ROps) alphas)) by (unfold offset; now rewrite S1).
      rewrite block_ok by (rewrite ?Lm, ?(sizes_nth _ alphas _ S1); assumption). destruct (i =? j); [|reflexivity].
      rewrite nth_indep with (d' := @ones_like R ROps zero_block) by (now rewrite Lm). rewrite map_nth. reflexivity. }
    assert (B2 : @block_at R ROps selfs (offset alphas i + r) (offset alphas j + t) = if i =? j then sq_at (nth i selfs zero_block) r t else RtoC 0).
    { replace (offset alphas) with (offset selfs) by (unfold offset; now rewrite Hs). apply block_ok; rewrite ?Ls, ?(sizes_nth _ alphas _ Hs); assumption. }
    rewrite B1, B2. destruct (i =? j).
    + assert (E : @ceqb R ROps (RtoC 1) (RtoC 1) = true). { unfold ceqb. cbn. now rewrite !(proj2 (Reqb_true _ _) eq_refl). }
      change (@cofr R ROps rone) with (RtoC 1). rewrite E. apply Cplus_0_l.
    + assert (E : @ceqb R ROps (RtoC 0) (RtoC 1) = false). { unfold ceqb. cbn [reqb ROps RtoC fst snd]. replace (Reqb 0 1) with false; [reflexivity|]. symmetry. apply not_true_is_false. rewrite Reqb_true. lra. }
      change (@cofr R ROps rone) with (RtoC 1). rewrite E. apply Cplus_0_r.
  - intros t Ht Hout. cbn [block_diag sq_at]. destruct (locate alphas t Ht) as (i' & r' & Hi' & Hr' & ->). rewrite (block_ok alphas i' j r' c Hi' Hj Hr' Hc).
    destruct (Nat.eqb_spec i' j) as [->|]; [lia|]. toC. apply Cmult_0_r.
Qed.
