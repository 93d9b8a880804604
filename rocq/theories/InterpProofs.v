(** Facts about [interp1d] over the reals. *)
From Coq Require Import Reals List Bool Arith Lia Lra Permutation Sorted.
From Coquelicot Require Import Coquelicot.
From Verif Require Import Ops ROps CLemmas Tensor TensorProofs ModelMaterial.
Import ListNotations.
Open Scope nat_scope.
Open Scope list_scope.

Notation table := (list (R * C)).
Notation d0 := ((0%R, RtoC 0) : R * C).
Definition keylt (a b : R * C) : Prop := (fst a < fst b)%R.
Notation ins := (@insert_row R ROps).
Definition srt (t : table) : table := @sort_rows R ROps t.

Lemma ins_perm (p : R * C) (l : table) : Permutation (ins p l) (p :: l).
Proof.
  induction l as [|q l IH]; [reflexivity|]. cbn [insert_row]. destruct (rltb _ _); [|reflexivity].
  rewrite IH. apply perm_swap.
Qed.
Lemma srt_perm (l : table) : Permutation (srt l) l.
Proof. induction l as [|p l IH]; [reflexivity|]. unfold srt in *. cbn [sort_rows fold_right]. rewrite ins_perm. now constructor. Qed.
Lemma ins_sorted (p : R * C) (l : table) : ~ In (fst p) (map fst l) -> StronglySorted keylt l -> StronglySorted keylt (ins p l).
Proof.
  intros Hn Hs. induction Hs as [|q l Hs IH Hq]; [repeat constructor|].
  cbn [insert_row]. change (cplx R) with C in *. change (@rltb R ROps) with Rltb. match goal with |- context [if ?b then _ else _] => destruct b eqn:E end.
  - apply Rltb_true in E. constructor; [apply IH; intros H; apply Hn; right; exact H|].
    apply Forall_forall. intros x Hx. apply (Permutation_in _ (ins_perm p l)) in Hx. destruct Hx as [<-|Hx]; [exact E|].
    rewrite Forall_forall in Hq. now apply Hq.
  - apply Rltb_false in E. assert (fst p < fst q)%R. { destruct E as [E|E]; [exact E|]. exfalso. apply Hn. left. now symmetry. }
    constructor; [now constructor|]. constructor; [exact H|]. rewrite Forall_forall in *. intros x Hx. specialize (Hq x Hx). unfold keylt in *. lra.
Qed.
Lemma srt_sorted (l : table) : NoDup (map fst l) -> StronglySorted keylt (srt l).
Proof.
  induction l as [|p l IH]; [constructor|]. cbn [map]. intros H. apply NoDup_cons_iff in H. destruct H as [H1 H2].
  change (srt (p :: l)) with (ins p (srt l)). apply ins_sorted; [|now apply IH].
  intros H. apply H1. eapply Permutation_in; [|exact H]. apply Permutation_map. apply srt_perm.
Qed.

Notation bkt := (@bucketize R ROps).
Lemma bucket_spec (l : table) x : StronglySorted keylt l -> forall j, j < length l -> (fst (nth j l d0) < x)%R <-> j < bkt x l.
Proof.
  induction 1 as [|q l Hs IH Hq]; intros j Hj; [cbn in Hj; lia|]. unfold bucketize in *. cbn [filter]. change (cplx R) with C in *.
  change (@rltb R ROps) with Rltb in *. match goal with |- context [if ?b then _ else _] => destruct b eqn:E end.
  - apply Rltb_true in E. cbn [length]. destruct j as [|j]; cbn [nth]; [split; [lia|intros; exact E]|].
    rewrite IH by (cbn in Hj; lia). lia.
  - apply Rltb_false in E.
    assert (E0 : filter (fun q => Rltb (fst q) x) l = []).
    { rewrite Forall_forall in Hq. clear - E Hq. induction l as [|a l IHl]; [reflexivity|]. cbn [filter].
      rewrite (proj2 (Rltb_false _ _)); [apply IHl; intros; apply Hq; now right|]. specialize (Hq a (or_introl eq_refl)). unfold keylt in Hq. lra. }
    rewrite E0. cbn [length]. split; [|lia]. intros H. exfalso. destruct j as [|j]; cbn [nth] in H; [lra|].
    rewrite Forall_forall in Hq. assert (In (nth j l d0) l) as Hi by (apply nth_In; cbn in Hj; lia). specialize (Hq _ Hi). unfold keylt in Hq. lra.
Qed.
Lemma bucket_le (l : table) x : bkt x l <= length l.
Proof. unfold bucketize. induction l as [|a l IH]; [cbn; lia|]. cbn [filter length]. match goal with |- context [if ?b then _ else _] => destruct b end; cbn [length]; lia. Qed.
Lemma sorted_nth (l : table) : StronglySorted keylt l -> forall i j, i < j -> j < length l -> (fst (nth i l d0) < fst (nth j l d0))%R.
Proof.
  induction 1 as [|q l Hs IH Hq]; intros i j Hij Hj; cbn in Hj; [lia|]. destruct j as [|j]; [lia|]. destruct i as [|i]; cbn [nth].
  - rewrite Forall_forall in Hq. apply Hq. apply nth_In. lia.
  - apply IH; lia.
Qed.

Lemma relu_R x : @relu R ROps x = Rmax 0 x.
Proof. unfold relu. change (@rltb R ROps) with Rltb. change (@rzero R ROps) with 0%R. destruct (Rltb x 0) eqn:E.
  - apply Rltb_true in E. rewrite Rmax_left; lra. - apply Rltb_false in E. rewrite Rmax_right; lra. Qed.

(** the three situations *)
Inductive located (l : table) (x : R) : C * C * R * R -> Prop :=
| loc_left : 0 < length l -> (x <= fst (nth 0 l d0))%R -> forall dl dr, (dl = 0 /\ 0 < dr \/ dl = 1 /\ dr = 0)%R ->
    located l x (snd (nth 0 l d0), snd (nth 0 l d0), dl, dr)
| loc_right : 0 < length l -> (fst (nth (length l - 1) l d0) < x)%R -> forall dl, (0 < dl)%R ->
    located l x (snd (nth (length l - 1) l d0), snd (nth (length l - 1) l d0), dl, 0%R)
| loc_mid : forall i, S i < length l -> (fst (nth i l d0) < x <= fst (nth (S i) l d0))%R ->
    located l x (snd (nth i l d0), snd (nth (S i) l d0), x - fst (nth i l d0), fst (nth (S i) l d0) - x)%R.

Lemma parts_located (l : table) x : StronglySorted keylt l -> 0 < length l -> located l x (@interp_parts R ROps l x).
Proof.
  intros Hs Hl. unfold interp_parts, row. change (cplx R) with C. change (@rzero R ROps, @czero R ROps) with d0.
  pose proof (bucket_spec l x Hs) as B. pose proof (bucket_le l x) as HB. set (i := bkt x l) in *.
  rewrite !relu_R. change (@reqb R ROps) with Reqb. change (@rzero R ROps) with 0%R. change (@rone R ROps) with 1%R.
  change (@rsub R ROps) with (fun a b : R => (a + - b)%R). cbv beta.
  destruct (Nat.eq_dec i 0) as [Hi|Hi].
  - rewrite Hi. cbn [Nat.sub Nat.min]. assert (Hx : (x <= fst (nth 0 l d0))%R) by (apply Rnot_lt_le; rewrite B by lia; lia).
    apply loc_left; [exact Hl|exact Hx|]. rewrite Rmax_left by lra. rewrite Rmax_right by lra.
    rewrite (proj2 (Reqb_true 0 0) eq_refl). cbn [andb]. destruct (Reqb _ _) eqn:E.
    + apply Reqb_true in E. right. split; [reflexivity|exact E].
    + apply Reqb_false in E. left. split; [reflexivity|]. lra.
  - destruct (Nat.eq_dec i (length l)) as [Hi2|Hi2].
    + replace (Nat.min i (length l - 1)) with (length l - 1) by lia. replace (Nat.min (i - 1) (length l - 1)) with (length l - 1) by lia.
      assert (Hx : (fst (nth (length l - 1) l d0) < x)%R) by (apply B; lia).
      rewrite (Rmax_left 0 (_ + - x)) by lra. rewrite (Rmax_right 0) by lra.
      rewrite (proj2 (Reqb_false _ _)) by lra. cbn [andb]. apply loc_right; [exact Hl|exact Hx|lra].
    + destruct i as [|i']; [lia|]. replace (Nat.min (S i') (length l - 1)) with (S i') by lia. replace (Nat.min (S i' - 1) (length l - 1)) with i' by lia.
      assert (H1 : (fst (nth i' l d0) < x)%R) by (apply B; lia).
      assert (H2 : (x <= fst (nth (S i') l d0))%R) by (apply Rnot_lt_le; rewrite B by lia; lia).
      rewrite !Rmax_right by lra. rewrite (proj2 (Reqb_false _ _)) by lra. cbn [andb].
      apply loc_mid; [lia|lra].
Qed.

Definition weighted (p : C * C * R * R) : C :=
  let '(yl, yr, dl, dr) := p in ((yl * RtoC dr + yr * RtoC dl) / RtoC (dl + dr))%C.
Lemma interp_weighted l x : @interp_at R ROps l x = weighted (@interp_parts R ROps l x).
Proof. unfold interp_at, weighted. destruct (interp_parts l x) as [[[yl yr] dl] dr]. reflexivity. Qed.
Lemma located_weights l x p : located l x p -> let '(yl, yr, dl, dr) := p in (0 <= dl /\ 0 <= dr /\ 0 < dl + dr)%R.
Proof. intros [H1 H2 dl dr H3|H1 H2 dl H3|i H1 H2]; [destruct H3 as [[-> H]|[-> ->]]; lra|lra|lra]. Qed.
Lemma RtoC_nz (r : R) : r <> 0%R -> RtoC r <> RtoC 0. Proof. apply RtoC_neq. Qed.

Ltac fieldC := match goal with |- ?a = ?b => change (@eq C a b) end; field.
Ltac ringC := match goal with |- ?a = ?b => change (@eq C a b) end; ring.
Lemma same_y (y : C) (dl dr : R) : (dl + dr <> 0)%R -> ((y * RtoC dr + y * RtoC dl) / RtoC (dl + dr) = y)%C.
Proof. intros H. rewrite RtoC_plus. field. rewrite <- RtoC_plus. now apply RtoC_nz. Qed.
Lemma right_y (y y' : C) (d : R) : (d <> 0)%R -> ((y' * RtoC 0 + y * RtoC d) / RtoC d = y)%C.
Proof. intros H. field. now apply RtoC_nz. Qed.
Lemma left_y (y y' : C) (d : R) : (d <> 0)%R -> ((y * RtoC d + y' * RtoC 0) / RtoC d = y)%C.
Proof. intros H. field. now apply RtoC_nz. Qed.
Section Sorted.
  Variable (l : table) (x : R).
  Hypothesis (Hs : StronglySorted keylt l) (Hl : 0 < length l).
  Lemma interp_left : (x <= fst (nth 0 l d0))%R -> @interp_at R ROps l x = snd (nth 0 l d0).
  Proof.
    intros Hx. rewrite interp_weighted. destruct (parts_located l x Hs Hl) as [_ _ dl dr H|_ H dl Hd|i Hi H]; unfold weighted.
    - set (y := snd _). apply same_y; destruct H as [[-> H]|[-> ->]]; lra.
    - exfalso. destruct (Nat.eq_dec (length l - 1) 0) as [E|E]; [rewrite E in H; lra|]. pose proof (sorted_nth l Hs 0 (length l - 1) ltac:(lia) ltac:(lia)). lra.
    - exfalso. destruct (Nat.eq_dec i 0) as [E|E]; [rewrite E in H; lra|]. pose proof (sorted_nth l Hs 0 i ltac:(lia) ltac:(lia)). lra.
  Qed.
  Lemma interp_right : (fst (nth (length l - 1) l d0) <= x)%R -> @interp_at R ROps l x = snd (nth (length l - 1) l d0).
  Proof.
    intros Hx. rewrite interp_weighted. destruct (parts_located l x Hs Hl) as [_ H0 dl dr H|_ H dl Hd|i Hi H]; unfold weighted.
    - destruct (Nat.eq_dec (length l - 1) 0) as [E|E].
      + rewrite E. set (y := snd _). apply same_y; destruct H as [[-> H]|[-> ->]]; lra.
      + exfalso. pose proof (sorted_nth l Hs 0 (length l - 1) ltac:(lia) ltac:(lia)). lra.
    - apply same_y; lra.
    - assert (E : S i = length l - 1 \/ S i < length l - 1) by lia. destruct E as [E|E].
      + rewrite E in *. replace (fst (nth (length l - 1) l d0) - x)%R with 0%R by lra. set (y := snd (nth (length l - 1) l d0)). set (y' := snd (nth i l d0)).
        rewrite Rplus_0_r. fieldC. apply RtoC_nz. lra.
      + exfalso. pose proof (sorted_nth l Hs (S i) (length l - 1) ltac:(lia) ltac:(lia)). lra.
  Qed.
  Lemma interp_mid i : S i < length l -> (fst (nth i l d0) <= x <= fst (nth (S i) l d0))%R ->
    let a := nth i l d0 in let b := nth (S i) l d0 in
    @interp_at R ROps l x = ((snd a * RtoC (fst b - x) + snd b * RtoC (x - fst a)) / RtoC (fst b - fst a))%C.
  Proof.
    intros Hi Hx a b. pose proof (sorted_nth l Hs i (S i) ltac:(lia) Hi) as Hab. fold a b in Hx, Hab |- *.
    assert (Hne : (RtoC (fst b) - RtoC (fst a))%C <> RtoC 0) by (rewrite <- RtoC_minus; apply RtoC_nz; lra).
    rewrite interp_weighted. destruct (parts_located l x Hs Hl) as [_ H0 dl dr H|_ H dl Hd|j Hj H]; unfold weighted.
    - (* x <= first: then i = 0 and x is the first sample *)
      destruct (Nat.eq_dec i 0) as [E|E].
      + unfold a, b in *. rewrite E in *. set (a0 := nth 0 l d0) in *. set (b0 := nth 1 l d0) in *. assert (x = fst a0) as -> by lra. replace (fst a0 - fst a0)%R with 0%R by ring.
        rewrite RtoC_minus. transitivity (snd a0); [|fieldC; exact Hne].
        apply same_y; destruct H as [[-> H]|[-> ->]]; lra.
      + exfalso. unfold a in Hx. pose proof (sorted_nth l Hs 0 i ltac:(lia) ltac:(lia)). lra.
    - exfalso. unfold b in Hx. destruct (Nat.eq_dec (S i) (length l - 1)) as [E|E]; [rewrite E in Hx; lra|].
      pose proof (sorted_nth l Hs (S i) (length l - 1) ltac:(lia) ltac:(lia)). lra.
    - assert (E : j = i \/ (S j = i /\ x = fst a)).
      { unfold a, b in *. destruct (lt_eq_lt_dec j i) as [[Hlt|E]|Hgt]; [|left; exact E|].
        - right. destruct (Nat.eq_dec (S j) i) as [E|E]; [subst i; split; [reflexivity|lra]|]. pose proof (sorted_nth l Hs (S j) i ltac:(lia) ltac:(lia)). lra.
        - exfalso. destruct (Nat.eq_dec (S i) j) as [E|E]; [subst j; lra|]. pose proof (sorted_nth l Hs (S i) j ltac:(lia) ltac:(lia)). lra. }
      destruct E as [->|[E Ex]].
      + fold a b. rewrite !RtoC_plus, !RtoC_minus. replace (RtoC x - RtoC (fst a) + (RtoC (fst b) - RtoC x))%C with (RtoC (fst b) - RtoC (fst a))%C by ring.
        reflexivity.
      + subst i. fold a. set (c := nth j l d0) in *. rewrite Ex in *. replace (fst a - fst a)%R with 0%R by ring.
        rewrite Rplus_0_r. rewrite right_y, left_y by lra. reflexivity.
  Qed.
End Sorted.

(** ** unsorted tables *)
Section Table.
  Variables (t : table) (x : R).
  Hypothesis Hd : NoDup (map fst t).
  Notation l := (srt t).
  Notation y := (@interp_at R ROps (srt t) x).
  Lemma srt_in p : In p t <-> In p l.
  Proof. split; apply Permutation_in; [symmetry|]; apply srt_perm. Qed.
  Lemma srt_len : length l = length t. Proof. apply Permutation_length, srt_perm. Qed.
  Lemma in_pos p : In p t -> exists i, i < length l /\ nth i l d0 = p.
  Proof. rewrite srt_in. intros H. apply In_nth with (d := d0) in H. destruct H as (i & H & E). eauto. Qed.
  Lemma nth_in i : i < length l -> In (nth i l d0) t.
  Proof. intros H. apply srt_in. now apply nth_In. Qed.
  Let Hs := srt_sorted t Hd.

  Lemma table_between a b : In a t -> In b t -> (fst a < fst b)%R -> (fst a <= x <= fst b)%R ->
    (forall c, In c t -> ~ (fst a < fst c < fst b)%R) ->
    y = ((snd a * RtoC (fst b - x) + snd b * RtoC (x - fst a)) / RtoC (fst b - fst a))%C.
  Proof.
    intros Ha Hb Hab Hx Hn. destruct (in_pos a Ha) as (i & Hi & <-). destruct (in_pos b Hb) as (j & Hj & <-).
    assert (Hij : j = S i).
    { destruct (lt_eq_lt_dec j (S i)) as [[H|H]|H]; [|exact H|].
      - exfalso. destruct (Nat.eq_dec i j) as [E|E]; [subst; lra|]. pose proof (sorted_nth l Hs j i ltac:(lia) Hi). lra.
      - exfalso. apply (Hn (nth (S i) l d0) (nth_in (S i) ltac:(lia))). split; (apply sorted_nth; [exact Hs|lia|lia]). }
    subst j. apply interp_mid; auto. lia.
  Qed.
  Lemma table_below a : In a t -> (forall c, In c t -> (fst a <= fst c)%R) -> (x <= fst a)%R -> y = snd a.
  Proof.
    intros Ha Hm Hx. destruct (in_pos a Ha) as (i & Hi & E).
    assert (i = 0). { destruct (Nat.eq_dec i 0) as [H|H]; [exact H|]. pose proof (sorted_nth l Hs 0 i ltac:(lia) Hi) as H1. rewrite E in H1.
      pose proof (Hm _ (nth_in 0 ltac:(lia))). lra. }
    subst i. rewrite interp_left; [now rewrite E|exact Hs|lia|now rewrite E].
  Qed.
  Lemma table_above a : In a t -> (forall c, In c t -> (fst c <= fst a)%R) -> (fst a <= x)%R -> y = snd a.
  Proof.
    intros Ha Hm Hx. destruct (in_pos a Ha) as (i & Hi & E).
    assert (i = length l - 1). { destruct (Nat.eq_dec i (length l - 1)) as [H|H]; [exact H|]. pose proof (sorted_nth l Hs i (length l - 1) ltac:(lia) ltac:(lia)) as H1. rewrite E in H1.
      pose proof (Hm _ (nth_in (length l - 1) ltac:(lia))). lra. }
    subst i. rewrite interp_right; [now rewrite E|exact Hs|lia|now rewrite E].
  Qed.
  Lemma table_sample a : In a t -> fst a = x -> y = snd a.
  Proof.
    intros Ha Hx. destruct (in_pos a Ha) as (i & Hi & E). destruct i as [|i].
    - rewrite interp_left; [now rewrite E|exact Hs|lia|rewrite E; lra].
    - pose proof (sorted_nth l Hs i (S i) ltac:(lia) Hi) as H1. rewrite (interp_mid l x Hs ltac:(lia) i Hi) by (rewrite E in *; lra).
      rewrite E in *. set (c := nth i l d0) in *. rewrite <- Hx. replace (fst a - fst a)%R with 0%R by ring. apply right_y. lra.
  Qed.
  Lemma table_weights : t <> [] -> let '(yl, yr, dl, dr) := @interp_parts R ROps (srt t) x in
    (0 <= dl)%R /\ (0 <= dr)%R /\ (0 < dl + dr)%R /\ In yl (map snd t) /\ In yr (map snd t).
  Proof.
    intros Hne. assert (Hl : 0 < length l) by (rewrite srt_len; destruct t; [congruence|cbn; lia]).
    pose proof (parts_located l x Hs Hl) as HL. pose proof (located_weights _ _ _ HL) as HW.
    destruct HL as [_ _ dl dr H|_ _ dl H|i Hi H]; destruct HW as (? & ? & ?); repeat split; try assumption; apply in_map; apply nth_in; lia.
  Qed.
  Lemma table_range lo hi : t <> [] -> (forall c, In c t -> exists v : R, snd c = RtoC v /\ (lo <= v <= hi)%R) ->
    exists v : R, y = RtoC v /\ (lo <= v <= hi)%R.
  Proof.
    intros Hne Hr. pose proof (table_weights Hne) as W. rewrite interp_weighted. destruct (interp_parts l x) as [[[yl yr] dl] dr].
    destruct W as (W1 & W2 & W3 & W4 & W5). unfold weighted.
    apply in_map_iff in W4. destruct W4 as (c & <- & Hc). apply in_map_iff in W5. destruct W5 as (c' & <- & Hc').
    destruct (Hr c Hc) as (v & -> & Hv). destruct (Hr c' Hc') as (v' & -> & Hv').
    exists ((v * dr + v' * dl) / (dl + dr))%R. split.
    - rewrite RtoC_div by lra. now rewrite !RtoC_plus, !RtoC_mult.
    - split; [apply Rmult_le_reg_r with (dl + dr)%R|apply Rmult_le_reg_r with (dl + dr)%R]; try lra; unfold Rdiv; rewrite Rmult_assoc, Rinv_l by lra; nra.
  Qed.
End Table.

(** the order of the rows does not matter *)
Lemma sorted_unique l l' : StronglySorted keylt l -> StronglySorted keylt l' -> Permutation l l' -> l = l'.
Proof.
  intros H. revert l'. induction H as [|a l Hs IH Ha]; intros l' H' Hp.
  - apply Permutation_nil in Hp. now subst.
  - destruct H' as [|b l' Hs' Hb]; [apply Permutation_sym, Permutation_nil in Hp; discriminate|].
    assert (a = b).
    { assert (Ia : In a (b :: l')) by (eapply Permutation_in; [exact Hp|now left]). assert (Ib : In b (a :: l)) by (eapply Permutation_in; [symmetry; exact Hp|now left]).
      destruct Ia as [->|Ia]; [reflexivity|]. destruct Ib as [->|Ib]; [reflexivity|].
      rewrite Forall_forall in *. specialize (Ha _ Ib). specialize (Hb _ Ia). unfold keylt in *. lra. }
    subst b. f_equal. apply IH; [exact Hs'|]. now apply Permutation_cons_inv in Hp.
Qed.
Lemma interp_order t t' x : NoDup (map fst t) -> Permutation t t' -> @interp_at R ROps (srt t) x = @interp_at R ROps (srt t') x.
Proof.
  intros Hd Hp. f_equal. apply sorted_unique; [now apply srt_sorted|apply srt_sorted; eapply Permutation_NoDup; [|exact Hd]; now apply Permutation_map|].
  now rewrite !srt_perm.
Qed.
Lemma interp_defined (x : tensor R) (xs : list R) (ys : list C) : length xs = length ys -> xs <> [] ->
  @interp1d R ROps x xs ys = Ok (tmap (@interp_at R ROps (srt (combine xs ys))) x).
Proof.
  intros H Hne. unfold interp1d. change (@length (cplx R) ys) with (@length C ys). rewrite H, Nat.eqb_refl. cbn [negb]. destruct ys; [destruct xs; [congruence|discriminate]|].
  cbn [length Nat.eqb]. rewrite andb_false_r. reflexivity.
Qed.
Lemma interp_ends (t : table) (x : R) a : NoDup (map fst t) -> In a t ->
  ((forall c, In c t -> (fst a <= fst c)%R) /\ (x <= fst a)%R \/ (forall c, In c t -> (fst c <= fst a)%R) /\ (fst a <= x)%R) ->
  @interp_at R ROps (srt t) x = snd a.
Proof. intros Hd Ha [[H1 H2]|[H1 H2]]; [now apply table_below|now apply table_above]. Qed.
