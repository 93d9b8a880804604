(** Elementwise operations on tensors that all fit one result shape: a tensor
    [t] with [rep full t F] broadcasts to shape [full], its entry at the index
    [ix] of the result being [F ix]. *)
From Coq Require Import List Arith Bool Lia.
From Verif Require Import Ops Tensor TensorProofs.
Import ListNotations.
Open Scope nat_scope.
Open Scope list_scope.

(* shapes from the last axis on *)
Fixpoint fits_rev (s full : list nat) : Prop :=
  match s, full with
  | [], _ => True
  | d :: s', D :: full' => (d = 1 \/ d = D) /\ fits_rev s' full'
  | _ :: _, [] => False
  end.
Definition fits (s full : list nat) : Prop := fits_rev (rev s) (rev full).

Lemma bcast_rev_nil_r s : bcast_rev s [] = Some s.
Proof. now destruct s. Qed.
Lemma bcast_rev_fits full : forall s1 s2, fits_rev s1 full -> fits_rev s2 full ->
  exists s, bcast_rev s1 s2 = Some s /\ fits_rev s full.
Proof.
  induction full as [|D full IH]; intros [|d1 s1] [|d2 s2]; cbn [fits_rev bcast_rev]; try tauto; try (eexists; split; [reflexivity|cbn; tauto]).
  intros [H1 F1] [H2 F2]. destruct (IH s1 s2 F1 F2) as (s & -> & F).
  destruct H1 as [-> | ->].
  - rewrite bd_1l. eexists. split; [reflexivity|cbn; tauto].
  - destruct H2 as [-> | ->]; [rewrite bd_1r|rewrite bd_same]; eexists; (split; [reflexivity|cbn; tauto]).
Qed.
Lemma fits_length s full : fits s full -> length s <= length full.
Proof.
  unfold fits. intros H. rewrite <- (rev_length s), <- (rev_length full). revert H. generalize (rev s) (rev full).
  intros l. induction l as [|d l IH]; intros [|D m]; cbn; try lia; try tauto. intros [_ H]. specialize (IH m H). lia.
Qed.

Lemma clip_app_r s : forall ix x, length s <= length ix -> clip s (ix ++ x) = clip s ix.
Proof. induction s as [|d s IH]; intros [|i ix] x; cbn; try lia; try reflexivity. intros H. now rewrite IH by lia. Qed.
Lemma clip_length s : forall ix, length s <= length ix -> length (clip s ix) = length s.
Proof. induction s as [|d s IH]; intros [|i ix]; cbn; try lia. intros H. now rewrite IH by lia. Qed.
Lemma clip_app s1 : forall s2 ix1 ix2, length s1 = length ix1 -> clip (s1 ++ s2) (ix1 ++ ix2) = clip s1 ix1 ++ clip s2 ix2.
Proof. induction s1 as [|d s1 IH]; intros s2 [|i ix1] ix2; cbn; try lia; [reflexivity|]. intros H. now rewrite IH by lia. Qed.
Lemma clip_rev s : forall ix, length s = length ix -> clip (rev s) (rev ix) = rev (clip s ix).
Proof.
  induction s as [|d s IH]; intros [|i ix]; cbn; try lia; [reflexivity|]. intros H.
  rewrite clip_app by (rewrite !rev_length; lia). rewrite IH by lia. reflexivity.
Qed.
Lemma bcast_ix_rev s ix : length s <= length ix -> bcast_ix s ix = rev (clip (rev s) (rev ix)).
Proof.
  intros H. unfold bcast_ix. set (k := length ix - length s).
  rewrite <- (firstn_skipn k ix) at 2. rewrite rev_app_distr.
  assert (L : length (skipn k ix) = length s) by (rewrite skipn_length; unfold k; lia).
  rewrite clip_app_r by (rewrite !rev_length; lia). rewrite clip_rev by lia. now rewrite rev_involutive.
Qed.
Lemma clip_clip full : forall s s1 ix, fits_rev s1 full -> fits_rev s full -> length s1 <= length s -> length ix = length full ->
  (forall i, nth i s1 1 <> 1 -> nth i s 1 = nth i s1 1) -> clip s1 (clip s ix) = clip s1 ix.
Proof.
  induction full as [|D full IH]; intros [|d s] [|d1 s1] [|i ix]; cbn [fits_rev clip length]; try lia; try tauto; try reflexivity.
  - intros [H1 F1] [H F] L1 L2 Hn. f_equal.
    + destruct (Nat.eqb_spec d1 1); [reflexivity|]. pose proof (Hn 0 n) as E. cbn in E. subst d. destruct (Nat.eqb_spec d1 1); [contradiction|reflexivity].
    + apply IH; try assumption; try lia. intros j Hj. apply (Hn (S j) Hj).
Qed.
Lemma bcast_rev_dims s1 : forall s2 s, bcast_rev s1 s2 = Some s ->
  (length s1 <= length s /\ length s2 <= length s) /\
  (forall i, nth i s1 1 <> 1 -> nth i s 1 = nth i s1 1) /\ (forall i, nth i s2 1 <> 1 -> nth i s 1 = nth i s2 1).
Proof.
  induction s1 as [|d1 s1 IH]; intros [|d2 s2] s; cbn [bcast_rev].
  - intros E. injection E as <-. cbn. split; [lia|]. split; [now intros [|i]|reflexivity].
  - intros E. injection E as <-. cbn [length]. split; [lia|]. split; [intros [|i] H; cbn in H; congruence|reflexivity].
  - intros E. injection E as <-. cbn [length]. split; [lia|]. split; [reflexivity|intros [|i] H; cbn in H; congruence].
  - unfold bcast_dim. intros E.
    destruct (bcast_rev s1 s2) as [s'|] eqn:E'; [|destruct (d1 =? d2), (d1 =? 1), (d2 =? 1); discriminate].
    specialize (IH _ _ E'). destruct IH as ((L1 & L2) & N1 & N2).
    assert (Hd : exists d, s = d :: s' /\ (d1 <> 1 -> d = d1) /\ (d2 <> 1 -> d = d2)).
    { destruct (Nat.eqb_spec d1 d2); [|destruct (Nat.eqb_spec d1 1); [|destruct (Nat.eqb_spec d2 1); [|discriminate]]];
        injection E as <-; eexists; (split; [reflexivity|lia]). }
    destruct Hd as (d & -> & A & B). cbn [length]. split; [lia|].
    split; intros [|i]; cbn [nth]; auto.
Qed.

Definition rep {A} (full : list nat) (t : tensor A) (F : list nat -> A) : Prop :=
  fits (shp t) full /\ forall ix, in_bounds full ix -> at_ t (bcast_ix (shp t) ix) = F ix.

Lemma bcast_ix_twice full s s1 ix : fits s1 full -> fits s full -> (exists s2, bcast_shape s1 s2 = Some s \/ bcast_shape s2 s1 = Some s) ->
  length ix = length full -> bcast_ix s1 (bcast_ix s ix) = bcast_ix s1 ix.
Proof.
  intros F1 F (s2 & Hs) L.
  assert (D : length s1 <= length s /\ forall i, nth i (rev s1) 1 <> 1 -> nth i (rev s) 1 = nth i (rev s1) 1).
  { unfold bcast_shape in Hs. destruct Hs as [Hs|Hs].
    - destruct (bcast_rev (rev s1) (rev s2)) as [r|] eqn:E; [|discriminate]. cbn in Hs. injection Hs as <-.
      destruct (bcast_rev_dims _ _ _ E) as ((L1 & _) & N1 & _). rewrite rev_length in L1. rewrite rev_length, rev_involutive. split; [lia|exact N1].
    - destruct (bcast_rev (rev s2) (rev s1)) as [r|] eqn:E; [|discriminate]. cbn in Hs. injection Hs as <-.
      destruct (bcast_rev_dims _ _ _ E) as ((_ & L1) & _ & N1). rewrite rev_length in L1. rewrite rev_length, rev_involutive. split; [lia|exact N1]. }
  destruct D as [L1 N1]. pose proof (fits_length _ _ F) as Ls. pose proof (fits_length _ _ F1) as Ls1.
  assert (Lb : length (bcast_ix s ix) = length s) by (rewrite bcast_ix_rev by lia; rewrite rev_length, clip_length, rev_length by (rewrite !rev_length; lia); reflexivity).
  rewrite (bcast_ix_rev s1 (bcast_ix s ix)) by lia. rewrite (bcast_ix_rev s ix) by lia. rewrite rev_involutive.
  rewrite (bcast_ix_rev s1 ix) by lia. f_equal.
  apply (clip_clip (rev full)); try assumption; rewrite ?rev_length; lia.
Qed.
Lemma in_bounds_len full ix : in_bounds full ix -> length ix = length full.
Proof. apply in_bounds_length. Qed.

Section Rep.
  Context {A B D : Type} (full : list nat).
  Lemma tbin_rep (op : A -> B -> D) t u F G : rep full t F -> rep full u G ->
    exists v, tbin op t u = Ok v /\ bcast_shape (shp t) (shp u) = Some (shp v) /\ rep full v (fun ix => op (F ix) (G ix)).
  Proof.
    intros [F1 H1] [F2 H2].
    destruct (bcast_rev_fits (rev full) (rev (shp t)) (rev (shp u)) F1 F2) as (s & E & Fs).
    assert (Eb : bcast_shape (shp t) (shp u) = Some (rev s)) by (unfold bcast_shape; now rewrite E).
    unfold tbin. rewrite Eb. eexists. split; [reflexivity|]. split; [reflexivity|].
    assert (Ff : fits (rev s) full) by (unfold fits; now rewrite rev_involutive).
    split; [exact Ff|]. intros ix Hix. cbn [at_ shp]. pose proof (in_bounds_len _ _ Hix) as L.
    rewrite (bcast_ix_twice full (rev s) (shp t)), (bcast_ix_twice full (rev s) (shp u)); try assumption; eauto. now rewrite H1, H2.
  Qed.
  Lemma rep_tmap (h : A -> B) t F : rep full t F -> rep full (tmap h t) (fun ix => h (F ix)).
  Proof. intros [F1 H1]. split; [exact F1|]. intros ix Hix. unfold tmap. cbn [shp at_]. now rewrite H1. Qed.
  Lemma rep_ext (t : tensor A) F G : (forall ix, in_bounds full ix -> F ix = G ix) -> rep full t F -> rep full t G.
  Proof. intros E [F1 H1]. split; [exact F1|]. intros ix Hix. rewrite H1 by exact Hix. auto. Qed.
  Lemma broadcast_rep (t : tensor A) F : rep full t F -> exists v, broadcast_to full t = Ok v /\ shp v = full /\ rep full v F /\ forall ix, in_bounds full ix -> at_ v ix = F ix.
  Proof.
    intros [F1 H1].
    assert (E : bcast_shape (shp t) full = Some full).
    { unfold bcast_shape. enough (E : forall s f, fits_rev s f -> bcast_rev s f = Some f).
      { rewrite (E (rev (shp t)) (rev full) F1). cbn. now rewrite rev_involutive. }
      intros s. induction s as [|d s IH]; intros [|x f]; cbn [fits_rev bcast_rev]; try tauto.
      intros [[-> | ->] Hf]; rewrite (IH f Hf); [rewrite bd_1l|rewrite bd_same]; reflexivity. }
    unfold broadcast_to. rewrite E, shape_eqb_refl. eexists. split; [reflexivity|]. split; [reflexivity|].
    assert (R : rep full (mkT full (fun ix => at_ t (bcast_ix (shp t) ix))) F).
    { split.
      - unfold fits. cbn. generalize (rev full). induction l; cbn; auto.
      - intros ix Hix. cbn [shp at_]. replace (bcast_ix full ix) with ix; [now apply H1|].
        unfold bcast_ix. rewrite (in_bounds_len _ _ Hix), Nat.sub_diag. cbn [skipn]. now rewrite clip_id. }
    split; [exact R|]. intros ix Hix. cbn. now apply H1.
  Qed.
  Lemma rep_full_at (t : tensor A) F : rep full t F -> shp t = full -> forall ix, in_bounds full ix -> at_ t ix = F ix.
  Proof.
    intros [_ H] E ix Hix. rewrite <- (H ix Hix). rewrite E. unfold bcast_ix. rewrite (in_bounds_len _ _ Hix), Nat.sub_diag. cbn [skipn].
    now rewrite clip_id.
  Qed.
End Rep.
