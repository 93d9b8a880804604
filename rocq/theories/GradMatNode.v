(** Tangents of the interpolation at the sampling points, and counterexamples (C95). *)
From Coq Require Import Reals ZArith Lra Lia List Bool Arith String Sorted.
From Coquelicot Require Import Coquelicot.
From Verif Require Import Ops ROps Spec CTrig CLemmas Tensor TensorProofs ModelMaterial MaterialSpec MaterialProofs InterpProofs ModelSpecial ModelMie ModelGrad GradSpec GradOps ModelGradMat GradMatSpec GradMatProofs.
Import ListNotations.
Open Scope R_scope.

Lemma relu_keep (v d : R) : 0 <= v -> @relu dual DOps (v, d) = (v, d).
Proof. intros H. unfold relu. cbn [rltb DOps rzero fst]. now rewrite (proj2 (Rltb_false v 0)) by lra. Qed.
Lemma dsub (a b : dual) : @rsub dual DOps a b = (fst a - fst b, snd a - snd b).
Proof. reflexivity. Qed.
Section Node.
  Variables (t : list (R * C)) (Hd : NoDup (map fst t)).
  Let Hs := srt_sorted t Hd.
  Theorem node a b dx : In a t -> In b t -> fst a < fst b -> (forall c, In c t -> ~ fst a < fst c < fst b) ->
    @interp_at dual DOps (@sort_rows dual DOps (lift_rows t)) (fst b, dx) = mkd (snd b) ((snd b - snd a) / RtoC (fst b - fst a) * RtoC dx)%C.
  Proof.
    intros Ha Hb Hab Hn. rewrite sort_lift. destruct (in_pos t a Ha) as (i & Hi & Ei). destruct (in_pos t b Hb) as (j & Hj & Ej).
    assert (Hij : j = S i).
    { destruct (lt_eq_lt_dec j (S i)) as [[H|H]|H]; [|exact H|].
      - exfalso. destruct (Nat.eq_dec i j) as [E|E]; [subst i; rewrite Ei in Ej; rewrite Ej in Hab; lra|].
        pose proof (sorted_nth _ Hs j i ltac:(lia) Hi) as H1. rewrite Ei, Ej in H1. lra.
      - exfalso. apply (Hn (nth (S i) (srt t) d0) (nth_in t (S i) ltac:(lia))). rewrite <- Ei, <- Ej. split; (apply sorted_nth; [exact Hs|lia|lia]). }
    subst j.
    assert (Hbk : @bucketize R ROps (fst b) (srt t) = S i).
    { pose proof (bucket_spec (srt t) (fst b) Hs i Hi) as B1. pose proof (bucket_spec (srt t) (fst b) Hs (S i) Hj) as B2.
      rewrite Ei in B1. rewrite Ej in B2. assert ((i < bkt (fst b) (srt t))%nat) by (apply B1; lra).
      assert (~ (S i < bkt (fst b) (srt t))%nat) by (intros Hlt; apply B2 in Hlt; lra). lia. }
    unfold interp_at, interp_parts. rewrite bucket_lift, lift_length. cbn [fst]. match goal with |- context [@bucketize R ROps ?u ?v] => replace (@bucketize R ROps u v) with (S i) by (symmetry; exact Hbk) end.
    assert (Hl1 : (S i <= Datatypes.length (srt t) - 1)%nat) by lia. assert (Hl0 : (S i - 1 <= Datatypes.length (srt t) - 1)%nat) by lia.
    rewrite (Nat.min_l (S i)) by exact Hl1. rewrite (Nat.min_l (S i - 1)) by exact Hl0. replace (S i - 1)%nat with i by lia.
    rewrite !row_lift. match goal with |- context [@row R ROps ?l i] => replace (@row R ROps l i) with a by (symmetry; exact Ei); replace (@row R ROps l (S i)) with b by (symmetry; exact Ej) end.
    destruct a as [a [ya1 ya2]], b as [b [yb1 yb2]]. cbn [fst snd] in *. rewrite !dsub. cbn [fst snd dconst]. rewrite !relu_keep by lra.
    replace (@reqb dual DOps (b - a, dx - 0) rzero) with false by (symmetry; apply Reqb_false; cbn [fst rzero DOps]; lra). cbn [andb].
    unfold mkd, ccst, cdiv, cmul, cadd, cofr, cinv, rsub, rsqr.
    cbn [fst snd radd rmul rdiv ropp rzero rone DOps]. unfold Cmult, Cdiv, Cminus, Cinv, Cplus, Copp, RtoC. cbn [fst snd].
    cbv beta iota delta [Cmult fst snd]. apply (f_equal2 pair); apply (f_equal2 pair); field; lra.
  Qed.
  Theorem first_node b dx : In b t -> (forall c, In c t -> fst b <= fst c) ->
    @interp_at dual DOps (@sort_rows dual DOps (lift_rows t)) (fst b, dx) = mkd (snd b) (RtoC 0).
  Proof.
    intros Hb Hm. rewrite sort_lift. destruct (in_pos t b Hb) as (j & Hj & Ej).
    assert (j = 0%nat). { destruct (Nat.eq_dec j 0) as [H|H]; [exact H|]. pose proof (sorted_nth _ Hs 0%nat j ltac:(lia) Hj) as H1. rewrite Ej in H1.
      pose proof (Hm _ (nth_in t 0%nat ltac:(lia))). lra. }
    subst j.
    assert (Hbk : @bucketize R ROps (fst b) (srt t) = 0%nat).
    { pose proof (bucket_spec (srt t) (fst b) Hs 0%nat Hj) as B2. rewrite Ej in B2.
      assert (~ (0 < bkt (fst b) (srt t))%nat) by (intros Hlt; apply B2 in Hlt; lra). lia. }
    unfold interp_at, interp_parts. rewrite bucket_lift, lift_length. cbn [fst]. match goal with |- context [@bucketize R ROps ?u ?v] => replace (@bucketize R ROps u v) with (0%nat) by (symmetry; exact Hbk) end. cbn [Nat.min Nat.sub].
    rewrite !row_lift. match goal with |- context [@row R ROps ?l 0] => replace (@row R ROps l 0) with b by (symmetry; exact Ej) end.
    destruct b as [b [yb1 yb2]]. cbn [fst snd] in *. rewrite !dsub. cbn [fst snd dconst]. rewrite !relu_keep by lra.
    replace (@reqb dual DOps (b - b, dx - 0) rzero) with true by (symmetry; apply Reqb_true; cbn [fst rzero DOps]; lra).
    replace (@reqb dual DOps (b - b, 0 - dx) rzero) with true by (symmetry; apply Reqb_true; cbn [fst rzero DOps]; lra). cbn [andb].
    unfold mkd, ccst, cdiv, cmul, cadd, cofr, cinv, rsub, rsqr.
    cbn [fst snd radd rmul rdiv ropp rzero rone DOps]. unfold RtoC. cbn [fst snd].
    replace (b - b) with 0 by ring.
    apply (f_equal2 pair); apply (f_equal2 pair); field; lra.
  Qed.
End Node.

(** the interpolant has a kink wherever the slopes differ *)
Lemma deriv_left (f : R -> R) x l (m : R) : is_derive f x l -> (exists e, 0 < e /\ forall y, x - e < y <= x -> f y = f x + m * (y - x)) -> l = m.
Proof.
  intros D (e & He & H). destruct (Req_dec l m) as [E|N]; [exact E|exfalso].
  apply is_derive_Reals in D. destruct (D (Rabs (l - m)) (Rabs_pos_lt _ (Rminus_eq_contra _ _ N))) as [dl Hdl].
  set (h := - Rmin (e / 2) (dl / 2)). pose proof (cond_pos dl). assert (0 < Rmin (e / 2) (dl / 2)) by (apply Rmin_glb_lt; lra).
  pose proof (Rmin_l (e / 2) (dl / 2)). pose proof (Rmin_r (e / 2) (dl / 2)).
  assert (Hh : h <> 0) by (unfold h; intros Eh; lra). specialize (Hdl h Hh). rewrite (H (x + h)) in Hdl by (unfold h; lra).
  replace ((f x + m * (x + h - x) - f x) / h - l) with (- (l - m)) in Hdl by (field; exact Hh). rewrite Rabs_Ropp in Hdl.
  apply (Rlt_irrefl (Rabs (l - m))). apply Hdl. rewrite Rabs_left by (unfold h; lra). unfold h. lra.
Qed.
Lemma deriv_right (f : R -> R) x l (m : R) : is_derive f x l -> (exists e, 0 < e /\ forall y, x <= y < x + e -> f y = f x + m * (y - x)) -> l = m.
Proof.
  intros D (e & He & H). destruct (Req_dec l m) as [E|N]; [exact E|exfalso].
  apply is_derive_Reals in D. destruct (D (Rabs (l - m)) (Rabs_pos_lt _ (Rminus_eq_contra _ _ N))) as [dl Hdl].
  set (h := Rmin (e / 2) (dl / 2)). pose proof (cond_pos dl). assert (0 < Rmin (e / 2) (dl / 2)) by (apply Rmin_glb_lt; lra).
  pose proof (Rmin_l (e / 2) (dl / 2)). pose proof (Rmin_r (e / 2) (dl / 2)).
  assert (Hh : h <> 0) by (unfold h; intros Eh; lra). specialize (Hdl h Hh). rewrite (H (x + h)) in Hdl by (unfold h; lra).
  replace ((f x + m * (x + h - x) - f x) / h - l) with (- (l - m)) in Hdl by (field; exact Hh). rewrite Rabs_Ropp in Hdl.
  apply (Rlt_irrefl (Rabs (l - m))). apply Hdl. rewrite Rabs_right by (unfold h; lra). unfold h. lra.
Qed.
Theorem kink (t : list (R * C)) a b c : NoDup (map fst t) -> In a t -> In b t -> In c t -> fst a < fst b < fst c ->
  (forall q, In q t -> ~ fst a < fst q < fst b) -> (forall q, In q t -> ~ fst b < fst q < fst c) ->
  (fst (snd b) - fst (snd a)) / (fst b - fst a) <> (fst (snd c) - fst (snd b)) / (fst c - fst b) ->
  forall d, ~ ccarries (fst b) (fun x => @interp_at R ROps (@sort_rows R ROps t) x) d.
Proof.
  intros Hd Ha Hb Hc [H1 H2] N1 N2 Hne d [[_ D] _]. apply Hne.
  assert (V : forall x, fst a <= x <= fst b -> fst (@interp_at R ROps (srt t) x) = fst (snd b) + (fst (snd b) - fst (snd a)) / (fst b - fst a) * (x - fst b)).
  { intros x Hx. rewrite (table_between t x Hd a b Ha Hb H1 Hx N1). destruct a as [a [a1 a2]], b as [b [b1 b2]]. cbn [fst snd] in *.
    unfold Cdiv, Cmult, Cplus, Cinv, RtoC. cbn [fst snd]. field. lra. }
  assert (W : forall x, fst b <= x <= fst c -> fst (@interp_at R ROps (srt t) x) = fst (snd b) + (fst (snd c) - fst (snd b)) / (fst c - fst b) * (x - fst b)).
  { intros x Hx. rewrite (table_between t x Hd b c Hb Hc H2 Hx N2). destruct b as [b [b1 b2]], c as [c [c1 c2]]. cbn [fst snd] in *.
    unfold Cdiv, Cmult, Cplus, Cinv, RtoC. cbn [fst snd]. field. lra. }
  transitivity (snd (fst d)); [symmetry; apply (deriv_left _ (fst b) _ _ D)|apply (deriv_right _ (fst b) _ _ D)].
  - exists (fst b - fst a). split; [lra|]. intros y Hy. pose proof (V y ltac:(lra)) as V1. pose proof (V (fst b) ltac:(lra)) as V2.
    rewrite Rminus_eq_0, Rmult_0_r, Rplus_0_r in V2. eapply eq_trans; [exact V1|]. apply (f_equal2 Rplus); [symmetry; exact V2|reflexivity].
  - exists (fst c - fst b). split; [lra|]. intros y Hy. pose proof (W y ltac:(lra)) as V1. pose proof (W (fst b) ltac:(lra)) as V2.
    rewrite Rminus_eq_0, Rmult_0_r, Rplus_0_r in V2. eapply eq_trans; [exact V1|]. apply (f_equal2 Rplus); [symmetry; exact V2|reflexivity].
Qed.
