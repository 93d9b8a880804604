(** Derivatives through interpolation, dispersion formulas and the memo (C95). *)
From Coq Require Import Reals ZArith Lra Lia List Bool Arith String Sorted.
From Coquelicot Require Import Coquelicot.
From Verif Require Import Ops ROps Spec CTrig CLemmas Tensor TensorProofs ModelMaterial MaterialSpec MaterialProofs InterpProofs ModelSpecial ModelMie ModelGrad GradSpec GradOps ModelGradMat GradMatSpec.
Import ListNotations.
Open Scope R_scope.

(** ** the same rows are found *)
Lemma insert_lift p l : @insert_row dual DOps (dconst (fst p), ccst (snd p)) (lift_rows l) = lift_rows (@insert_row R ROps p l).
Proof.
  induction l as [|q l IH]; [reflexivity|]. cbn [lift_rows map insert_row fst] in *.
  change (@rltb dual DOps (dconst (fst q)) (dconst (fst p))) with (Rltb (fst q) (fst p)). change (@rltb R ROps (fst q) (fst p)) with (Rltb (fst q) (fst p)).
  destruct (Rltb (fst q) (fst p)); cbn [map]; [|reflexivity]. f_equal. exact IH.
Qed.
Lemma sort_lift l : @sort_rows dual DOps (lift_rows l) = lift_rows (@sort_rows R ROps l).
Proof.
  induction l as [|p l IH]; [reflexivity|].
  change (@insert_row dual DOps (dconst (fst p), ccst (snd p)) (@sort_rows dual DOps (lift_rows l)) = lift_rows (@insert_row R ROps p (@sort_rows R ROps l))).
  rewrite IH. apply insert_lift.
Qed.
Lemma bucket_lift l (d : dual) : @bucketize dual DOps d (lift_rows l) = @bucketize R ROps (fst d) l.
Proof.
  unfold bucketize. induction l as [|p l IH]; [reflexivity|]. cbn [lift_rows map filter fst] in *.
  change (@rltb dual DOps (dconst (fst p)) d) with (Rltb (fst p) (fst d)). change (@rltb R ROps (fst p) (fst d)) with (Rltb (fst p) (fst d)).
  destruct (Rltb (fst p) (fst d)); cbn [List.length]; [f_equal|]; exact IH.
Qed.
Lemma row_lift l i : @row dual DOps (lift_rows l) i = (dconst (fst (@row R ROps l i)), ccst (snd (@row R ROps l i))).
Proof.
  unfold row, lift_rows. rewrite <- (map_nth (fun q : R * C => (dconst (fst q), ccst (snd q)))). reflexivity.
Qed.
Lemma lift_length l : List.length (lift_rows l) = List.length l.
Proof. apply map_length. Qed.

Section T.
  Variable t0 : R.
  Notation car := (carries t0).
  Notation cc := (ccarries t0).
  Lemma car_relu f d : car f d -> f t0 <> 0 -> car (fun t => @relu R ROps (f t)) (@relu dual DOps d).
  Proof.
    intros H N. pose proof (car_cont t0 f d H) as Cf. destruct H as [E D]. unfold relu at 2. cbn [rltb DOps rzero fst]. rewrite <- E.
    destruct (Rltb (f t0) 0) eqn:B.
    - apply Rltb_true in B. apply (car_loc t0 (fun _ => 0)); [|exact (car_const t0 0)].
      assert (L : locally t0 (fun t => f t < 0)) by (apply (Cf (fun y => y < 0)), open_lt, B).
      eapply filter_imp; [|exact L]. intros t Ht. unfold relu. cbn [rltb ROps rzero]. now rewrite (proj2 (Rltb_true _ _) Ht).
    - apply Rltb_false in B. apply (car_loc t0 f); [|now split].
      assert (L : locally t0 (fun t => 0 < f t)) by (apply (Cf (fun y => 0 < y)), open_gt; lra).
      eapply filter_imp; [|exact L]. intros t Ht. unfold relu. cbn [rltb ROps rzero]. now rewrite (proj2 (Rltb_false (f t) 0)) by lra.
  Qed.
  Lemma bucket_loc l (x : R -> R) : continuous x t0 -> (forall q, In q l -> fst q <> x t0) ->
    locally t0 (fun t => @bucketize R ROps (x t) l = @bucketize R ROps (x t0) l).
  Proof.
    intros Cx. induction l as [|q l IH]; intros H; [now apply filter_forall|].
    assert (L : locally t0 (fun t => Rltb (fst q) (x t) = Rltb (fst q) (x t0))).
    { destruct (Rlt_or_le (fst q) (x t0)) as [A|A].
      - assert (L : locally t0 (fun t => fst q < x t)) by (apply (Cx (fun y => fst q < y)), open_gt, A).
        eapply filter_imp; [|exact L]. intros t Ht. now rewrite !(proj2 (Rltb_true _ _)).
      - assert (A' : x t0 < fst q) by (specialize (H q (or_introl eq_refl)); lra).
        assert (L : locally t0 (fun t => x t < fst q)) by (apply (Cx (fun y => y < fst q)), open_lt, A').
        eapply filter_imp; [|exact L]. intros t Ht. now rewrite !(proj2 (Rltb_false _ _)) by lra. }
    assert (L2 := IH (fun q' H' => H q' (or_intror H'))). eapply filter_imp; [|apply (filter_and _ _ L L2)].
    intros t [E1 E2]. unfold bucketize in *. cbn [filter]. cbn [rltb ROps] in *. rewrite E1. destruct (Rltb (fst q) (x t0)); cbn [List.length]; [f_equal|]; exact E2.
  Qed.
  (* the interpolant is differentiable off the nodes, and the tangent is its derivative *)
  Lemma cc_interp (l : list (R * C)) (x : R -> R) (d : dual) : StronglySorted keylt l -> (0 < List.length l)%nat ->
    (forall q, In q l -> fst q <> x t0) -> car x d ->
    cc (fun t => @interp_at R ROps l (x t)) (@interp_at dual DOps (lift_rows l) d).
  Proof.
    intros Hs Hl Hq Hx. pose proof (car_cont t0 x d Hx) as Cx. pose proof (bucket_loc l x Cx Hq) as LB.
    unfold interp_at at 2, interp_parts. rewrite lift_length, bucket_lift. replace (fst d) with (x t0) by apply Hx.
    set (i := @bucketize R ROps (x t0) l) in *. set (n := List.length l) in *.
    set (ir := Nat.min i (n - 1)). set (il := Nat.min (i - 1) (n - 1)).
    rewrite !row_lift. cbn [fst snd].
    set (a := @row R ROps l il). set (b := @row R ROps l ir).
    assert (Ia : In a l) by (apply nth_In; change (il < n)%nat; unfold il; lia). assert (Ib : In b l) by (apply nth_In; change (ir < n)%nat; unfold ir; lia).
    set (dl := fun t => @relu R ROps (x t - fst a)). set (dr := fun t => @relu R ROps (fst b - x t)).
    assert (Cl : car dl (@relu dual DOps (rsub d (dconst (fst a))))).
    { apply (car_relu (fun t => x t - fst a)); [apply car_sub; [exact Hx|apply car_const]|]. intros E. apply (Hq a Ia). symmetry. exact (Rminus_diag_uniq _ _ E). }
    assert (Cr : car dr (@relu dual DOps (rsub (dconst (fst b)) d))).
    { apply (car_relu (fun t => fst b - x t)); [apply car_sub; [apply car_const|exact Hx]|]. intros E. apply (Hq b Ib). exact (Rminus_diag_uniq _ _ E). }
    assert (Sab : fst a <= fst b).
    { unfold a, b, row. destruct (Nat.eq_dec il ir) as [->|N]; [right; reflexivity|]. left. apply (sorted_nth l Hs); unfold il, ir, n in *; lia. }
    assert (Pos : forall y, y <> fst a -> y <> fst b -> ~ (@relu R ROps (y - fst a) = 0 /\ @relu R ROps (fst b - y) = 0)).
    { intros y Na Nb [E1 E2]. rewrite relu_R in E1, E2. unfold Rmax in E1, E2. destruct (Rle_dec 0 (y - fst a)), (Rle_dec 0 (fst b - y)); lra. }
    assert (Ge : forall y, 0 <= @relu R ROps y) by (intros; rewrite relu_R; apply Rmax_l).
    assert (P0 : 0 < dl t0 + dr t0).
    { pose proof (Ge (x t0 - fst a)). pose proof (Ge (fst b - x t0)). destruct (Req_dec (dl t0 + dr t0) 0) as [E|]; [|unfold dl, dr in *; lra].
      exfalso. apply (Pos (x t0)); [intros E'; now apply (Hq a Ia)|intros E'; now apply (Hq b Ib)|]. unfold dl, dr in E. split; lra. }
    assert (Bd : @reqb dual DOps (@relu dual DOps (rsub d (dconst (fst a)))) rzero && @reqb dual DOps (@relu dual DOps (rsub (dconst (fst b)) d)) rzero = false).
    { cbn [reqb DOps rzero fst]. destruct Cl as [<- _], Cr as [<- _]. destruct (Reqb (dl t0) 0) eqn:E1, (Reqb (dr t0) 0) eqn:E2; try reflexivity.
      apply Reqb_true in E1, E2. lra. }
    rewrite Bd.
    assert (Lp : locally t0 (fun t => 0 < dl t + dr t)).
    { pose proof (car_cont t0 _ _ (car_add t0 _ _ _ _ Cl Cr)) as Cs. apply (Cs (fun y => 0 < y)), open_gt, P0. }
    apply (cc_loc t0 (fun t => (snd a * RtoC (dr t) + snd b * RtoC (dl t)) / RtoC (dl t + dr t))%C).
    - eapply filter_imp; [|apply (filter_and _ _ LB Lp)]. intros t [E P]. unfold interp_at, interp_parts. rewrite E. fold i. fold n. fold ir. fold il. fold a. fold b.
      change (@rsub R ROps (x t) (fst a)) with (x t - fst a). change (@rsub R ROps (fst b) (x t)) with (fst b - x t).
      fold (dl t). fold (dr t). replace (@reqb R ROps (dl t) rzero && @reqb R ROps (dr t) rzero) with false; [reflexivity|].
      symmetry. cbn [reqb ROps rzero]. destruct (Reqb (dl t) 0) eqn:E1, (Reqb (dr t) 0) eqn:E2; try reflexivity. apply Reqb_true in E1, E2. lra.
    - apply cc_div; [apply cc_add; apply cc_mul; try apply cc_ofr; try assumption; apply cc_const|apply cc_ofr, car_add; assumption|].
      intros E. apply RtoC_inj in E. lra.
  Qed.
  Lemma car_sellmeier cs ps : sellmeier_pairs cs ps -> forall (w : R -> R) (d : dual) (acc : R -> R) (da : dual), car w d -> car acc da ->
    (forall bc, In bc ps -> w t0 ^ 2 <> snd bc ^ 2) ->
    exists (f : R -> R) df, (forall t, @sellmeier_sum R ROps cs (w t) (acc t) = Ok (f t)) /\ @sellmeier_sum dual DOps (map dconst cs) d da = Ok df /\ car f df.
  Proof.
    induction 1 as [|b c cs ps H IH]; intros w d acc da Hw Ha Hp.
    - exists acc, da. repeat split; apply Ha.
    - cbn [map sellmeier_sum].
      apply (IH w d (fun t => acc t + b * (w t * (w t * 1)) / (w t * (w t * 1) - c * (c * 1)))); [exact Hw| |intros bc Hin; apply Hp; now right].
      apply car_add; [exact Ha|]. unfold sellmeier_term, rsqr.
      apply car_div; [apply car_mul; [apply car_const|]|apply car_sub|].
      + apply car_mul; [exact Hw|]. apply car_mul; [exact Hw|]. exact (car_const t0 1).
      + apply car_mul; [exact Hw|]. apply car_mul; [exact Hw|]. exact (car_const t0 1).
      + apply car_mul; [apply car_const|]. apply car_mul; [apply car_const|]. exact (car_const t0 1).
      + specialize (Hp (b, c) (or_introl eq_refl)). cbn [snd] in Hp. intros E. apply Hp. cbn [pow]. lra.
  Qed.
End T.
