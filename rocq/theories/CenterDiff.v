(** Proofs for C85: the numerical derivative of helper.py and the backward passes. *)
From Coq Require Import Reals ZArith Lra Lia List Bool Arith.
From Coquelicot Require Import Coquelicot.
From Verif Require Import Ops ROps Spec CTrig CLemmas ComplexDiff Tensor TensorProofs BesselSpec BesselProofs BesselTrue BesselMinimal
  MaxwellSpec MaxwellProofs ModelSpecial ModelMie ModelAutograd AutogradSpec AutogradProofs AutogradEnd.
Import ListNotations.
Open Scope C_scope.
Arguments Cmod x%C_scope.

(** ** conjugation symmetry *)
Lemma sin_conj z : Csin (Cconj z) = Cconj (Csin z).
Proof. destruct z as [a b]. unfold Csin, Cconj. cbn. rewrite ?sinh_neg. apply injective_projections; cbn; unfold cosh, sinh; rewrite ?Ropp_involutive; field. Qed.
Lemma cos_conj z : Ccos (Cconj z) = Cconj (Ccos z).
Proof. destruct z as [a b]. unfold Ccos, Cconj. cbn. apply injective_projections; cbn; unfold cosh, sinh; rewrite ?Ropp_involutive; field. Qed.
Lemma tt_conj (f0 f1 z : C) n : fst (three_term (Cconj f0) (Cconj f1) (Cconj z) n) = Cconj (fst (three_term f0 f1 z n)) /\
  snd (three_term (Cconj f0) (Cconj f1) (Cconj z) n) = Cconj (snd (three_term f0 f1 z n)).
Proof.
  induction n as [|n [IH1 IH2]]; [now split|]. rewrite !tt_S. cbn [fst snd]. split; [exact IH2|].
  rewrite IH1, IH2, Cconj_minus, Cconj_mult, Cconj_div, Cconj_R. reflexivity.
Qed.
Lemma j_conj n z : true_j n (Cconj z) = Cconj (true_j n z).
Proof.
  unfold true_j. rewrite sin_conj, cos_conj, <- (proj1 (tt_conj _ _ z n)).
  now rewrite Cconj_minus, !Cconj_div, Cconj_mult.
Qed.
Lemma y_conj n z : true_y n (Cconj z) = Cconj (true_y n z).
Proof.
  unfold true_y. rewrite sin_conj, cos_conj, <- (proj1 (tt_conj _ _ z n)).
  now rewrite Cconj_minus, !Cconj_opp', !Cconj_div, Cconj_mult.
Qed.
Section Conj.
  Variable f : nat -> C -> C.
  Hypothesis Hf : forall n z, f n (Cconj z) = Cconj (f n z).
  Lemma der_conj n z : derC f n (Cconj z) = Cconj (derC f n z).
  Proof.
    unfold der. destruct n as [|n]; cbn [f_der_at]; toC; rewrite !Hf; [now rewrite Cconj_opp'|].
    rewrite Cconj_minus, Cconj_mult, Cconj_div, ?cofn_C, Cconj_R. reflexivity.
  Qed.
  Lemma b2_conj n z : b2C f n (Cconj z) = Cconj (b2C f n z).
  Proof.
    unfold bessel2ndDer, csqr. toC. rewrite !Hf, ?cofn_C.
    rewrite !Cconj_mult, Cconj_plus, !Cconj_mult, Cconj_div, !Cconj_minus, !Cconj_mult, !Cconj_R. reflexivity.
  Qed.
End Conj.

(** ** central differences *)
Lemma center_limit (f : C -> C) (z l : C) : Cderive f (Cconj z) l -> tends_to (fun e => @num_center_diff R ROps f z e) l.
Proof.
  intros H eps He. destruct (Cderive_elim _ _ _ H (eps / 2)) as (d & Hd & B); [lra|].
  exists d. split; [exact Hd|]. intros e He0 Hed. unfold num_center_diff. toC. change (@rtwo R ROps) with 2%R.
  pose proof (B e Hed) as B1. assert (Hm : (Cmod (- e) < d)%R) by now rewrite Cmod_opp. pose proof (B (- e) Hm) as B2. rewrite Cmod_opp in B2.
  assert (H2 : RtoC 2 <> 0) by (apply RtoC_neq; lra).
  set (P := f (Cconj z + e)) in *. change (Cconj z + - e) with (Cconj z - e) in B2. set (Q := f (Cconj z - e)) in *.
  replace ((P - Q) / (RtoC 2 * e) - l) with (((P - f (Cconj z) - e * l) - (Q - f (Cconj z) - - e * l)) / (RtoC 2 * e)).
  2:{ assert (E2 : RtoC 2 = RtoC 1 + RtoC 1) by exact (RtoC_plus 1 1). rewrite E2 in *. field. split; [exact He0|exact H2]. }
  assert (Hp : (0 < Cmod e)%R) by now apply Cmod_gt_0.
  rewrite Cmod_div by (now apply Cmult_neq_0). rewrite Cmod_mult, Cmod_R, Rabs_pos_eq by lra.
  apply Rle_lt_trans with ((eps / 2 * Cmod e + eps / 2 * Cmod e) / (2 * Cmod e))%R.
  - apply Rmult_le_compat_r; [left; apply Rinv_0_lt_compat; lra|].
    eapply Rle_trans; [apply Cmod_triangle|]. rewrite Cmod_opp. lra.
  - replace ((eps / 2 * Cmod e + eps / 2 * Cmod e) / (2 * Cmod e))%R with (eps / 2)%R by (field; lra). lra.
Qed.
Lemma conj_nz (z : C) : z <> 0 -> Cconj z <> 0.
Proof. intros Hz E. apply Hz. apply (f_equal Cconj) in E. destruct z as [a b]. unfold Cconj in E. cbn in E. apply injective_projections; cbn; injection E; intros; lra. Qed.
Section Checker.
  Variables (f d : nat -> C -> C).
  Hypothesis Hd : forall (z : C) n, z <> 0 -> Cderive (f n) z (d n z).
  Hypothesis Hc : forall n z, d n (Cconj z) = Cconj (d n z).
  Lemma num_limit n (z : C) : z <> 0 -> tends_to (fun e => @num_center_diff R ROps (f n) z e) (Cconj (d n z)).
  Proof. intros Hz. rewrite <- Hc. apply center_limit, Hd. now apply conj_nz. Qed.
End Checker.
Lemma tends_plus v w a b : tends_to v a -> tends_to w b -> tends_to (fun e => v e + w e) (a + b).
Proof.
  intros H1 H2 eps He. destruct (H1 (eps / 2)%R) as (d1 & D1 & B1); [lra|]. destruct (H2 (eps / 2)%R) as (d2 & D2 & B2); [lra|].
  exists (Rmin d1 d2). split; [now apply Rmin_glb_lt|]. intros e He0 Hed.
  specialize (B1 e He0 (Rlt_le_trans _ _ _ Hed (Rmin_l _ _))). specialize (B2 e He0 (Rlt_le_trans _ _ _ Hed (Rmin_r _ _))).
  replace (v e + w e - (a + b)) with ((v e - a) + (w e - b)) by ring. eapply Rle_lt_trans; [apply Cmod_triangle|lra].
Qed.
Lemma tends_csum (v : nat -> C -> C) (a : nat -> C) l : (forall o, In o l -> tends_to (v o) (a o)) ->
  tends_to (fun e => @csum R ROps (map (fun o => v o e) l)) (@csum R ROps (map a l)).
Proof.
  induction l as [|o l IH]; intros H.
  - intros eps He. exists 1%R. split; [lra|]. intros e _ _. cbn [map]. rewrite csum_nil. replace (RtoC 0 - RtoC 0) with (RtoC 0) by ring. now rewrite Cmod_0.
  - cbn [map]. rewrite csum_cons. intros eps He.
    destruct (tends_plus (v o) (fun e => @csum R ROps (map (fun o => v o e) l)) (a o) (@csum R ROps (map a l)) (H o (or_introl eq_refl)) (IH (fun o' Ho => H o' (or_intror Ho))) eps He) as (d & D & B).
    exists d. split; [exact D|]. intros e He0 Hed. rewrite csum_cons. now apply B.
Qed.

(** ** the checker *)
Definition all_ones (z : tensor C) n : tensor C := mkT (S n :: shp (atleast_1d z)) (fun _ => RtoC 1).
Lemma ones_value (d : nat -> C -> C) n (z g : tensor C) ix : (forall ix, at_ g ix = RtoC 1) ->
  at_ (@to_input R ROps n z (@times_conj R ROps n d z g)) ix
  = @csum R ROps (map (fun o => Cconj (d o (at_ (atleast_1d z) (match shp z with [] => [0%nat] | _ => ix end)))) (seq 0 (S n))).
Proof.
  intros Hg. unfold to_input. cbn [at_]. f_equal. apply map_ext. intros o. unfold times_conj, by_order. cbn [at_ hd tl].
  change (cplx R) with C. rewrite Hg. toC. match goal with |- ?a = ?b => change (@eq C a b) end. ring.
Qed.
Section Sum.
  Variables (f d : nat -> C -> C) (n : nat) (z g : tensor C).
  Hypothesis Hd : forall (z : C) n, z <> 0 -> Cderive (f n) z (d n z).
  Hypothesis Hc : forall n z, d n (Cconj z) = Cconj (d n z).
  Hypothesis Hz : nonzero z.
  Hypothesis Hg : forall ix, at_ g ix = RtoC 1.
  Lemma orders_sum ix : in_bounds (shp z) ix ->
    tends_to (fun e => @csum R ROps (map (fun o => at_ (@by_order R _ (fun o w => @num_center_diff R ROps (f o) w e) n z)
                                               (o :: match shp z with [] => [0%nat] | _ => ix end)) (seq 0 (S n))))
             (at_ (@to_input R ROps n z (@times_conj R ROps n d z g)) ix).
  Proof.
    intros Hix. rewrite (ones_value d n z g ix Hg).
    apply (tends_csum (fun o e => at_ (@by_order R _ (fun o w => @num_center_diff R ROps (f o) w e) n z) (o :: match shp z with [] => [0%nat] | _ => ix end))).
    intros o _. unfold by_order. cbn [at_ hd tl]. apply (num_limit f d Hd Hc). now apply nz_at.
  Qed.
End Sum.

Notation nd := (@num_center_diff R ROps).
Lemma ones_at (z : tensor C) ix : at_ (@ones_like R ROps z) ix = RtoC 1. Proof. reflexivity. Qed.
Theorem sum_fn f (Hd : forall (z : C) n, z <> 0 -> Cderive (f n) z (derC f n z)) (Hf : forall n z, f n (Cconj z) = Cconj (f n z)) n (z : tensor C) ix :
  nonzero z -> in_bounds (shp z) ix ->
  tends_to (fun e => @csum R ROps (map (fun o => nd (f o) (at_ (atleast_1d z) (inner z ix)) e) (seq 0 (S n))))
           (at_ (fst (@backward_fn R ROps f n z (@ones_like R ROps (sph f n z)))) ix).
Proof. intros Hz Hix. exact (orders_sum f (derC f) n z _ Hd (der_conj f Hf) Hz (ones_at _) ix Hix). Qed.
Theorem sum_der f (Hd : forall (z : C) n, z <> 0 -> Cderive (derC f n) z (b2C f n z)) (Hf : forall n z, f n (Cconj z) = Cconj (f n z)) n (z : tensor C) ix :
  nonzero z -> in_bounds (shp z) ix ->
  tends_to (fun e => @csum R ROps (map (fun o => nd (derC f o) (at_ (atleast_1d z) (inner z ix)) e) (seq 0 (S n))))
           (at_ (fst (@backward_der R ROps f n z (@ones_like R ROps (sph_d f n z)))) ix).
Proof.
  intros Hz Hix. rewrite (der_value f n z _ ix Hz Hix).
  exact (orders_sum (derC f) (b2C f) n z _ Hd (b2_conj f Hf) Hz (ones_at _) ix Hix).
Qed.
Lemma squeeze_len s : (length (squeeze_shape s) <= length s)%nat.
Proof. unfold squeeze_shape. induction s as [|x s IH]; cbn; [lia|]. destruct (negb (x =? 1)%nat); cbn; lia. Qed.
Lemma checker_shapes v bw n (z : tensor C) eps : (forall z g, shp (fst (bw z g)) = shp z) ->
  let (a, b) := @funct_grad_checker R ROps v bw n z eps in
  shp a = (if (n =? 0)%nat then [] else [S n]) ++ squeeze_shape (shp z) /\ shp b = squeeze_shape (shp z).
Proof.
  intros Hb. unfold funct_grad_checker, squeeze, by_order. cbn [shp]. rewrite Hb. split; [|reflexivity].
  assert (E : squeeze_shape (shp (atleast_1d z)) = squeeze_shape (shp z)) by (unfold atleast_1d; destruct (shp z) eqn:Es; [reflexivity|now rewrite Es]).
  rewrite <- E. destruct n; reflexivity.
Qed.
Lemma checker_differ v bw n (z : tensor C) eps : (forall z g, shp (fst (bw z g)) = shp z) -> (1 <= n)%nat ->
  shp (fst (@funct_grad_checker R ROps v bw n z eps)) <> shp (snd (@funct_grad_checker R ROps v bw n z eps)).
Proof.
  intros Hb Hn. pose proof (checker_shapes v bw n z eps Hb) as H. destruct (@funct_grad_checker R ROps v bw n z eps) as [a b].
  destruct H as [H1 H2]. cbn [fst snd]. rewrite H1, H2. destruct n; [lia|]. cbn. intros E. apply (f_equal (@length nat)) in E. cbn in E. lia.
Qed.
(* order 0 alone: shapes and, in the limit, entries agree *)
Lemma zero_entries v bw (z : tensor C) eps ix :
  at_ (fst (@funct_grad_checker R ROps v bw 0 z eps)) ix = nd (v 0%nat) (at_ (atleast_1d z) (unsqueeze_ix (shp (atleast_1d z)) ix)) eps.
Proof. reflexivity. Qed.
Lemma un_bounds s : forall ix, in_bounds (squeeze_shape s) ix -> in_bounds s (unsqueeze_ix s ix).
Proof.
  intros ix Hix. apply in_indices. rewrite <- (unsqueeze_indices s). apply in_map. now apply in_indices.
Qed.
Lemma checker_zero v bw (z : tensor C) : (forall z g, shp (fst (bw z g)) = shp z) ->
  (forall ix, in_bounds (shp z) ix -> tends_to (fun e => @csum R ROps (map (fun o => nd (v o) (at_ (atleast_1d z) (inner z ix)) e) (seq 0 1)))
     (at_ (fst (bw z (@ones_like R ROps (@by_order R _ v 0 z)))) ix)) ->
  forall e1 ix, in_bounds (squeeze_shape (shp z)) ix ->
  tends_to (fun e => at_ (fst (@funct_grad_checker R ROps v bw 0 z e)) ix) (at_ (snd (@funct_grad_checker R ROps v bw 0 z e1)) ix).
Proof.
  intros Hb H e1 ix Hix. specialize (H _ (un_bounds _ _ Hix)).
  assert (E : at_ (snd (@funct_grad_checker R ROps v bw 0 z e1)) ix = at_ (fst (bw z (@ones_like R ROps (@by_order R _ v 0 z)))) (unsqueeze_ix (shp z) ix)).
  { cbn [funct_grad_checker snd squeeze at_]. unfold funct_grad_checker. cbn [snd squeeze at_]. now rewrite Hb. }
  rewrite E. intros eps He. destruct (H eps He) as (d & D & B). exists d. split; [exact D|]. intros e He0 Hed.
  specialize (B e He0 Hed). cbv beta in B. cbn [seq map] in B. rewrite csum_cons in B. change (@csum R ROps []) with (RtoC 0) in B. rewrite zero_entries.
  replace (at_ (atleast_1d z) (unsqueeze_ix (shp (atleast_1d z)) ix)) with (at_ (atleast_1d z) (inner z (unsqueeze_ix (shp z) ix))).
  2:{ unfold atleast_1d, inner. destruct (shp z) eqn:Es; [reflexivity|]. now rewrite Es. }
  eapply Rle_lt_trans; [|exact B]. right. f_equal. match goal with |- ?a = ?b => change (@eq C a b) end. ring.
Qed.
