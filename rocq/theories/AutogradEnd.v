(** Statements of C84 in terms of the code's forward and backward functions. *)
From Coq Require Import Reals ZArith Lra Lia List Bool Arith.
From Coquelicot Require Import Coquelicot.
From Verif Require Import Ops ROps Spec CTrig CLemmas ComplexDiff Tensor TensorProofs BesselSpec BesselProofs BesselTrue BesselMinimal
  MaxwellSpec MaxwellProofs ModelSpecial ModelMie ModelAutograd AutogradSpec AutogradProofs.
Import ListNotations.
Open Scope C_scope.
Arguments Cmod x%C_scope.
Notation derC := (@der R ROps).
Notation b2C := (@bessel2ndDer R ROps).

(** ** first and second derivatives *)
Lemma y_der (z : C) n : z <> 0 -> Cderive (true_y n) z (derC true_y n z).
Proof.
  intros Hz. unfold der. destruct n as [|n]; cbn [f_der_at]; toC; [now apply Cderive_true_y0|].
  eapply Cderive_val; [|apply Cderive_true_y, Hz]. replace (S n + 1)%nat with (n + 2)%nat by lia. reflexivity.
Qed.
Lemma j_der (z : C) n : z <> 0 -> Cderive (true_j n) z (derC true_j n z).
Proof. intros Hz. exact (fder_jn z n Hz). Qed.
Section Second.
  Variable f : nat -> C -> C.
  Hypothesis H0 : forall z : C, z <> 0 -> Cderive (f 0) z (- f 1%nat z).
  Hypothesis HS : forall n (z : C), z <> 0 -> Cderive (f (S n)) z (f n z - RtoC (INR (n + 2)) / z * f (S n) z).
  Hypothesis Hr : forall n z, f (S (S n)) z = RtoC (INR (2 * n + 3)) / z * f (S n) z - f n z.
  Lemma up n (z : C) : z <> 0 -> Cderive (f n) z (RtoC (INR n) / z * f n z - f (S n) z).
  Proof.
    intros Hz. destruct n as [|n].
    - eapply Cderive_val; [|apply H0, Hz]. change (INR 0) with 0%R. match goal with |- ?a = ?b => change (@eq C a b) end. field. exact Hz.
    - eapply Cderive_val; [|apply HS, Hz]. rewrite Hr. replace (INR (2 * n + 3)) with (INR (S n) + INR (n + 2))%R by (rewrite !plus_INR, mult_INR, S_INR; simpl; ring).
      rewrite RtoC_plus. match goal with |- ?a = ?b => change (@eq C a b) end. field. exact Hz.
  Qed.
  Lemma second n (z : C) : z <> 0 -> Cderive (derC f n) z (b2C f n z).
  Proof.
    intros Hz. unfold der, bessel2ndDer. destruct n as [|n]; cbn [f_der_at]; toC.
    - eapply Cderive_val; [|apply Cderive_opp, HS, Hz]. unfold csqr. toC. rewrite ?cofn_C. simpl (0 + 1)%nat. simpl (0 * 0)%nat. simpl (0 + 2)%nat.
      change (INR 0) with 0%R. change (INR 2) with (1 + 1)%R. change (@rtwo R ROps) with (1 + 1)%R. rewrite RtoC_plus.
      match goal with |- ?a = ?b => change (@eq C a b) end. field. exact Hz.
    - eapply Cderive_val; [|apply Cderive_minus; [apply up, Hz|apply Cderive_mult; [|apply up, Hz]]].
      2:{ apply (Cderive_ext (fun w => RtoC (INR (S n + 1)) * / w)); [intros; rewrite ?cofn_C; reflexivity|]. apply Cderive_scal, Cderive_inv, Hz. }
      cbv beta. unfold csqr. toC. rewrite ?cofn_C. change (@rtwo R ROps) with (1 + 1)%R.
      replace (S n + 1)%nat with (S (S n)) by lia. rewrite Hr.
      replace (INR (2 * n + 3)) with (INR n + INR n + 1 + 1 + 1)%R by (rewrite plus_INR, mult_INR; simpl; ring).
      rewrite mult_INR, !S_INR, !RtoC_plus, RtoC_mult, !RtoC_plus.
      match goal with |- ?a = ?b => change (@eq C a b) end. field. exact Hz.
  Qed.
End Second.
Lemma j_second (z : C) n : z <> 0 -> Cderive (derC true_j n) z (b2C true_j n z).
Proof. apply second; [exact Cderive_true_j0|exact Cderive_true_j|intros; apply tt_SS]. Qed.
Lemma y_second (z : C) n : z <> 0 -> Cderive (derC true_y n) z (b2C true_y n z).
Proof. apply second; [exact Cderive_true_y0|exact Cderive_true_y|intros; apply tt_SS]. Qed.

(** ** gradients only matter inside the tensor *)
Lemma grad_ext L (w g g' : tensor C) : shp g' = shp g -> (forall ix, in_bounds (shp w) ix -> at_ g ix = at_ g' ix) -> has_grad L w g -> has_grad L w g'.
Proof.
  intros Hs E [H1 H2]. split; [congruence|]. intros p v A B D. specialize (H2 p v A B D).
  replace (pairing (shp w) (at_ g') v) with (pairing (shp w) (at_ g) v); [exact H2|].
  apply rsum_ext. intros ix Hix. apply in_indices in Hix. now rewrite (E ix Hix).
Qed.
Lemma overwrite_id (w : C) : w <> 0 -> @overwrite R ROps w = w.
Proof.
  intros Hw. unfold overwrite, ceqb. destruct w as [a b]. cbn. unfold Reqb.
  destruct (Req_EM_T a 0) as [->|Ha]; [|reflexivity]. destruct (Req_EM_T b 0) as [->|Hb]; [|reflexivity]. now elim Hw.
Qed.

(** ** the backward passes *)
Notation sph := (@sph_fn R). Notation sph_d := (@sph_fn_der R ROps).
Lemma fn_grad f (Hf : forall (z : C) n, z <> 0 -> Cderive (f n) z (derC f n z)) n L (z g : tensor C) : nonzero z ->
  has_grad L (sph f n z) g -> has_grad (fun z => L (sph f n z)) z (fst (@backward_fn R ROps f n z g)).
Proof. intros Hz H. apply (chain f (derC f) n); [intros; now apply Hf|exact Hz|exact H]. Qed.
Lemma atleast_tmap (h : C -> C) (z : tensor C) ix : at_ (atleast_1d (tmap h z)) ix = h (at_ (atleast_1d z) ix).
Proof. unfold atleast_1d, tmap. cbn [shp]. destruct (shp z); reflexivity. Qed.
Lemma nz_at (z : tensor C) ix : nonzero z -> in_bounds (shp z) ix -> at_ (atleast_1d z) (match shp z with [] => [0%nat] | _ => ix end) <> 0.
Proof.
  intros Hz Hix. unfold atleast_1d. destruct (shp z) eqn:E; cbn [at_].
  - apply Hz. now rewrite E.
  - apply Hz. now rewrite E.
Qed.
Lemma der_value f n (z g : tensor C) ix : nonzero z -> in_bounds (shp z) ix ->
  at_ (fst (@backward_der R ROps f n z g)) ix = at_ (@to_input R ROps n z (@times_conj R ROps n (b2C f) z g)) ix.
Proof.
  intros Hz Hix. unfold backward_der. cbn [fst]. unfold to_input. cbn [at_]. f_equal. apply map_ext. intros o.
  unfold times_conj. cbn [at_]. unfold by_order. cbn [at_ hd tl].
  pose proof (nz_at z ix Hz Hix) as K. change (cplx R) with C in *.
  rewrite (atleast_tmap (@overwrite R ROps) z). rewrite overwrite_id by exact K. reflexivity.
Qed.
Lemma der_grad f (Hf : forall (z : C) n, z <> 0 -> Cderive (derC f n) z (b2C f n z)) n L (z g : tensor C) : nonzero z ->
  has_grad L (sph_d f n z) g -> has_grad (fun z => L (sph_d f n z)) z (fst (@backward_der R ROps f n z g)).
Proof.
  intros Hz H. eapply grad_ext; [| |apply (chain (derC f) (b2C f) n); [intros; now apply Hf|exact Hz|exact H]]; [reflexivity|].
  intros ix Hix. symmetry. now apply der_value.
Qed.
Theorem jn_grad n L (z g : tensor C) : nonzero z ->
  has_grad L (sph true_j n z) g -> has_grad (fun z => L (sph true_j n z)) z (fst (@backward_fn R ROps true_j n z g)).
Proof. apply fn_grad, j_der. Qed.
Theorem yn_grad n L (z g : tensor C) : nonzero z ->
  has_grad L (sph true_y n z) g -> has_grad (fun z => L (sph true_y n z)) z (fst (@backward_fn R ROps true_y n z g)).
Proof. apply fn_grad, y_der. Qed.
Theorem jn_der_grad n L (z g : tensor C) : nonzero z ->
  has_grad L (sph_d true_j n z) g -> has_grad (fun z => L (sph_d true_j n z)) z (fst (@backward_der R ROps true_j n z g)).
Proof. apply der_grad, j_second. Qed.
Theorem yn_der_grad n L (z g : tensor C) : nonzero z ->
  has_grad L (sph_d true_y n z) g -> has_grad (fun z => L (sph_d true_y n z)) z (fst (@backward_der R ROps true_y n z g)).
Proof. apply der_grad, y_second. Qed.

(** ** Hankel functions *)
Lemma csum_split (l : list nat) (a b : nat -> C) : @csum R ROps (map a l) + @csum R ROps (map b l) = @csum R ROps (map (fun o => a o + b o) l).
Proof. induction l as [|x l IH]; cbn [map]; [rewrite !csum_nil; ring|]. rewrite !csum_cons, <- IH. ring. Qed.
Lemma h_value (dj dy : nat -> C -> C) n (z g : tensor C) ix :
  at_ (@to_input R ROps n z (@times_conj R ROps n (fun o w => dj o w + Ci * dy o w) z g)) ix
  = at_ (@to_input R ROps n z (@times_conj R ROps n dj z g)) ix
    + at_ (@to_input R ROps n z (@times_conj R ROps n dy z (tmap (fun x => @cmul R ROps x (@cconj R ROps ci)) g))) ix.
Proof.
  unfold to_input. cbn [at_]. etransitivity; [|symmetry; apply csum_split]. f_equal. apply map_ext. intros o.
  unfold times_conj, tmap. cbn [at_]. unfold by_order. cbn [at_ hd tl]. change (cplx R) with C.
  generalize (at_ g (o :: match shp z with [] => [0%nat] | _ :: _ => ix end)). intros x.
  generalize (at_ (atleast_1d z) (match shp z with [] => [0%nat] | _ :: _ => ix end)). intros w. toC.
  rewrite Cconj_plus, Cconj_mult. match goal with |- ?a = ?b => change (@eq C a b) end. ring.
Qed.
Theorem h1n_grad n L (z g : tensor C) : nonzero z ->
  has_grad L (@sph_h1n_t R ROps true_j true_y n z) g ->
  has_grad (fun z => L (@sph_h1n_t R ROps true_j true_y n z)) z (fst (@backward_h1n R ROps true_j true_y n z g)).
Proof.
  intros Hz H. eapply grad_ext; [| |apply (chain (fun o w => true_j o w + Ci * true_y o w) (fun o w => derC true_j o w + Ci * derC true_y o w) n); [|exact Hz|exact H]]; [reflexivity| |].
  - intros ix _. apply h_value.
  - intros o w Hw. apply Cderive_plus; [now apply j_der|]. apply Cderive_scal. now apply y_der.
Qed.
Lemma nonzero_tmap (z : tensor C) : nonzero z -> nonzero (tmap (@overwrite R ROps) z).
Proof.
  intros H ix Hix. unfold tmap in *. cbn [shp at_] in *. specialize (H ix Hix). rewrite overwrite_id; exact H.
Qed.
Theorem h1n_der_grad n L (z g : tensor C) : nonzero z ->
  has_grad L (@sph_h1n_der_t R ROps true_j true_y n z) g ->
  has_grad (fun z => L (@sph_h1n_der_t R ROps true_j true_y n z)) z (fst (@backward_h1n_der R ROps true_j true_y n z g)).
Proof.
  intros Hz H. eapply grad_ext; [| |apply (chain (fun o w => derC true_j o w + Ci * derC true_y o w) (fun o w => b2C true_j o w + Ci * b2C true_y o w) n); [|exact Hz|exact H]]; [reflexivity| |].
  - intros ix Hix. rewrite h_value. unfold backward_h1n_der, backward_sum.
    destruct (@backward_der R ROps true_j n z g) as [gj z1] eqn:E1.
    assert (Ez : z1 = tmap (@overwrite R ROps) z) by (unfold backward_der in E1; now injection E1).
    destruct (@backward_der R ROps true_y n z1 _) as [gy z2] eqn:E2. cbn [fst at_].
    pose proof (der_value true_j n z g ix Hz Hix) as V1. rewrite E1 in V1. cbn [fst] in V1.
    pose proof (der_value true_y n z1 (tmap (fun x => @cmul R ROps x (@cconj R ROps ci)) g) ix) as V2.
    rewrite E2 in V2. cbn [fst] in V2. rewrite Ez in V2. specialize (V2 (nonzero_tmap z Hz) Hix).
    toC. rewrite <- V1. f_equal. rewrite V2.
    unfold to_input. cbn [at_ shp tmap]. f_equal. apply map_ext. intros o. unfold times_conj, by_order. cbn [at_ hd tl].
    pose proof (nz_at z ix Hz Hix) as K. change (cplx R) with C in *. rewrite (atleast_tmap (@overwrite R ROps) z).
    rewrite overwrite_id by exact K. reflexivity.
  - intros o w Hw. apply Cderive_plus; [now apply j_second|]. apply Cderive_scal. now apply y_second.
Qed.

(** ** writes to the argument *)
Lemma no_write f n (z g : tensor C) : nonzero z -> teq (snd (@backward_der R ROps f n z g)) z.
Proof.
  intros Hz. split; [reflexivity|]. intros ix Hix. cbn. apply overwrite_id, Hz, Hix.
Qed.
Lemma writes f n (z g : tensor C) ix : at_ z ix = 0 -> at_ (snd (@backward_der R ROps f n z g)) ix <> at_ z ix.
Proof.
  intros E. cbn [backward_der snd tmap at_]. change (cplx R) with C. rewrite E. unfold overwrite, ceqb. cbn. unfold Reqb. destruct (Req_EM_T 0 0) as [_|K]; [|now elim K]. cbn.
  intros K. apply (f_equal fst) in K. cbn in K. lra.
Qed.

(** ** the energy as a loss *)
Lemma energy_grad (w : tensor C) : has_grad energy w (tmap (fun x => RtoC 2 * x) w).
Proof.
  split; [reflexivity|]. intros p v Hs H0 Hv. unfold energy, pairing.
  apply (is_derive_ext (fun t => rsum (map (fun ix => Cmod (at_ (p t) ix) * Cmod (at_ (p t) ix))%R (indices (shp w))))); [intros t; now rewrite Hs|].
  assert (K : forall l, (forall ix, In ix l -> in_bounds (shp w) ix) ->
    is_derive (fun t => rsum (map (fun ix => Cmod (at_ (p t) ix) * Cmod (at_ (p t) ix))%R l)) 0%R
      (rsum (map (fun ix => Re (Cconj (at_ (tmap (fun x => RtoC 2 * x) w) ix) * v ix)) l))).
  2:{ apply K. intros ix. apply in_indices. }
  induction l as [|ix l IH]; intros Hl; cbn [map rsum]; [apply @is_derive_const|].
  apply (is_derive_plus (V := R_NormedModule)); [|apply IH; intros; apply Hl; now right].
  destruct (Hv ix (Hl ix (or_introl eq_refl))) as [D1 D2]. pose proof (H0 ix (Hl ix (or_introl eq_refl))) as E0.
  apply (is_derive_ext (fun t => fst (at_ (p t) ix) * fst (at_ (p t) ix) + snd (at_ (p t) ix) * snd (at_ (p t) ix))%R).
  { intros t. symmetry. unfold Cmod. rewrite sqrt_def; [match goal with |- ?a = ?b => change (@eq R a b) end; ring|]. generalize (fst (at_ (p t) ix)), (snd (at_ (p t) ix)). intros a b. cbn. nra. }
  unfold tmap. cbn [at_]. rewrite <- E0.
  replace (Re (Cconj (RtoC 2 * at_ (p 0%R) ix) * v ix))
    with ((fst (v ix) * fst (at_ (p 0%R) ix) + fst (at_ (p 0%R) ix) * fst (v ix)) + (snd (v ix) * snd (at_ (p 0%R) ix) + snd (at_ (p 0%R) ix) * snd (v ix)))%R
    by (unfold Re; cbn; ring).
  apply (is_derive_plus (V := R_NormedModule));
    [apply (is_derive_mult (fun t => fst (at_ (p t) ix)) (fun t => fst (at_ (p t) ix)))|
     apply (is_derive_mult (fun t => snd (at_ (p t) ix)) (fun t => snd (at_ (p t) ix)))]; try assumption; intros; apply Rmult_comm.
Qed.
(* the value written over a zero entry *)
Lemma written f n (z g : tensor C) ix : at_ z ix = RtoC 0 -> at_ (snd (@backward_der R ROps f n z g)) ix = RtoC (/ 10 ^ 10)%R.
Proof.
  intros E. cbn [backward_der snd tmap at_]. change (cplx R) with C. rewrite E. unfold overwrite. assert (Z : @ceqb R ROps (RtoC 0) (@czero R ROps) = true).
  { unfold ceqb. cbn. unfold Reqb. destruct (Req_EM_T 0 0) as [_|K]; [reflexivity|now elim K]. }
  rewrite Z. unfold cofr, rtenth, RtoC. cbn [rdiv rone rofZ rzero ROps]. f_equal. unfold Rdiv. rewrite Rmult_1_l. f_equal. rewrite <- pow_IZR. reflexivity.
Qed.
