(** Proofs for C84: the hand-written backward passes are gradients. *)
From Coq Require Import Reals ZArith Lra Lia List Bool Arith.
From Coquelicot Require Import Coquelicot.
From Verif Require Import Ops ROps Spec CTrig CLemmas ComplexDiff Tensor TensorProofs BesselSpec BesselProofs BesselTrue BesselMinimal
  MaxwellSpec MaxwellProofs ModelSpecial ModelMie ModelAutograd AutogradSpec.
Import ListNotations.
Open Scope R_scope.
Arguments Cmod x%C_scope.

(** ** derivatives of complex functions along curves *)
Lemma fst_Cmod (c : C) : Rabs (fst c) <= Cmod c.
Proof. pose proof (Rmax_Cmod c). pose proof (Rmax_l (Rabs (fst c)) (Rabs (snd c))). lra. Qed.
Lemma snd_Cmod (c : C) : Rabs (snd c) <= Cmod c.
Proof. pose proof (Rmax_Cmod c). pose proof (Rmax_r (Rabs (fst c)) (Rabs (snd c))). lra. Qed.
Lemma Cmod_sum (c : C) : Cmod c <= Rabs (fst c) + Rabs (snd c).
Proof.
  destruct c as [a b]. cbn [fst snd]. replace ((a, b) : C) with (RtoC a + Ci * RtoC b)%C by (unfold Ci, RtoC, Cplus, Cmult; cbn; f_equal; ring).
  eapply Rle_trans; [apply Cmod_triangle|]. rewrite Cmod_mult, !Cmod_R. replace (Cmod Ci) with 1; [lra|].
  unfold Cmod, Ci. cbn. replace (0 * (0 * 1) + 1 * (1 * 1)) with 1 by ring. now rewrite sqrt_1.
Qed.
Lemma der_elim (f : R -> R) x l : is_derive f x l -> forall eps, 0 < eps -> exists d, 0 < d /\
  forall h, Rabs h < d -> Rabs (f (x + h) - f x - h * l) <= eps * Rabs h.
Proof.
  intros [_ H] eps He. specialize (H x (fun P Q => Q)). destruct (H (mkposreal eps He)) as [d Hd].
  exists d. split; [apply cond_pos|]. intros h Hh. assert (E : x + h - x = h) by ring.
  specialize (Hd (x + h)). rewrite <- E at 2 3. apply Hd. change (Rabs (x + h - x) < d). now rewrite E.
Qed.
Lemma rc_elim (f : R -> C) t l : RCderive f t l -> forall eps, 0 < eps -> exists d, 0 < d /\
  forall h, Rabs h < d -> Cmod (f (t + h)%R - f t - RtoC h * l)%C <= eps * Rabs h.
Proof.
  intros [H1 H2] eps He.
  destruct (der_elim _ _ _ H1 (eps / 2)) as (d1 & D1 & B1); [lra|].
  destruct (der_elim _ _ _ H2 (eps / 2)) as (d2 & D2 & B2); [lra|].
  exists (Rmin d1 d2). split; [now apply Rmin_glb_lt|]. intros h Hh.
  specialize (B1 h (Rlt_le_trans _ _ _ Hh (Rmin_l _ _))). specialize (B2 h (Rlt_le_trans _ _ _ Hh (Rmin_r _ _))).
  eapply Rle_trans; [apply Cmod_sum|]. cbv beta in B1, B2.
  replace (fst (f (t + h)%R - f t - RtoC h * l)%C) with (fst (f (t + h)) - fst (f t) - h * fst l) by (cbn; ring).
  replace (snd (f (t + h)%R - f t - RtoC h * l)%C) with (snd (f (t + h)) - snd (f t) - h * snd l) by (cbn; ring). lra.
Qed.
Lemma rc_intro (f : R -> C) t l : (forall eps, 0 < eps -> exists d, 0 < d /\
  forall h, Rabs h < d -> Cmod (f (t + h)%R - f t - RtoC h * l)%C <= eps * Rabs h) -> RCderive f t l.
Proof.
  intros H. split; apply is_derive_Reals; intros eps He; destruct (H (eps / 2)) as (d & D & B); try lra;
    exists (mkposreal d D); intros h Hh0 Hh; cbn in Hh; specialize (B h Hh); pose proof (Rabs_pos_lt h Hh0) as Hp.
  - pose proof (fst_Cmod (f (t + h)%R - f t - RtoC h * l)%C) as K. cbn in K.
    replace ((fst (f (t + h)) - fst (f t)) / h - fst l) with ((fst (f (t + h)) - fst (f t) - h * fst l) / h) by (field; exact Hh0).
    unfold Rdiv at 1. rewrite Rabs_mult, Rabs_inv.
    apply Rle_lt_trans with (eps / 2 * Rabs h * / Rabs h); [apply Rmult_le_compat_r; [left; now apply Rinv_0_lt_compat|]|].
    + replace (fst (f (t + h)) - fst (f t) - h * fst l) with (fst (f (t + h)) + - fst (f t) + - (h * fst l - 0 * snd l)) by ring. lra.
    + replace (eps / 2 * Rabs h * / Rabs h) with (eps / 2) by (field; lra). lra.
  - pose proof (snd_Cmod (f (t + h)%R - f t - RtoC h * l)%C) as K. cbn in K.
    replace ((snd (f (t + h)) - snd (f t)) / h - snd l) with ((snd (f (t + h)) - snd (f t) - h * snd l) / h) by (field; exact Hh0).
    unfold Rdiv at 1. rewrite Rabs_mult, Rabs_inv.
    apply Rle_lt_trans with (eps / 2 * Rabs h * / Rabs h); [apply Rmult_le_compat_r; [left; now apply Rinv_0_lt_compat|]|].
    + replace (snd (f (t + h)) - snd (f t) - h * snd l) with (snd (f (t + h)) + - snd (f t) + - (h * snd l + 0 * fst l)) by ring. lra.
    + replace (eps / 2 * Rabs h * / Rabs h) with (eps / 2) by (field; lra). lra.
Qed.
Lemma rc_chain (F : C -> C) (p : R -> C) t l v : Cderive F (p t) l -> RCderive p t v -> RCderive (fun s => F (p s)) t (l * v)%C.
Proof.
  intros HF Hp. apply rc_intro. intros eps He.
  set (M := Cmod v + 1). set (K := Cmod l + 1).
  assert (HM : 0 < M) by (unfold M; pose proof (Cmod_ge_0 v); lra).
  assert (HK : 0 < K) by (unfold K; pose proof (Cmod_ge_0 l); lra).
  destruct (Cderive_elim _ _ _ HF (eps / 2 / M)) as (d1 & D1 & B1); [repeat apply Rdiv_lt_0_compat; lra|].
  destruct (rc_elim _ _ _ Hp (Rmin 1 (eps / 2 / K))) as (d2 & D2 & B2); [apply Rmin_glb_lt; [lra|repeat apply Rdiv_lt_0_compat; lra]|].
  exists (Rmin d2 (d1 / M)). split; [apply Rmin_glb_lt; [exact D2|now apply Rdiv_lt_0_compat]|].
  intros h Hh. pose proof (Rabs_pos h) as Hh0.
  specialize (B2 h (Rlt_le_trans _ _ _ Hh (Rmin_l _ _))).
  set (k := (p (t + h)%R - p t)%C).
  assert (Hk : Cmod k <= M * Rabs h).
  { replace k with ((p (t + h)%R - p t - RtoC h * v) + RtoC h * v)%C by (unfold k; ring).
    eapply Rle_trans; [apply Cmod_triangle|]. rewrite Cmod_mult, Cmod_R.
    assert (Cmod (p (t + h)%R - p t - RtoC h * v)%C <= 1 * Rabs h)
      by (eapply Rle_trans; [exact B2|apply Rmult_le_compat_r; [exact Hh0|apply Rmin_l]]).
    unfold M. lra. }
  assert (Hk1 : Cmod k < d1).
  { eapply Rle_lt_trans; [exact Hk|]. replace d1 with (M * (d1 / M)) by (field; lra).
    apply Rmult_lt_compat_l; [exact HM|]. eapply Rlt_le_trans; [exact Hh|apply Rmin_r]. }
  specialize (B1 k Hk1). replace (p t + k)%C with (p (t + h)%R) in B1 by (unfold k; ring).
  replace (F (p (t + h)%R) - F (p t) - RtoC h * (l * v))%C
    with ((F (p (t + h)%R) - F (p t) - k * l) + l * (p (t + h)%R - p t - RtoC h * v))%C by (unfold k; ring).
  eapply Rle_trans; [apply Cmod_triangle|]. rewrite Cmod_mult.
  assert (Hl : Cmod l * Cmod (p (t + h)%R - p t - RtoC h * v)%C <= eps / 2 * Rabs h).
  { apply Rle_trans with (K * (eps / 2 / K * Rabs h)).
    - apply Rmult_le_compat; [apply Cmod_ge_0|apply Cmod_ge_0|unfold K; lra|].
      eapply Rle_trans; [exact B2|apply Rmult_le_compat_r; [exact Hh0|apply Rmin_r]].
    - right. field. lra. }
  assert (Hf : eps / 2 / M * Cmod k <= eps / 2 * Rabs h).
  { apply Rle_trans with (eps / 2 / M * (M * Rabs h)).
    - apply Rmult_le_compat_l; [|exact Hk]. left. repeat apply Rdiv_lt_0_compat; lra.
    - right. field. lra. }
  lra.
Qed.

(** ** sums *)
Lemma rsum_app l m : rsum (l ++ m) = rsum l + rsum m.
Proof. induction l as [|x l IH]; cbn; [ring|rewrite IH; ring]. Qed.
Lemma rsum_ext {A} (f g : A -> R) l : (forall x, In x l -> f x = g x) -> rsum (map f l) = rsum (map g l).
Proof. intros H. f_equal. now apply map_ext_in. Qed.
Lemma rsum_plus {A} (f g : A -> R) l : rsum (map (fun x => f x + g x) l) = rsum (map f l) + rsum (map g l).
Proof. induction l as [|x l IH]; cbn; [ring|rewrite IH; ring]. Qed.
Lemma rsum_zero {A} l : rsum (map (fun _ : A => 0) l) = 0.
Proof. induction l as [|x l IH]; cbn; [reflexivity|rewrite IH; ring]. Qed.
Lemma rsum_flat {A B} (f : B -> R) (h : A -> list B) l : rsum (map f (flat_map h l)) = rsum (map (fun a => rsum (map f (h a))) l).
Proof. induction l as [|x l IH]; cbn; [reflexivity|]. now rewrite map_app, rsum_app, IH. Qed.
Lemma rsum_swap {A B} (f : A -> B -> R) l m :
  rsum (map (fun a => rsum (map (fun b => f a b) m)) l) = rsum (map (fun b => rsum (map (fun a => f a b) l)) m).
Proof.
  induction l as [|x l IH]; cbn; [symmetry; apply rsum_zero|]. rewrite IH. symmetry. apply rsum_plus.
Qed.
Lemma re_csum {A} (f : A -> C) (v : C) l : Re (Cconj (@csum R ROps (map f l)) * v)%C = rsum (map (fun a => Re (Cconj (f a) * v)%C) l).
Proof.
  induction l as [|x l IH]; cbn [map rsum]; [rewrite csum_nil; unfold Re; cbn; ring|].
  rewrite csum_cons, <- IH. rewrite Cconj_plus. generalize (@csum R ROps (map f l)). intros [a b]. destruct (f x) as [c d], v as [e g]. unfold Re. cbn. ring.
Qed.

(** ** the chain rule for maps that act entry by entry and order by order *)
Lemma pairing_order n s (g v : list nat -> C) :
  pairing (S n :: s) g v = rsum (map (fun ix => rsum (map (fun o => Re (Cconj (g (o :: ix)) * v (o :: ix))%C) (seq 0 (S n)))) (indices s)).
Proof.
  unfold pairing. cbn [indices]. rewrite rsum_flat, <- rsum_swap. apply rsum_ext. intros o _. rewrite map_map. reflexivity.
Qed.
Section Chain.
  Variables (F d : nat -> C -> C) (n : nat).
  Hypothesis Hd : forall o w, w <> RtoC 0 -> Cderive (F o) w (d o w).
  Notation fwd := (@by_order R C F n).

  Lemma fwd_shape (z z' : tensor C) : shp z' = shp z -> shp (fwd z') = shp (fwd z).
  Proof. intros E. unfold by_order. cbn [shp]. f_equal. unfold atleast_1d. change (cplx R) with C. rewrite E. destruct (shp z) eqn:E2; cbn; congruence. Qed.
  Theorem chain L (z g : tensor C) : nonzero z -> has_grad L (fwd z) g ->
    has_grad (fun z => L (fwd z)) z (@to_input R ROps n z (@times_conj R ROps n d z g)).
  Proof.
    intros Hz [Hs HL]. split; [reflexivity|]. intros q v Hq Hq0 Hqv.
    set (v1 := fun ix => match shp z with [] => v [] | _ => v ix end).
    specialize (HL (fun t => fwd (q t)) (fun ix => (d (hd 0%nat ix) (at_ (atleast_1d z) (tl ix)) * v1 (tl ix))%C)).
    assert (A : forall t ix, at_ (atleast_1d (q t)) ix = at_ (q t) (match shp z with [] => [] | _ => ix end)).
    { intros t ix. unfold atleast_1d. rewrite Hq. destruct (shp z); reflexivity. }
    assert (A0 : forall ix, at_ (atleast_1d z) ix = at_ z (match shp z with [] => [] | _ => ix end)).
    { intros ix. unfold atleast_1d. destruct (shp z); reflexivity. }
    assert (B : forall ix, in_bounds (shp (atleast_1d z)) ix -> in_bounds (shp z) (match shp z with [] => [] | _ => ix end)).
    { intros ix. unfold atleast_1d. destruct (shp z) eqn:E; [reflexivity|]. now rewrite E. }
    assert (E : pairing (shp (fwd z)) (at_ g) (fun ix => (d (hd 0%nat ix) (at_ (atleast_1d z) (tl ix)) * v1 (tl ix))%C)
              = pairing (shp z) (at_ (@to_input R ROps n z (@times_conj R ROps n d z g))) v).
    { change (shp (fwd z)) with (S n :: shp (atleast_1d z)). rewrite pairing_order. cbn [hd tl].
      transitivity (rsum (map (fun ix => Re (Cconj (@csum R ROps (map (fun o => at_ g (o :: ix) * Cconj (d o (at_ (atleast_1d z) ix)))%C (seq 0 (S n)))) * v1 ix)%C) (indices (shp (atleast_1d z))))).
      - apply rsum_ext. intros ix _. rewrite re_csum. apply rsum_ext. intros o _.
        destruct (at_ g (o :: ix)), (d o (at_ (atleast_1d z) ix)), (v1 ix). unfold Re. cbn. ring.
      - unfold pairing, to_input, times_conj, v1. cbn [at_ shp by_order hd tl]. unfold atleast_1d. change (cplx R) with C. destruct (shp z) eqn:Es.
        + cbn. reflexivity.
        + rewrite Es. reflexivity. }
    refine (eq_rect _ (fun X => is_derive _ _ X) _ _ E). apply HL.
    - intros t. apply fwd_shape, Hq.
    - intros [|o ix] Hix; [destruct Hix|]. destruct Hix as [Ho Hix]. unfold by_order. cbn [at_ hd tl]. f_equal.
      rewrite A, A0. apply Hq0, B, Hix.
    - intros [|o ix] Hix; [destruct Hix|]. destruct Hix as [Ho Hix]. unfold by_order. cbn [at_ hd tl].
      pose proof (B _ Hix) as Hix'.
      apply (rc_ext (fun t => F o (at_ (q t) (match shp z with [] => [] | _ => ix end)))); [intros t; now rewrite A|].
      rewrite A0. replace (v1 ix) with (v (match shp z with [] => [] | _ => ix end)) by (unfold v1; destruct (shp z); reflexivity).
      pose proof (Hz _ Hix') as Hnz. rewrite <- (Hq0 _ Hix') in Hnz |- *.
      apply (rc_chain (F o) (fun t => at_ (q t) (match shp z with [] => [] | _ => ix end))); [apply Hd, Hnz|apply Hqv, Hix'].
  Qed.
End Chain.
