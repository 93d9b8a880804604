(** Angular functions: pi_tau against Legendre polynomials (C06), bounds (C08). *)
From Coq Require Import Reals ZArith Lra Lia Bool List Arith.
From Coquelicot Require Import Coquelicot.
From Verif Require Import Ops ROps Spec CLemmas ModelSpecial.
Import ListNotations.
Open Scope R_scope.

Notation pi_ := (@pi_n R ROps).
Notation tau_ := (@tau_n R ROps).

Lemma pi_0 x : pi_ x 0 = 0. Proof. reflexivity. Qed.
Lemma pi_1 x : pi_ x 1 = 1. Proof. reflexivity. Qed.
Lemma pi_pair_eq x n : @pi_pair R ROps x n = (pi_ x n, pi_ x (S n)).
Proof.
  unfold pi_n. cbn [pi_pair]. destruct (@pi_pair R ROps x n) as [p q]. reflexivity.
Qed.
Lemma pi_SS x n : pi_ x (S (S n)) =
  ((2 * INR n + 3) * x * pi_ x (S n) - (INR n + 2) * pi_ x n) / (INR n + 1).
Proof.
  assert (E : pi_ x (S (S n)) = (INR (2 * S n + 1) * x * pi_ x (S n) - INR (S n + 1) * pi_ x n) / INR (S n)).
  { unfold pi_n at 1. cbn [pi_pair]. rewrite pi_pair_eq. cbn [fst snd].
    rewrite !rofn_R. reflexivity. }
  rewrite E, !plus_INR, mult_INR, (S_INR n). simpl (INR 2). simpl (INR 1).
  pose proof (pos_INR n). field. lra.
Qed.
Lemma tau_0 x : tau_ x 0 = 0. Proof. reflexivity. Qed.
Lemma tau_S x n : tau_ x (S n) = INR (S n) * x * pi_ x (S n) - (INR n + 2) * pi_ x n.
Proof.
  assert (E : tau_ x (S n) = INR (S n) * x * pi_ x (S n) - INR (S n + 1) * pi_ x n)
    by (unfold tau_n; rewrite !rofn_R; reflexivity).
  rewrite E, plus_INR, (S_INR n). simpl (INR 1). ring.
Qed.

Lemma leg_0 x : legendre 0 x = 1. Proof. reflexivity. Qed.
Lemma leg_1 x : legendre 1 x = x. Proof. reflexivity. Qed.
Lemma leg_pair_eq x n : legendre2 x n = (legendre n x, legendre (S n) x).
Proof. unfold legendre. cbn [legendre2]. destruct (legendre2 x n) as [p q]. reflexivity. Qed.
Lemma leg_SS x n : legendre (S (S n)) x =
  ((2 * INR n + 3) * x * legendre (S n) x - (INR n + 1) * legendre n x) / (INR n + 2).
Proof.
  unfold legendre at 1. cbn [legendre2].
  rewrite leg_pair_eq. reflexivity.
Qed.

Lemma two_step (P : nat -> Prop) : P 0%nat -> P 1%nat ->
  (forall n, P n -> P (S n) -> P (S (S n))) -> forall n, P n.
Proof.
  intros H0 H1 H n. enough (P n /\ P (S n)) by tauto.
  induction n as [|n [IH1 IH2]]; split; auto.
Qed.

Ltac posn n := let Hp := fresh "Hpn" in pose proof (pos_INR n) as Hp.

(* (n+1) P_{n+1} = x pi_{n+1} - pi_n  and  pi_{n+1} = x pi_n + (n+1) P_n *)
Lemma leg_pi x n : (INR n + 1) * legendre (S n) x = x * pi_ x (S n) - pi_ x n.
Proof.
  induction n as [| |n IH0 IH1] using two_step.
  - rewrite leg_1, pi_0, pi_1. simpl. ring.
  - rewrite leg_SS, leg_1, leg_0, pi_SS, pi_1, pi_0. simpl. field.
  - posn n. rewrite S_INR in IH1. rewrite 2!S_INR.
    rewrite (leg_SS x (S n)), S_INR.
    apply (Rmult_eq_reg_l (INR n + 1)); [|lra].
    assert (E1 : legendre (S (S n)) x = (x * pi_ x (S (S n)) - pi_ x (S n)) / (INR n + 1 + 1))
      by (apply (Rmult_eq_reg_l (INR n + 1 + 1)); [rewrite IH1; field; lra|lra]).
    assert (E0 : legendre (S n) x = (x * pi_ x (S n) - pi_ x n) / (INR n + 1))
      by (apply (Rmult_eq_reg_l (INR n + 1)); [rewrite IH0; field; lra|lra]).
    rewrite E1, E0, (pi_SS x (S n)), S_INR.
    assert (E2 : pi_ x n = ((2 * INR n + 3) * x * pi_ x (S n) - (INR n + 1) * pi_ x (S (S n))) / (INR n + 2))
      by (rewrite (pi_SS x n); field; lra).
    rewrite E2. field. lra.
Qed.
Lemma pi_step x n : pi_ x (S n) = x * pi_ x n + (INR n + 1) * legendre n x.
Proof.
  destruct n as [|n].
  - rewrite pi_0, pi_1, leg_0. simpl. ring.
  - pose proof (leg_pi x n) as H. posn n. rewrite pi_SS, S_INR.
    assert (E : legendre (S n) x = (x * pi_ x (S n) - pi_ x n) / (INR n + 1))
      by (apply (Rmult_eq_reg_l (INR n + 1)); [rewrite H; field; lra|lra]).
    rewrite E. field. lra.
Qed.
(* (1 - x^2) pi_n = (n+1) (x P_n - P_{n+1}) *)
Lemma leg_step x n : (INR n + 1) * legendre (S n) x = (INR n + 1) * x * legendre n x - (1 - x * x) * pi_ x n.
Proof. rewrite leg_pi, pi_step. ring. Qed.
(* tau_n = n (n+1) P_n - x pi_n *)
Lemma tau_leg x n : tau_ x n = INR n * (INR n + 1) * legendre n x - x * pi_ x n.
Proof.
  destruct n as [|n]; [rewrite tau_0, pi_0; simpl; ring|].
  rewrite tau_S. pose proof (leg_pi x n) as H. rewrite S_INR.
  replace ((INR n + 1) * (INR n + 1 + 1) * legendre (S n) x) with ((INR n + 2) * (x * pi_ x (S n) - pi_ x n))
    by (rewrite <- H; ring).
  ring.
Qed.

(** ** Derivatives *)
Lemma leg_derive n x : is_derive (legendre n) x (pi_ x n).
Proof.
  revert x. induction n as [| |n IH0 IH1] using two_step; intros x.
  - rewrite pi_0. apply is_derive_ext with (fun _ => 1); [reflexivity|]. apply @is_derive_const.
  - rewrite pi_1. apply is_derive_ext with (fun t => t); [reflexivity|]. apply @is_derive_id.
  - posn n.
    apply is_derive_ext with
      (fun t => ((2 * INR n + 3) * t * legendre (S n) t - (INR n + 1) * legendre n t) / (INR n + 2));
      [intros t; now rewrite leg_SS|].
    replace (pi_ x (S (S n))) with
      (((2 * INR n + 3) * (legendre (S n) x + x * pi_ x (S n)) - (INR n + 1) * pi_ x n) / (INR n + 2)).
    + specialize (IH0 x). specialize (IH1 x).
      auto_derive.
      * repeat split; eexists; eassumption.
      * replace (Derive (fun t => legendre (S n) t) x) with (pi_ x (S n)) by (symmetry; apply is_derive_unique; exact IH1).
        replace (Derive (fun t => legendre n t) x) with (pi_ x n) by (symmetry; apply is_derive_unique; exact IH0).
        field. lra.
    + pose proof (leg_pi x n) as H.
      assert (E : legendre (S n) x = (x * pi_ x (S n) - pi_ x n) / (INR n + 1))
        by (apply (Rmult_eq_reg_l (INR n + 1)); [rewrite H; field; lra|lra]).
      rewrite E, pi_SS. field. lra.
Qed.

(* argument order expected by auto_derive *)
Definition piD (n : nat) (x : R) : R := pi_ x n.

(* derivative of pi: some value, characterised by tau *)
Lemma pi_derive_ex n x : exists d, is_derive (fun t => pi_ t n) x d /\
   tau_ x n = x * pi_ x n - (1 - x * x) * d.
Proof.
  revert x. induction n as [|n IH]; intros x.
  - exists 0. split; [|rewrite tau_0, pi_0; ring].
    apply is_derive_ext with (fun _ => 0); [reflexivity|]. apply @is_derive_const.
  - destruct (IH x) as [d [Hd Ht]].
    exists (pi_ x n + x * d + (INR n + 1) * pi_ x n). split.
    + apply is_derive_ext with (fun t => t * piD n t + (INR n + 1) * legendre n t);
        [intros t; unfold piD; now rewrite pi_step|].
      pose proof (leg_derive n x) as HL.
      auto_derive.
      * repeat split; eexists; eassumption.
      * replace (Derive (fun t => piD n t) x) with d by (symmetry; apply is_derive_unique; exact Hd).
        unfold piD.
        replace (Derive (fun t => legendre n t) x) with (pi_ x n) by (symmetry; apply is_derive_unique; exact HL).
        ring.
    + rewrite tau_leg in *. rewrite S_INR.
      pose proof (leg_step x n) as HS. rewrite pi_step.
      replace ((INR n + 1) * (INR n + 1 + 1) * legendre (S n) x)
        with ((INR n + 2) * ((INR n + 1) * legendre (S n) x)) by ring.
      rewrite HS.
      assert (E : (1 - x * x) * d = 2 * x * pi_ x n - INR n * (INR n + 1) * legendre n x) by lra.
      replace ((1 - x * x) * (pi_ x n + x * d + (INR n + 1) * pi_ x n)) with
        ((1 - x * x) * (INR n + 2) * pi_ x n + x * ((1 - x * x) * d)) by ring.
      rewrite E. ring.
Qed.

(* d/dtheta (sin theta pi_n(cos theta)) = tau_n(cos theta) *)
Lemma sin_pi_derive n t : is_derive (fun u => sin u * pi_ (cos u) n) t (tau_ (cos t) n).
Proof.
  destruct (pi_derive_ex n (cos t)) as [d [Hd Ht]].
  apply is_derive_ext with (fun u => sin u * piD n (cos u)); [reflexivity|].
  auto_derive.
  - repeat split. eexists; eassumption.
  - replace (Derive (fun u => piD n u) (cos t)) with d by (symmetry; apply is_derive_unique; exact Hd).
    unfold piD. rewrite Ht. pose proof (sin2_cos2 t) as H2. unfold Rsqr in H2.
    replace (1 - cos t * cos t) with (sin t * sin t) by lra. ring.
Qed.
Lemma leg_cos_derive n t : is_derive (fun u => legendre n (cos u)) t (- (sin t * pi_ (cos t) n)).
Proof.
  pose proof (leg_derive n (cos t)) as HL.
  auto_derive.
  - repeat split. eexists; eassumption.
  - replace (Derive (fun u => legendre n u) (cos t)) with (pi_ (cos t) n) by (symmetry; apply is_derive_unique; exact HL).
    ring.
Qed.

(** ** Values at +-1 and parity *)
Lemma leg_at_1 n : legendre n 1 = 1.
Proof.
  induction n as [| |n IH0 IH1] using two_step; [reflexivity|reflexivity|].
  rewrite leg_SS, IH0, IH1. posn n. field. lra.
Qed.
Lemma pi_at_1 n : pi_ 1 n = INR n * (INR n + 1) / 2.
Proof.
  induction n as [|n IH]; [rewrite pi_0; simpl; field|].
  rewrite pi_step, IH, leg_at_1, S_INR. field.
Qed.
Lemma tau_at_1 n : tau_ 1 n = INR n * (INR n + 1) / 2.
Proof. rewrite tau_leg, pi_at_1, leg_at_1. field. Qed.
Lemma pi_parity x n : pi_ (- x) n = - (-1) ^ n * pi_ x n.
Proof.
  induction n as [| |n IH0 IH1] using two_step.
  - rewrite !pi_0; simpl; ring.
  - rewrite !pi_1; simpl; ring.
  - rewrite !pi_SS, IH0, IH1. posn n. simpl pow. field. lra.
Qed.
Lemma tau_parity x n : tau_ (- x) n = (-1) ^ n * tau_ x n.
Proof.
  destruct n as [|n]; [rewrite !tau_0; ring|].
  rewrite !tau_S, !pi_parity. simpl pow. ring.
Qed.

(** ** Bounds *)
(* invariant (n P_n)^2 + (1-x^2) pi_n^2 <= n^2, by a rotation argument *)
Lemma leg_energy x n : -1 <= x <= 1 -> (legendre n x)² <= 1 /\
  (INR n * legendre n x)² + (1 - x * x) * (pi_ x n)² <= (INR n)².
Proof.
  intros Hx. assert (Hs : 0 <= 1 - x * x) by nra.
  induction n as [|n [IH1 IH2]].
  - rewrite leg_0, pi_0. unfold Rsqr; simpl. lra.
  - posn n. rewrite S_INR.
    pose proof (leg_step x n) as HS. pose proof (pi_step x n) as HP.
    set (P := legendre n x) in *. set (P' := legendre (S n) x) in *.
    set (q := pi_ x n) in *. set (q' := pi_ x (S n)) in *. set (N := INR n) in *.
    assert (E : ((N + 1) * P')² + (1 - x * x) * q'² = (N + 1)² * P² + (1 - x * x) * q²).
    { rewrite HS, HP. unfold Rsqr. ring. }
    assert (B : (N + 1)² * P² + (1 - x * x) * q² <= (N + 1)²).
    { unfold Rsqr in *. nra. }
    split; [|rewrite E; exact B].
    assert (0 <= (1 - x * x) * q'²) by (apply Rmult_le_pos; [exact Hs|apply Rle_0_sqr]).
    assert (((N + 1) * P')² <= (N + 1)²) by lra.
    match goal with H : ((N + 1) * P')² <= _ |- _ => rewrite Rsqr_mult in H end.
    assert (0 < (N + 1)²) by (apply Rlt_0_sqr; lra).
    nra.
Qed.
Lemma leg_bound x n : -1 <= x <= 1 -> Rabs (legendre n x) <= 1.
Proof.
  intros Hx. destruct (leg_energy x n Hx) as [H _].
  replace 1 with (Rabs 1) by (apply Rabs_pos_eq; lra).
  apply Rsqr_le_abs_0. replace (1²) with 1 by (unfold Rsqr; ring). exact H.
Qed.
Lemma pi_bound x n : -1 <= x <= 1 -> Rabs (pi_ x n) <= INR n * (INR n + 1) / 2.
Proof.
  intros Hx. induction n as [|n IH].
  - rewrite pi_0, Rabs_R0. simpl. lra.
  - rewrite pi_step, S_INR. posn n.
    eapply Rle_trans; [apply Rabs_triang|]. rewrite !Rabs_mult.
    pose proof (leg_bound x n Hx) as HL.
    rewrite (Rabs_pos_eq (INR n + 1)) by lra.
    assert (Rabs x <= 1) by (apply Rabs_le; lra).
    pose proof (Rabs_pos (pi_ x n)). pose proof (Rabs_pos x). nra.
Qed.

(* P_n(cos t) = sum_k a_k a_{n-k} cos((n-2k) t), a_k = (2k-1)!!/(2k)!! *)
Fixpoint ak (k : nat) : R := match k with O => 1 | S m => ak m * (2 * INR m + 1) / (2 * INR m + 2) end.
Lemma ak_pos k : 0 < ak k.
Proof.
  induction k as [|k IH]; simpl; [lra|]. posn k.
  apply Rdiv_lt_0_compat; [apply Rmult_lt_0_compat; lra|lra].
Qed.
Lemma ak_S k : ak (S k) = ak k * (2 * INR k + 1) / (2 * INR k + 2). Proof. reflexivity. Qed.
Definition bnk (n k : nat) : R := if (k <=? n)%nat then ak k * ak (n - k) else 0.
Definition shiftf (f : nat -> R) (k : nat) : R := match k with O => 0 | S j => f j end.
Lemma bnk_nonneg n k : 0 <= bnk n k.
Proof.
  unfold bnk; destruct (k <=? n)%nat; [|lra].
  apply Rmult_le_pos; apply Rlt_le, ak_pos.
Qed.
Lemma bnk_rec n k : (k <= S (S n))%nat ->
  (INR n + 2) * bnk (S (S n)) k =
  (2 * INR n + 3) / 2 * (bnk (S n) k + shiftf (bnk (S n)) k) - (INR n + 1) * shiftf (bnk n) k.
Proof.
  intros Hk. posn n. destruct k as [|j].
  - unfold bnk, shiftf. cbn [Nat.leb]. rewrite !Nat.sub_0_r. rewrite (ak_S (S n)), S_INR. simpl (ak 0). field. lra.
  - cbn [shiftf]. unfold bnk.
    destruct (Nat.eq_dec j (S n)) as [->|Hj].
    + replace (S (S n) <=? S (S n))%nat with true by (symmetry; apply Nat.leb_le; lia).
      replace (S (S n) <=? S n)%nat with false by (symmetry; apply Nat.leb_gt; lia).
      replace (S n <=? S n)%nat with true by (symmetry; apply Nat.leb_le; lia).
      replace (S n <=? n)%nat with false by (symmetry; apply Nat.leb_gt; lia).
      rewrite !Nat.sub_diag, (ak_S (S n)), S_INR. simpl (ak 0). field. lra.
    + replace (S j <=? S (S n))%nat with true by (symmetry; apply Nat.leb_le; lia).
      replace (S j <=? S n)%nat with true by (symmetry; apply Nat.leb_le; lia).
      replace (j <=? S n)%nat with true by (symmetry; apply Nat.leb_le; lia).
      replace (j <=? n)%nat with true by (symmetry; apply Nat.leb_le; lia).
      destruct (Nat.le_exists_sub j n) as [m [Hm _]]; [lia|].
      replace (S (S n) - S j)%nat with (S m) by lia.
      replace (S n - S j)%nat with m by lia.
      replace (S n - j)%nat with (S m) by lia.
      replace (n - j)%nat with m by lia.
      rewrite !ak_S. rewrite Hm, plus_INR. posn j. posn m. field. lra.
Qed.
Definition cosser (c w : nat -> R) (N : nat) (t : R) : R := sum_f_R0 (fun k => c k * cos (w k * t)) N.
Definition frq (n k : nat) : R := INR n - 2 * INR k.

Lemma sum_shift (g : nat -> R) N : sum_f_R0 (shiftf g) (S N) = sum_f_R0 g N.
Proof. induction N as [|N IH]; [simpl; ring|]. rewrite tech5, IH. reflexivity. Qed.

Lemma leg_cos t n : legendre n (cos t) = cosser (bnk n) (frq n) n t.
Proof.
  induction n as [| |n IH0 IH1] using two_step.
  - rewrite leg_0. unfold cosser, frq, bnk. simpl. replace ((0 - 2 * 0) * t) with 0 by ring. rewrite cos_0. ring.
  - rewrite leg_1. unfold cosser, frq, bnk. cbn [sum_f_R0 Nat.leb Nat.sub ak INR].
    replace ((1 - 2 * 0) * t) with t by ring. replace ((1 - 2 * 1) * t) with (- t) by ring.
    rewrite cos_neg. field.
  - posn n. rewrite leg_SS, IH0, IH1.
    apply (Rmult_eq_reg_l (INR n + 2)); [|lra].
    unfold Rdiv. rewrite (Rmult_comm _ (/ (INR n + 2))), <- Rmult_assoc, Rinv_r by lra. rewrite Rmult_1_l.
    set (e := fun k => cos (frq (S (S n)) k * t)).
    assert (EA : cos t * cosser (bnk (S n)) (frq (S n)) (S n) t =
                 sum_f_R0 (fun k => (bnk (S n) k + shiftf (bnk (S n)) k) / 2 * e k) (S (S n))).
    { transitivity (sum_f_R0 (fun k => bnk (S n) k / 2 * e k) (S (S n)) +
                    sum_f_R0 (shiftf (fun k => bnk (S n) k / 2 * e (S k))) (S (S n))).
      - rewrite sum_shift, tech5.
        replace (bnk (S n) (S (S n))) with 0
          by (unfold bnk; replace (S (S n) <=? S n)%nat with false by (symmetry; apply Nat.leb_gt; lia); reflexivity).
        unfold cosser. rewrite scal_sum.
        replace (0 / 2 * e (S (S n))) with 0 by (unfold Rdiv; ring).
        rewrite Rplus_0_r, <- sum_plus. apply sum_eq. intros k Hk. unfold e.
        replace (frq (S (S n)) k * t) with (frq (S n) k * t + t) by (unfold frq; rewrite !S_INR; ring).
        replace (frq (S (S n)) (S k) * t) with (frq (S n) k * t - t) by (unfold frq; rewrite !S_INR; ring).
        rewrite cos_plus, cos_minus. field.
      - rewrite <- sum_plus. apply sum_eq. intros k Hk.
        destruct k as [|k]; simpl shiftf; field. }
    assert (EB : cosser (bnk n) (frq n) n t = sum_f_R0 (fun k => shiftf (bnk n) k * e k) (S (S n))).
    { rewrite tech5. simpl shiftf at 2.
      replace (bnk n (S n)) with 0
          by (unfold bnk; replace (S n <=? n)%nat with false by (symmetry; apply Nat.leb_gt; lia); reflexivity).
      rewrite Rmult_0_l, Rplus_0_r.
      rewrite (sum_eq _ (shiftf (fun k => bnk n k * e (S k))))
        by (intros k Hk; destruct k; simpl shiftf; ring).
      rewrite sum_shift. unfold cosser. apply sum_eq. intros k Hk. unfold e.
      f_equal. f_equal. f_equal. unfold frq. rewrite !S_INR. ring. }
    replace ((2 * INR n + 3) * cos t * cosser (bnk (S n)) (frq (S n)) (S n) t)
      with ((2 * INR n + 3) * (cos t * cosser (bnk (S n)) (frq (S n)) (S n) t)) by ring.
    rewrite EA, EB. unfold cosser. rewrite !scal_sum, <- minus_sum. apply sum_eq. intros k Hk.
    fold (e k). pose proof (bnk_rec n k Hk) as HB.
    replace (bnk (S (S n)) k * e k * (INR n + 2)) with ((INR n + 2) * bnk (S (S n)) k * e k) by ring.
    rewrite HB. field.
Qed.

Lemma cosser_derive c w N t :
  is_derive (cosser c w N) t (- sum_f_R0 (fun k => c k * w k * sin (w k * t)) N).
Proof.
  induction N as [|N IH].
  - unfold cosser. simpl. auto_derive; [trivial|ring].
  - unfold cosser in *. cbn [sum_f_R0].
    apply is_derive_ext with (fun t => sum_f_R0 (fun k => c k * cos (w k * t)) N + c (S N) * cos (w (S N) * t)); [reflexivity|].
    replace (- (sum_f_R0 (fun k => c k * w k * sin (w k * t)) N + c (S N) * w (S N) * sin (w (S N) * t)))
      with (plus (- sum_f_R0 (fun k => c k * w k * sin (w k * t)) N) (- (c (S N) * w (S N) * sin (w (S N) * t))))
      by (unfold plus; simpl; ring).
    apply @is_derive_plus; [exact IH|]. auto_derive; [trivial|ring].
Qed.
Lemma sinser_derive c w N t :
  is_derive (fun t => sum_f_R0 (fun k => c k * w k * sin (w k * t)) N) t
            (cosser (fun k => c k * w k * w k) w N t).
Proof.
  unfold cosser. induction N as [|N IH].
  - simpl. auto_derive; [trivial|ring].
  - cbn [sum_f_R0].
    apply is_derive_ext with (fun t => sum_f_R0 (fun k => c k * w k * sin (w k * t)) N + c (S N) * w (S N) * sin (w (S N) * t)); [reflexivity|].
    apply @is_derive_plus; [exact IH|]. auto_derive; [trivial|ring].
Qed.

(* tau_n(cos t) is a cosine series with non-negative coefficients *)
Lemma tau_cos t n : tau_ (cos t) n = cosser (fun k => bnk n k * frq n k * frq n k) (frq n) n t.
Proof.
  assert (Hg : forall u, sin u * pi_ (cos u) n = sum_f_R0 (fun k => bnk n k * frq n k * sin (frq n k * u)) n).
  { intros u.
    assert (H1 := is_derive_unique _ _ _ (leg_cos_derive n u)).
    assert (H2 : is_derive (fun u => legendre n (cos u)) u
       (- sum_f_R0 (fun k => bnk n k * frq n k * sin (frq n k * u)) n)).
    { apply is_derive_ext with (cosser (bnk n) (frq n) n); [intros v; now rewrite leg_cos|]. apply cosser_derive. }
    apply is_derive_unique in H2. lra. }
  assert (H1 := is_derive_unique _ _ _ (sin_pi_derive n t)).
  assert (H2 : is_derive (fun u => sin u * pi_ (cos u) n) t
     (cosser (fun k => bnk n k * frq n k * frq n k) (frq n) n t)).
  { apply is_derive_ext with (fun u => sum_f_R0 (fun k => bnk n k * frq n k * sin (frq n k * u)) n);
      [intros v; now rewrite Hg|]. apply sinser_derive. }
  apply is_derive_unique in H2. congruence.
Qed.
Lemma cosser_bound c w N t : (forall k, 0 <= c k) -> Rabs (cosser c w N t) <= cosser c w N 0.
Proof.
  intros Hc. unfold cosser. induction N as [|N IH]; cbn [sum_f_R0].
  - rewrite Rmult_0_r, cos_0, Rabs_mult, (Rabs_pos_eq (c 0%nat)) by auto.
    apply Rmult_le_compat_l; auto. apply Rabs_le. apply COS_bound.
  - eapply Rle_trans; [apply Rabs_triang|]. apply Rplus_le_compat; [exact IH|].
    rewrite Rmult_0_r, cos_0, Rabs_mult, (Rabs_pos_eq (c (S N))) by auto.
    apply Rmult_le_compat_l; auto. apply Rabs_le. apply COS_bound.
Qed.
Lemma tau_bound x n : -1 <= x <= 1 -> Rabs (tau_ x n) <= INR n * (INR n + 1) / 2.
Proof.
  intros Hx. rewrite <- (cos_acos x) by exact Hx.
  rewrite tau_cos. eapply Rle_trans.
  - apply cosser_bound. intros k. rewrite Rmult_assoc. apply Rmult_le_pos; [apply bnk_nonneg|].
    apply Rle_0_sqr.
  - rewrite <- tau_cos, cos_0, tau_at_1. lra.
Qed.

(** ** The list returned by pi_tau *)
Lemma pi_tau_ok n_max x : (1 <= n_max)%Z -> exists lp lt, @pi_tau R ROps n_max x = Ok (lp, lt) /\
  length lp = S (Z.to_nat n_max) /\ length lt = S (Z.to_nat n_max) /\
  forall j, (j <= Z.to_nat n_max)%nat -> nth_error lp j = Some (pi_ x j) /\ nth_error lt j = Some (tau_ x j).
Proof.
  intros Hn. unfold pi_tau. replace (n_max <? 1)%Z with false by (symmetry; apply Z.ltb_ge; lia).
  eexists; eexists; split; [reflexivity|].
  rewrite !map_length, !seq_length. repeat split.
  - rewrite nth_error_map, (nth_error_nth' _ 0%nat) by (rewrite seq_length; lia).
    rewrite seq_nth by lia. reflexivity.
  - rewrite nth_error_map, (nth_error_nth' _ 0%nat) by (rewrite seq_length; lia).
    rewrite seq_nth by lia. reflexivity.
Qed.

Lemma pi_tau_spec n_max x : (1 <= n_max)%Z -> exists lp lt, @pi_tau R ROps n_max x = Ok (lp, lt) /\
  length lp = S (Z.to_nat n_max) /\ length lt = S (Z.to_nat n_max) /\
  forall j, (j <= Z.to_nat n_max)%nat -> exists p t d,
    nth_error lp j = Some p /\ nth_error lt j = Some t /\
    is_derive (legendre j) x p /\ is_derive (fun y => Derive (legendre j) y) x d /\
    t = x * p - (1 - x * x) * d.
Proof.
  intros Hn. destruct (pi_tau_ok n_max x Hn) as [lp [lt [E [L1 [L2 H]]]]].
  exists lp, lt. repeat split; auto. intros j Hj. destruct (H j Hj) as [H1 H2].
  destruct (pi_derive_ex j x) as [d [Hd Ht]].
  exists (pi_ x j), (tau_ x j), d. split; [exact H1|]. split; [exact H2|]. split; [apply leg_derive|].
  split; [|exact Ht].
  - apply is_derive_ext with (fun y => pi_ y j); [|exact Hd].
    intros y. symmetry. apply is_derive_unique, leg_derive.
Qed.
Lemma pi_tau_rejects n_max x : (n_max < 1)%Z -> @pi_tau R ROps n_max x = Err AssertionError.
Proof. intros H. unfold pi_tau. replace (n_max <? 1)%Z with true; auto. symmetry; apply Z.ltb_lt; lia. Qed.
Lemma pi_tau_sym n x :
  pi_ (- x) n = (-1) ^ (n + 1) * pi_ x n /\ tau_ (- x) n = (-1) ^ n * tau_ x n /\
  pi_ 1 n = INR n * (INR n + 1) / 2 /\ tau_ 1 n = INR n * (INR n + 1) / 2.
Proof.
  split; [rewrite pi_parity, pow_add; simpl; ring|]. split; [apply tau_parity|].
  split; [apply pi_at_1|apply tau_at_1].
Qed.
