(** The Riccati-Bessel functions of a small argument c t, scaled by the powers of t that keep them finite. *)
From Coq Require Import Reals ZArith Lra Lia Bool List Arith.
From Coquelicot Require Import Coquelicot.
From Verif Require Import Ops ROps Spec CLemmas CTrig ComplexDiff BesselProofs BesselSpec BesselTrue BesselMinimal RayleighSpec RayleighBase.
Import ListNotations.
Open Scope R_scope.

Lemma cl_along (g : C -> C) (l c : C) K : c <> RtoC 0 -> 0 <= K -> (forall z, Cmod z < 1 -> Cmod (g z - l)%C <= K * (Cmod z * Cmod z)) -> close2 (fun t => g (c * RtoC t)%C) l.
Proof.
  intros Hc HK H. apply Cmod_gt_0 in Hc. exists (K * (Cmod c * Cmod c)), (Rmin 1 (/ Cmod c)). assert (0 < / Cmod c) by now apply Rinv_0_lt_compat.
  split; [apply Rmult_le_pos; nra|]. split; [split; [apply Rmin_glb_lt; lra|apply Rmin_l]|]. intros t Ht. pose proof (Rmin_l 1 (/ Cmod c)). pose proof (Rmin_r 1 (/ Cmod c)).
  assert (M : Cmod (c * RtoC t)%C = Cmod c * t) by (rewrite Cmod_mult, Cmod_R, Rabs_pos_eq by lra; reflexivity).
  assert (L : Cmod c * t < 1) by (apply Rlt_le_trans with (Cmod c * / Cmod c); [apply Rmult_lt_compat_l; lra|right; field; lra]).
  pose proof (H (c * RtoC t)%C ltac:(rewrite M; exact L)) as B. rewrite M in B. eapply Rle_trans; [exact B|]. right. ring.
Qed.
Lemma cl_tmul f : close2 f (RtoC 0) -> close2 (fun t => RtoC t * f t)%C (RtoC 0).
Proof.
  intros (K & d & HK & Hd & H). exists K, d. split; [exact HK|]. split; [exact Hd|]. intros t Ht. specialize (H t Ht). replace (RtoC t * f t - RtoC 0)%C with (RtoC t * (f t - RtoC 0))%C by ring.
  rewrite Cmod_mult, Cmod_R, Rabs_pos_eq by lra. pose proof (Cmod_ge_0 (f t - RtoC 0)%C). nra.
Qed.
Lemma cl_t2 f l : close2 f l -> close2 (fun t => RtoC t * RtoC t * f t)%C (RtoC 0).
Proof.
  intros H. pose proof (cl_mult _ _ _ _ (cl_tsq (RtoC 1)) H) as Q. eapply cl_val; [|eapply cl_ext; [|exact Q]]; [ring|intros; cbv beta; ring].
Qed.
Lemma cl_scal c f l : close2 f l -> close2 (fun t => c * f t)%C (c * l)%C.
Proof. intros H. exact (cl_mult _ _ _ _ (cl_const c) H). Qed.

Section Direction.
  Variable c : C.
  Hypothesis Hc : c <> RtoC 0.
  Notation z t := (c * RtoC t)%C.
  Notation tp t k := (Cpow_n (RtoC t) k).
  Lemma t_nz t : 0 < t -> RtoC t <> RtoC 0. Proof. intros H. apply RtoC_neq. lra. Qed.
  Lemma z_nz t : 0 < t -> z t <> RtoC 0. Proof. intros H. apply Cmult_neq_0; [exact Hc|now apply t_nz]. Qed.
  Lemma tp_nz t k : 0 < t -> tp t k <> RtoC 0. Proof. intros H. now apply cpow_nz, t_nz. Qed.
  Definition sp n t : C := (true_psi n (z t) / tp t (n + 1))%C.
  Definition sq n t : C := (true_zeta n (z t) * tp t n)%C.
  Definition sdp n t : C := (true_dpsi n (z t) / tp t n)%C.
  Definition sdq n t : C := (true_dzeta n (z t) * tp t (n + 1))%C.
  Definition lp n : C := (Cpow_n c (n + 1) / RtoC (odd_dfact n))%C.
  Definition lq n : C := (- Ci * RtoC (odd_dfact (n - 1)) / Cpow_n c n)%C.
  Lemma o_nz n : RtoC (odd_dfact n) <> RtoC 0. Proof. apply RtoC_neq. pose proof (odd_pos n). lra. Qed.

  Ltac nzs := first [exact Hc | apply cpow_nz; exact Hc | now apply t_nz | now apply tp_nz].
  Lemma sp_close n : close2 (sp n) (lp n).
  Proof.
    destruct (Ff_small n) as (K & HK & H).
    set (g := fun w => if Ceq_dec w (RtoC 0) then (/ RtoC (odd_dfact n))%C else (Ff n w / Cpow_n w (2 * n + 1))%C).
    assert (G : close2 (fun t => g (z t)) (/ RtoC (odd_dfact n))%C).
    { apply (cl_along g _ c K Hc HK). intros w Hw. unfold g. destruct (Ceq_dec w (RtoC 0)) as [E|E].
      - subst w. replace (/ RtoC (odd_dfact n) - / RtoC (odd_dfact n))%C with (RtoC 0) by ring. rewrite Cmod_0. nra.
      - specialize (H w Hw). pose proof (cpow_nz w (2 * n + 1) E) as Hp. pose proof (o_nz n) as Ho.
        replace (Ff n w / Cpow_n w (2 * n + 1) - / RtoC (odd_dfact n))%C with ((Ff n w - Cpow_n w (2 * n + 1) / RtoC (odd_dfact n)) / Cpow_n w (2 * n + 1))%C by (field; split; assumption).
        rewrite Cmod_div by exact Hp. rewrite Cpow_n_mod. apply Cmod_gt_0 in E. pose proof (pow_lt (Cmod w) (2 * n + 1) E) as Q. apply (Rmult_le_reg_r (Cmod w ^ (2 * n + 1))); [exact Q|].
        unfold Rdiv. rewrite Rmult_assoc, Rinv_l, Rmult_1_r by lra. eapply Rle_trans; [exact H|]. right. replace (2 * n + 3)%nat with (2 + (2 * n + 1))%nat by lia. rewrite pow_add. ring. }
    pose proof (cl_scal (Cpow_n c (n + 1)) _ _ G) as Q. eapply cl_ext; [|exact Q]. intros t Ht. cbv beta. unfold g. destruct (Ceq_dec (z t) (RtoC 0)) as [E|E]; [now apply z_nz in E|].
    rewrite (Ff_psi _ n E). unfold sp. replace (2 * n + 1)%nat with (n + (n + 1))%nat by lia. rewrite (cpow_add _ n (n + 1)). rewrite (cpow_mul c (RtoC t) (n + 1)).
    field. repeat split; try (apply tp_nz; lra); try (apply cpow_nz; assumption).
  Qed.
  Lemma cos_close : close2 (fun t => Ccos (z t)) (RtoC 1).
  Proof. apply (cl_along Ccos (RtoC 1) c K0 Hc); [pose proof K0_pos; lra|exact cos_small]. Qed.
  Lemma sin_close : close2 (fun t => Csin (z t) / RtoC t)%C c.
  Proof.
    pose proof (sp_close 0) as H. eapply cl_val; [|eapply cl_ext; [|exact H]]; [unfold lp; cbn; field; apply RtoC_neq; lra|intros t Ht; unfold sp, true_psi, true_j; cbn; field; repeat split; now (apply t_nz || exact Hc)].
  Qed.
  Lemma q0_small : close2 (fun t => RtoC t * RtoC t * sq 0 t)%C (RtoC 0).
  Proof.
    pose proof (cl_tmul _ (cl_t2 _ _ sin_close)) as A. pose proof (cl_t2 _ _ (cl_scal (- Ci)%C _ _ cos_close)) as B. pose proof (cl_plus _ _ _ _ A B) as Q.
    eapply cl_val; [|eapply cl_ext; [|exact Q]]; [ring|]. intros t Ht. cbv beta. unfold sq, true_zeta, true_j, true_y. cbn [three_term fst Cpow_n]. field. repeat split; nzs.
  Qed.
  Lemma q1_close : close2 (sq 1) (lq 1).
  Proof.
    pose proof (cl_tmul _ (cl_t2 _ _ (sp_close 1))) as A. pose proof (cl_t2 _ _ sin_close) as B. pose proof (cl_plus _ _ _ _ A (cl_scal (- Ci)%C _ _ (cl_plus _ _ _ _ (cl_scal (/ c)%C _ _ cos_close) B))) as Q.
    eapply cl_val; [|eapply cl_ext; [|exact Q]]; [unfold lq; cbn; field; exact Hc|]. intros t Ht. cbv beta. unfold sp, sq, true_psi, true_zeta, true_j, true_y. cbn [three_term fst Cpow_n Nat.add]. field. repeat split; nzs.
  Qed.
  Lemma sq_rec n t : 0 < t -> sq (S (S n)) t = (Cn (2 * n + 3) / c * sq (S n) t - RtoC t * RtoC t * sq n t)%C.
  Proof. intros Ht. unfold sq. rewrite true_zeta_rec. rewrite !cpow_S. field. repeat split; nzs. Qed.
  Lemma sq_both n : close2 (sq (S n)) (lq (S n)) /\ close2 (fun t => RtoC t * RtoC t * sq n t)%C (RtoC 0).
  Proof.
    induction n as [|n [IH1 IH2]]; [split; [exact q1_close|exact q0_small]|]. split; [|exact (cl_t2 _ _ IH1)].
    pose proof (cl_minus _ _ _ _ (cl_scal (Cn (2 * n + 3) / c)%C _ _ IH1) IH2) as Q. eapply cl_val; [|eapply cl_ext; [|exact Q]].
    - unfold lq. replace (S (S n) - 1)%nat with (S n) by lia. replace (S n - 1)%nat with n by lia. cbn [odd_dfact]. replace (2 * S n + 1)%nat with (2 * n + 3)%nat by lia. rewrite RtoC_mult, !cpow_S. field. repeat split; nzs.
    - intros t Ht. cbv beta. symmetry. apply sq_rec, Ht.
  Qed.
  Section Order.
    Variable n : nat.
    Hypothesis Hn : (1 <= n)%nat.
    Definition ldp : C := (Cn (n + 1) * Cpow_n c n / RtoC (odd_dfact n))%C.
    Definition ldq : C := (- Cn n / c * lq n)%C.
    Lemma sq_close : close2 (sq n) (lq n).
    Proof. destruct n as [|m]; [lia|]. apply sq_both. Qed.
    Lemma sdp_close : close2 (sdp n) ldp.
    Proof.
      pose proof (cl_minus _ _ _ _ (sp_close (n - 1)) (cl_scal (Cn n / c)%C _ _ (sp_close n))) as Q. eapply cl_val; [|eapply cl_ext; [|exact Q]].
      - unfold lp, ldp. destruct n as [|m]; [lia|]. replace (S m - 1)%nat with m by lia. cbn [odd_dfact]. replace (m + 1)%nat with (S m) by lia. replace (S m + 1)%nat with (S (S m)) by lia. rewrite (cpow_S c (S m)).
        replace (2 * S m + 1)%nat with (S (S m) + S m)%nat by lia. rewrite RtoC_mult, (plus_INR (S (S m)) (S m)), RtoC_plus. field. repeat split; try exact Hc; try apply o_nz. rewrite <- RtoC_plus. apply RtoC_neq. pose proof (pos_INR (S (S m))). rewrite (S_INR m). rewrite !S_INR in *. pose proof (pos_INR m). lra.
      - intros t Ht. cbv beta. unfold sdp, sp, true_dpsi. replace (n - 1 + 1)%nat with n by lia. replace (n + 1)%nat with (S n) by lia. rewrite (cpow_S _ n). field. repeat split; nzs.
    Qed.
    Lemma sdq_close : close2 (sdq n) ldq.
    Proof.
      assert (B : close2 (fun t => RtoC t * RtoC t * sq (n - 1) t)%C (RtoC 0)) by (destruct n as [|m]; [lia|]; replace (S m - 1)%nat with m by lia; apply sq_both).
      pose proof (cl_minus _ _ _ _ B (cl_scal (Cn n / c)%C _ _ sq_close)) as Q. eapply cl_val; [|eapply cl_ext; [|exact Q]].
      - unfold ldq. field. exact Hc.
      - intros t Ht. cbv beta. unfold sdq, sq, true_dzeta. replace (Cpow_n (RtoC t) (n + 1)) with (RtoC t * RtoC t * Cpow_n (RtoC t) (n - 1))%C by (rewrite <- (Cmult_assoc (RtoC t)), <- !cpow_S; f_equal; lia).
        replace (Cpow_n (RtoC t) n) with (RtoC t * Cpow_n (RtoC t) (n - 1))%C by (rewrite <- cpow_S; f_equal; lia). field. repeat split; nzs.
    Qed.
  End Order.
End Direction.
