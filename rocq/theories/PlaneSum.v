(** The three scalar sums of the plane-wave expansion. *)
From Coq Require Import Reals ZArith Lra Lia Bool List Arith.
From Coquelicot Require Import Coquelicot.
From Verif Require Import Ops ROps Spec CLemmas CTrig ComplexDiff ModelSpecial AngularProofs BesselProofs BesselSpec BesselTrue ConvergeSpec BesselMinimal BesselLimits PlaneExp.
Import ListNotations.
Open Scope C_scope.

Fixpoint sum0 (f : nat -> C) (N : nat) : C := match N with O => RtoC 0 | S k => sum0 f k + f k end.
Lemma sum0_tel (f T : nat -> C) N : T 0%nat = RtoC 0 -> (forall k, f k = T (S k) - T k) -> sum0 f N = T N.
Proof. intros H0 H. induction N as [|N IH]; [now rewrite H0|]. cbn [sum0]. rewrite IH, H. ring. Qed.
Lemma sum0_plus (f g : nat -> C) N : sum0 (fun k => f k + g k) N = sum0 f N + sum0 g N.
Proof. induction N as [|N IH]; cbn [sum0]; [ring|]. rewrite IH. ring. Qed.
Lemma sum0_scal c (f : nat -> C) N : sum0 (fun k => c * f k) N = c * sum0 f N.
Proof. induction N as [|N IH]; cbn [sum0]; [ring|]. rewrite IH. ring. Qed.
Lemma sum0_ext (f g : nat -> C) N : (forall k, f k = g k) -> sum0 f N = sum0 g N.
Proof. intros H. induction N as [|N IH]; cbn [sum0]; [reflexivity|]. now rewrite IH, H. Qed.

Section Mu.
  Variable mu : R.
  Notation p n := (RtoC (pi_ mu n)).
  Notation t n := (RtoC (tau_ mu n)).
  Notation q n := (Cpow_n Ci n).
  Notation J := true_j.
  Notation c k := (RtoC (INR k)).
  Lemma q_S k : q (S k) = Ci * q k. Proof. reflexivity. Qed.
  Lemma Ci2 (x : C) : Ci * (Ci * x) = - x.
  Proof. replace (Ci * (Ci * x)) with (Ci * Ci * x) by ring. replace (Ci * Ci) with (- RtoC 1) by (apply C_eq; cbn; ring). ring. Qed.
  Lemma c1_nz k : c k + 1 <> RtoC 0.
  Proof. rewrite <- RtoC_plus. apply RtoC_neq. pose proof (pos_INR k). lra. Qed.
  Lemma c2_nz k : c k + 1 + 1 <> RtoC 0.
  Proof. rewrite <- !RtoC_plus. apply RtoC_neq. pose proof (pos_INR k). lra. Qed.
  Lemma c_S k : c (S k) = c k + 1. Proof. now rewrite S_INR, RtoC_plus. Qed.
  Lemma p_SS k : p (S (S k)) = ((c k + c k + 1 + 1 + 1) * RtoC mu * p (S k) - (c k + 1 + 1) * p k) / (c k + 1).
  Proof.
    rewrite pi_SS, RtoC_div by (pose proof (pos_INR k); lra). rewrite !RtoC_minus, !RtoC_mult, !RtoC_plus, !RtoC_mult. replace 3%R with (1 + 1 + 1)%R by ring. replace 2%R with (1 + 1)%R by ring.
    rewrite !RtoC_plus. f_equal. ring.
  Qed.
  Lemma t_S k : t (S k) = (c k + 1) * RtoC mu * p (S k) - (c k + 1 + 1) * p k.
  Proof. rewrite tau_S, RtoC_minus, !RtoC_mult, S_INR. replace 2%R with (1 + 1)%R by ring. rewrite !RtoC_plus. ring. Qed.
  Lemma J_SS k (w : C) : J (S (S k)) w = (c k + c k + 1 + 1 + 1) / w * J (S k) w - J k w.
  Proof. rewrite true_j_rec. replace (INR (2 * k + 3)) with (INR k + INR k + 1 + 1 + 1)%R by (rewrite plus_INR, mult_INR; simpl; ring). now rewrite !RtoC_plus. Qed.
  Definition gk (w : C) (k : nat) : C := q k * (c k + c k + 1 + 1 + 1) * p (S k) * (J (S k) w / w).
  Definition Gs (N : nat) (w : C) : C := sum0 (gk w) N.
  Lemma gk_alt (w : C) k : w <> 0 -> gk w k = q k * p (S k) * (J k w + J (S (S k)) w).
  Proof. intros Hw. unfold gk. rewrite J_SS. field. exact Hw. Qed.
  (* derivative *)
  Definition gk' (w : C) (k : nat) : C := q k * (c k + c k + 1 + 1 + 1) * p (S k) * ((J k w - (c k + 1 + 1) / w * J (S k) w) / w - J (S k) w / (w * w)).
  Lemma gk_derive k (w : C) : w <> 0 -> Cderive (fun w => gk w k) w (gk' w k).
  Proof.
    intros Hw. unfold gk, gk'. apply (Cderive_scal _ (fun w => J (S k) w / w)). apply d_over_z; [exact Hw|].
    eapply Cderive_val; [|apply Cderive_true_j; exact Hw]. replace (INR (k + 2)) with (INR k + 1 + 1)%R by (rewrite plus_INR; simpl; ring). now rewrite !RtoC_plus.
  Qed.
  Lemma Gs_derive N (w : C) : w <> 0 -> Cderive (Gs N) w (sum0 (gk' w) N).
  Proof. intros Hw. unfold Gs. induction N as [|N IH]; cbn [sum0]; [apply Cderive_const|]. apply Cderive_plus; [exact IH|now apply gk_derive]. Qed.
  Definition Ab (w : C) (n : nat) : C := - (q n * c n * p (S n) * (J n w / w)) + Ci * q n * p n * (c n + 1 + 1) * (J (S n) w / w).
  Lemma telG (w : C) k : w <> 0 -> gk' w k - Ci * RtoC mu * gk w k = Ab w (S k) - Ab w k.
  Proof.
    intros Hw. unfold gk', gk, Ab. rewrite (q_S k), Ci2.
    rewrite p_SS, J_SS, c_S. pose proof (c1_nz k). field. auto.
  Qed.
  Lemma Ab_0 (w : C) : Ab w 0 = RtoC 0.
  Proof. unfold Ab. rewrite pi_0. simpl INR. ring. Qed.
  Lemma Gs_ode N (w : C) : w <> 0 -> sum0 (gk' w) N = Ci * RtoC mu * Gs N w + Ab w N.
  Proof.
    intros Hw. unfold Gs. rewrite <- sum0_scal, <- (sum0_tel (fun k => gk' w k - Ci * RtoC mu * gk w k) (Ab w) N (Ab_0 w) (fun k => telG w k Hw)).
    rewrite <- sum0_plus. apply sum0_ext. intros k. ring.
  Qed.
  (** theta and phi sums *)
  Definition Dk (w : C) (k : nat) : C := J k w - (c k + 1) / w * J (S k) w.
  Definition xp (w : C) (k : nat) : C := q k * ((c k + c k + 1 + 1 + 1) / ((c k + 1) * (c k + 1 + 1))) * (Ci * t (S k) * J (S k) w + p (S k) * Dk w k).
  Definition xt (w : C) (k : nat) : C := q k * ((c k + c k + 1 + 1 + 1) / ((c k + 1) * (c k + 1 + 1))) * (Ci * p (S k) * J (S k) w + t (S k) * Dk w k).
  Definition TP (w : C) (n : nat) : C := q n * p (S n) * J n w * (c n / (c n + 1)) + Ci * q n * p n * J (S n) w * ((c n + 1 + 1) / (c n + 1)).
  Definition uu (w : C) (n : nat) : C := q n * p n * J n w.
  Definition TT (w : C) (n : nat) : C := c n / (c n + 1) * (uu w (S n) - uu w n) + (uu w n + uu w n).
  Lemma telP (w : C) k : w <> 0 -> xp w k - gk w k = TP w (S k) - TP w k.
  Proof.
    intros Hw. unfold xp, TP. rewrite (gk_alt _ _ Hw), (q_S k), Ci2.
    unfold Dk. rewrite t_S, p_SS, J_SS, c_S. pose proof (c1_nz k). pose proof (c2_nz k). field. auto.
  Qed.
  Lemma telT (w : C) k : w <> 0 -> xt w k - RtoC mu * gk w k = TT w (S k) - TT w k.
  Proof.
    intros Hw. unfold xt, TT, uu. rewrite (gk_alt _ _ Hw), (q_S (S k)), (q_S k). rewrite Ci2.
    unfold Dk. rewrite t_S, p_SS, J_SS, c_S. pose proof (c1_nz k). pose proof (c2_nz k). field. auto.
  Qed.
  Lemma TP_0 (w : C) : TP w 0 = RtoC 0. Proof. unfold TP. rewrite pi_0. simpl INR. unfold Cdiv. ring. Qed.
  Lemma TT_0 (w : C) : TT w 0 = RtoC 0. Proof. unfold TT, uu. rewrite pi_0. simpl INR. unfold Cdiv. ring. Qed.
  Lemma xp_sum N (w : C) : w <> 0 -> sum0 (xp w) N = Gs N w + TP w N.
  Proof.
    intros Hw. unfold Gs. rewrite <- (sum0_tel (fun k => xp w k - gk w k) (TP w) N (TP_0 w) (fun k => telP w k Hw)), <- sum0_plus.
    apply sum0_ext. intros k. ring.
  Qed.
  Lemma xt_sum N (w : C) : w <> 0 -> sum0 (xt w) N = RtoC mu * Gs N w + TT w N.
  Proof.
    intros Hw. unfold Gs. rewrite <- sum0_scal, <- (sum0_tel (fun k => xt w k - RtoC mu * gk w k) (TT w) N (TT_0 w) (fun k => telT w k Hw)), <- sum0_plus.
    apply sum0_ext. intros k. ring.
  Qed.
End Mu.
