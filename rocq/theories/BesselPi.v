(** Size parameters with sin x_L = 0: every coefficient of the pena backend vanishes. *)
From Coq Require Import Reals ZArith Lra Lia Bool List Arith.
From Coquelicot Require Import Coquelicot.
From Verif Require Import Ops ROps Spec CLemmas CTrig ModelSpecial ModelMie BesselSpec BesselTrue StackConverge StackSpec ConvergeSpec.
Import ListNotations.
Open Scope C_scope.

Lemma psi_dead n_max n_add (x : C) n : Csin x = RtoC 0 -> @ppsi R ROps n_max n_add x n = RtoC 0.
Proof.
  intros H. unfold ppsi, pPZ. induction n as [|n IH]; cbn [psi_zeta_at].
  - cbn [fst]. toCT. exact H.
  - destruct (psi_zeta_at _ _ _ _ n) as [p s]. cbn [fst] in *. rewrite IH. toC. ring.
Qed.
Theorem dead_coefficients n_max n_add (l0 : C * C) rest n : Csin (snd (last rest l0)) = RtoC 0 ->
  @pena_ab R ROps n_max n_add l0 rest n = (RtoC 0, RtoC 0).
Proof.
  intros H. unfold pena_ab, pena_final. cbv zeta. rewrite !(psi_dead n_max n_add _ _ H). toC.
  f_equal; unfold Cdiv; ring.
Qed.
Lemma sin_PI_C : Csin (RtoC PI) = RtoC 0. Proof. rewrite Csin_R, sin_PI. reflexivity. Qed.
Lemma bh_pi : bh_a (RtoC (1 / 2)) (RtoC PI) 1 <> RtoC 0.
Proof.
  pose proof PI2_1 as HP. pose proof PI_RGT_0 as H0.
  assert (Hp : RtoC PI <> 0) by (apply RtoC_neq; lra).
  assert (Hh : RtoC (PI / 2) <> 0) by (apply RtoC_neq; lra).
  assert (E : RtoC (1 / 2) * RtoC PI = RtoC (PI / 2)) by (rewrite <- RtoC_mult; f_equal; field).
  assert (P0 : true_psi 0 (RtoC PI) = RtoC 0) by (rewrite psi0_true by exact Hp; exact sin_PI_C).
  assert (P1 : true_psi 1 (RtoC PI) = RtoC 1).
  { unfold true_psi, true_j. cbn [three_term fst]. rewrite Csin_R, Ccos_R, sin_PI, cos_PI. change (-1)%R with (-(1))%R. rewrite RtoC_opp. field. exact Hp. }
  assert (Q0 : true_psi 0 (RtoC (PI / 2)) = RtoC 1) by (rewrite psi0_true by exact Hh; rewrite Csin_R, sin_PI2; reflexivity).
  assert (Q1 : true_psi 1 (RtoC (PI / 2)) = RtoC (2 / PI)).
  { unfold true_psi, true_j. cbn [three_term fst]. rewrite Csin_R, Ccos_R, sin_PI2, cos_PI2.
    transitivity (RtoC 1 / RtoC (PI / 2)); [field; exact Hh|]. rewrite <- RtoC_div by lra. f_equal. field. lra. }
  assert (DP : true_dpsi 1 (RtoC PI) = RtoC (- (1 / PI))).
  { unfold true_dpsi. cbn [Nat.sub]. rewrite P0, P1. change (INR 1) with 1%R. rewrite RtoC_opp, RtoC_div by lra. field. exact Hp. }
  assert (DQ : true_dpsi 1 (RtoC (PI / 2)) = RtoC (1 - 4 / PI ^ 2)).
  { unfold true_dpsi. cbn [Nat.sub]. rewrite Q0, Q1. change (INR 1) with 1%R.
    rewrite <- RtoC_div by lra. rewrite <- RtoC_mult, <- RtoC_minus. f_equal. field. lra. }
  unfold bh_a. rewrite E, P1, Q1, DP, DQ.
  set (N := _ - _). set (D := _ - _ * RtoC _).
  assert (HN : N <> 0).
  { unfold N. rewrite <- !RtoC_mult, <- RtoC_minus. apply RtoC_neq.
    replace (1 / 2 * (2 / PI) * - (1 / PI) - 1 * (1 - 4 / PI ^ 2))%R with (3 / PI ^ 2 - 1)%R by (field; lra).
    assert (3 / PI ^ 2 < 1)%R; [|lra]. apply (Rmult_lt_reg_r (PI ^ 2)); [nra|]. unfold Rdiv. rewrite Rmult_assoc, Rinv_l by nra. nra. }
  assert (HD : D <> 0).
  { (* imaginary part of the denominator *)
    assert (Z0 : true_zeta 0 (RtoC PI) = Ci) by (rewrite zeta0_true by exact Hp; rewrite Csin_R, Ccos_R, sin_PI, cos_PI; change (-1)%R with (-(1))%R; rewrite RtoC_opp; ring).
    assert (Z1 : true_zeta 1 (RtoC PI) = RtoC 1 + Ci * RtoC (1 / PI)).
    { unfold true_zeta, true_j, true_y. cbn [three_term fst]. rewrite Csin_R, Ccos_R, sin_PI, cos_PI. change (-1)%R with (-(1))%R. rewrite RtoC_opp, RtoC_div by lra. field. exact Hp. }
    unfold D, true_dzeta. cbn [Nat.sub]. rewrite Z0, Z1. change (INR 1) with 1%R.
    intros F. apply (f_equal fst) in F. revert F. rewrite <- RtoC_div by lra. cbn. intros F. apply HN. unfold N. rewrite <- !RtoC_mult, <- RtoC_minus. apply (f_equal RtoC).
    transitivity ((1 / 2 * (2 / PI) * - (1 / PI)) - (1 - 4 / PI ^ 2))%R; [ring|]. rewrite <- F. field. lra. }
  intros F. apply HN. apply (f_equal (fun q => q * D)) in F. rewrite Cmult_0_l in F. rewrite <- F. field. exact HD.
Qed.
