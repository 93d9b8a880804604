(** [_miecoef]: the sympy-generated quotients solve the Bohren-Huffman system,
    uniquely (C20-C22). *)
From Coq Require Import Reals ZArith Lra Lia Bool List Arith.
From Coquelicot Require Import Coquelicot.
From Verif Require Import Ops ROps Spec StackSpec CLemmas CTrig ModelSpecial ModelMie TorchSpec.
Import ListNotations.
Open Scope C_scope.

Ltac unr := unfold det_a, det_b, Xa, Xb, Ya, Yb in *.

Ltac toR := rewrite ?cadd_C, ?csub_C, ?cmul_C, ?cdiv_C, ?copp_C, ?cone_C.
Ltac flds := cbn [an bn cn dn fn gn vn wn m1 m2 psi_y dpsi_y xi_y dxi_y psi_m1x dpsi_m1x psi_m2x dpsi_m2x
                  chi_m2x dchi_m2x psi_m2y dpsi_m2y chi_m2y dchi_m2y] in *.
Ltac eqC := match goal with |- @eq _ ?a ?b => change (@eq C a b) end.
Ltac fin r :=
  destruct r; unr; unfold miecoef_core; cbv zeta; flds; unfold csqr; toR;
  match goal with |- context [Cdiv (RtoC 1) ?d] => match goal with |- _ -> _ = Cdiv _ ?D =>
    replace d with D by ring; generalize D end end;
  intros D H; unfold Cdiv; eqC; ring.

(** closed forms of the eight coefficients *)
Section Closed.
  Variable r : @radial R.
  Let Wy := dpsi_y r * xi_y r - dxi_y r * psi_y r.
  Let Wx := chi_m2x r * dpsi_m2x r - dchi_m2x r * psi_m2x r.

  Lemma an_closed : det_a r <> 0 -> an (@miecoef_core R ROps r) =
    (m2 r * dpsi_y r * (psi_m2y r * Xa r - chi_m2y r * Ya r) - psi_y r * (dpsi_m2y r * Xa r - dchi_m2y r * Ya r)) / det_a r.
  Proof. subst Wx Wy. fin r. Qed.
  Lemma bn_closed : det_b r <> 0 -> bn (@miecoef_core R ROps r) =
    (dpsi_y r * (psi_m2y r * Xb r - chi_m2y r * Yb r) - m2 r * psi_y r * (dpsi_m2y r * Xb r - dchi_m2y r * Yb r)) / det_b r.
  Proof. subst Wx Wy. fin r. Qed.
  Lemma gn_closed : det_a r <> 0 -> gn (@miecoef_core R ROps r) = - (m2 r * Xa r * Wy) / det_a r.
  Proof. subst Wx Wy. fin r. Qed.
  Lemma wn_closed : det_a r <> 0 -> wn (@miecoef_core R ROps r) = - (m2 r * Ya r * Wy) / det_a r.
  Proof. subst Wx Wy. fin r. Qed.
  Lemma dn_closed : det_a r <> 0 -> dn (@miecoef_core R ROps r) = m1 r * m2 r * Wx * Wy / det_a r.
  Proof. subst Wx Wy. fin r. Qed.
  Lemma fn_closed : det_b r <> 0 -> fn (@miecoef_core R ROps r) = - (m2 r * Xb r * Wy) / det_b r.
  Proof. subst Wx Wy. fin r. Qed.
  Lemma vn_closed : det_b r <> 0 -> vn (@miecoef_core R ROps r) = - (m2 r * Yb r * Wy) / det_b r.
  Proof. subst Wx Wy. fin r. Qed.
  Lemma cn_closed : det_b r <> 0 -> cn (@miecoef_core R ROps r) = m1 r * m2 r * Wx * Wy / det_b r.
  Proof. subst Wx Wy. fin r. Qed.
End Closed.

Ltac closed := rewrite ?an_closed, ?bn_closed, ?gn_closed, ?wn_closed, ?dn_closed, ?fn_closed, ?vn_closed, ?cn_closed by assumption.

Theorem tm_solves r : det_a r <> 0 ->
  let c := @miecoef_core R ROps r in tm_system r (an c) (gn c) (wn c) (dn c).
Proof.
  intros H. cbv zeta. unfold tm_system. closed.
  set (D := det_a r) in *.
  assert (ED : D = det_a r) by reflexivity. clearbody D.
  split; [|split; [|split]]; apply (Cmult_eq_reg_l D); try exact H; rewrite Cmult_0_r.
  - transitivity ((- (m2 r * Xa r * (dpsi_y r * xi_y r - dxi_y r * psi_y r))) * psi_m2x r
       + (m2 r * Ya r * (dpsi_y r * xi_y r - dxi_y r * psi_y r)) * chi_m2x r
       - m1 r * m2 r * (chi_m2x r * dpsi_m2x r - dchi_m2x r * psi_m2x r) * (dpsi_y r * xi_y r - dxi_y r * psi_y r) * psi_m1x r).
    + cfield. exact H.
    + unfold Xa, Ya. cring.
  - transitivity ((- (m2 r * Ya r * (dpsi_y r * xi_y r - dxi_y r * psi_y r))) * m1 r * dchi_m2x r
       + (m2 r * Xa r * (dpsi_y r * xi_y r - dxi_y r * psi_y r)) * m1 r * dpsi_m2x r
       + m1 r * m2 r * (chi_m2x r * dpsi_m2x r - dchi_m2x r * psi_m2x r) * (dpsi_y r * xi_y r - dxi_y r * psi_y r) * m2 r * dpsi_m1x r).
    + cfield. exact H.
    + unfold Xa, Ya. cring.
  - transitivity (psi_y r * D - (m2 r * dpsi_y r * (psi_m2y r * Xa r - chi_m2y r * Ya r) - psi_y r * (dpsi_m2y r * Xa r - dchi_m2y r * Ya r)) * xi_y r
       + (m2 r * Xa r * (dpsi_y r * xi_y r - dxi_y r * psi_y r)) * psi_m2y r
       - (m2 r * Ya r * (dpsi_y r * xi_y r - dxi_y r * psi_y r)) * chi_m2y r).
    + cfield. exact H.
    + rewrite ED. unfold det_a. cring.
  - transitivity (m2 r * dpsi_y r * D - (m2 r * dpsi_y r * (psi_m2y r * Xa r - chi_m2y r * Ya r) - psi_y r * (dpsi_m2y r * Xa r - dchi_m2y r * Ya r)) * m2 r * dxi_y r
       + (m2 r * Xa r * (dpsi_y r * xi_y r - dxi_y r * psi_y r)) * dpsi_m2y r
       - (m2 r * Ya r * (dpsi_y r * xi_y r - dxi_y r * psi_y r)) * dchi_m2y r).
    + cfield. exact H.
    + rewrite ED. unfold det_a. cring.
Qed.
Theorem te_solves r : det_b r <> 0 ->
  let c := @miecoef_core R ROps r in te_system r (bn c) (fn c) (vn c) (cn c).
Proof.
  intros H. cbv zeta. unfold te_system. closed.
  set (D := det_b r) in *.
  assert (ED : D = det_b r) by reflexivity. clearbody D.
  split; [|split; [|split]]; apply (Cmult_eq_reg_l D); try exact H; rewrite Cmult_0_r.
  - transitivity ((- (m2 r * Xb r * (dpsi_y r * xi_y r - dxi_y r * psi_y r))) * m1 r * psi_m2x r
       + (m2 r * Yb r * (dpsi_y r * xi_y r - dxi_y r * psi_y r)) * m1 r * chi_m2x r
       - m1 r * m2 r * (chi_m2x r * dpsi_m2x r - dchi_m2x r * psi_m2x r) * (dpsi_y r * xi_y r - dxi_y r * psi_y r) * m2 r * psi_m1x r).
    + cfield. exact H.
    + unfold Xb, Yb. cring.
  - transitivity ((- (m2 r * Yb r * (dpsi_y r * xi_y r - dxi_y r * psi_y r))) * dchi_m2x r
       + (m2 r * Xb r * (dpsi_y r * xi_y r - dxi_y r * psi_y r)) * dpsi_m2x r
       + m1 r * m2 r * (chi_m2x r * dpsi_m2x r - dchi_m2x r * psi_m2x r) * (dpsi_y r * xi_y r - dxi_y r * psi_y r) * dpsi_m1x r).
    + cfield. exact H.
    + unfold Xb, Yb. cring.
  - transitivity (m2 r * (dpsi_y r * (psi_m2y r * Xb r - chi_m2y r * Yb r) - m2 r * psi_y r * (dpsi_m2y r * Xb r - dchi_m2y r * Yb r)) * xi_y r
       - m2 r * psi_y r * D
       - (m2 r * Xb r * (dpsi_y r * xi_y r - dxi_y r * psi_y r)) * psi_m2y r
       + (m2 r * Yb r * (dpsi_y r * xi_y r - dxi_y r * psi_y r)) * chi_m2y r).
    + cfield. exact H.
    + rewrite ED. unfold det_b. cring.
  - transitivity ((dpsi_y r * (psi_m2y r * Xb r - chi_m2y r * Yb r) - m2 r * psi_y r * (dpsi_m2y r * Xb r - dchi_m2y r * Yb r)) * dxi_y r
       - dpsi_y r * D
       - (m2 r * Xb r * (dpsi_y r * xi_y r - dxi_y r * psi_y r)) * dpsi_m2y r
       + (m2 r * Yb r * (dpsi_y r * xi_y r - dxi_y r * psi_y r)) * dchi_m2y r).
    + cfield. exact H.
    + rewrite ED. unfold det_b. cring.
Qed.

(** ** Uniqueness *)
Lemma eq_over (x D N : C) : D <> 0 -> x * D = N -> x = N / D.
Proof. intros HD <-. field. exact HD. Qed.

Section Unique.
  (* abstract values *)
  Variables (m1 m2 py dpy xy dxy p1 dp1 p2 dp2 c2 dc2 q2 dq2 k2 dk2 : C).
  (* X, Y: core transfer; P, P': outer combination *)
  Section TM.
    Variables a g w d : C.
    Hypothesis E1 : g * p2 - w * c2 - d * p1 = 0.
    Hypothesis E2 : w * m1 * dc2 - g * m1 * dp2 + d * m2 * dp1 = 0.
    Hypothesis E3 : py - a * xy - g * q2 + w * k2 = 0.
    Hypothesis E4 : m2 * dpy - a * m2 * dxy - g * dq2 + w * dk2 = 0.
    Let X := m1 * dc2 * p1 - m2 * c2 * dp1.
    Let Y := m1 * dp2 * p1 - m2 * p2 * dp1.
    Let D := m2 * dxy * (q2 * X - k2 * Y) - xy * (dq2 * X - dk2 * Y).
    Let W := dpy * xy - dxy * py.
    Lemma core_tm : w * X = g * Y.
    Proof.
      apply Csub_eq0. unfold X, Y.
      transitivity (p1 * (w * m1 * dc2 - g * m1 * dp2 + d * m2 * dp1) + m2 * dp1 * (g * p2 - w * c2 - d * p1)); [ring|].
      rewrite E1, E2. ring.
    Qed.
    Lemma g_tm : g * D = - (m2 * X * W).
    Proof.
      apply Csub_eq0. unfold D, W.
      transitivity (m2 * dxy * k2 * (w * X - g * Y) - xy * dk2 * (w * X - g * Y)
        - m2 * dxy * X * (py - a * xy - g * q2 + w * k2) + xy * X * (m2 * dpy - a * m2 * dxy - g * dq2 + w * dk2)); [ring|].
      rewrite E3, E4, core_tm. ring.
    Qed.
    Lemma w_tm : w * D = - (m2 * Y * W).
    Proof.
      apply Csub_eq0. unfold D, W.
      transitivity (m2 * dxy * q2 * (w * X - g * Y) - xy * dq2 * (w * X - g * Y)
        - m2 * dxy * Y * (py - a * xy - g * q2 + w * k2) + xy * Y * (m2 * dpy - a * m2 * dxy - g * dq2 + w * dk2)); [ring|].
      rewrite E3, E4, core_tm. ring.
    Qed.
    (* a: multiply by X or Y, one of which is non-zero *)
    Lemma a_tm_X : X * (a * D) = X * (m2 * dpy * (q2 * X - k2 * Y) - py * (dq2 * X - dk2 * Y)).
    Proof.
      apply Csub_eq0. unfold D.
      transitivity (- (m2 * dpy - a * m2 * dxy - g * dq2 + w * dk2) * X * (q2 * X - k2 * Y)
                    + (py - a * xy - g * q2 + w * k2) * X * (dq2 * X - dk2 * Y)
                    + (q2 * X - k2 * Y) * dk2 * (w * X - g * Y) - (dq2 * X - dk2 * Y) * k2 * (w * X - g * Y)); [ring|].
      rewrite E3, E4, core_tm. ring.
    Qed.
    Lemma a_tm_Y : Y * (a * D) = Y * (m2 * dpy * (q2 * X - k2 * Y) - py * (dq2 * X - dk2 * Y)).
    Proof.
      apply Csub_eq0. unfold D.
      transitivity (- (m2 * dpy - a * m2 * dxy - g * dq2 + w * dk2) * Y * (q2 * X - k2 * Y)
                    + (py - a * xy - g * q2 + w * k2) * Y * (dq2 * X - dk2 * Y)
                    + (q2 * X - k2 * Y) * dq2 * (w * X - g * Y) - (dq2 * X - dk2 * Y) * q2 * (w * X - g * Y)); [ring|].
      rewrite E3, E4, core_tm. ring.
    Qed.
    Hypothesis HD : D <> 0.
    Lemma XY_neq : X <> 0 \/ Y <> 0.
    Proof.
      destruct (Ceq_dec X 0) as [HX|HX]; [|now left]. right. intros HY. apply HD. unfold D. rewrite HX, HY. ring.
    Qed.
    Lemma a_tm : a * D = m2 * dpy * (q2 * X - k2 * Y) - py * (dq2 * X - dk2 * Y).
    Proof.
      destruct XY_neq as [HX|HY].
      - exact (Cmult_eq_reg_l X _ _ HX a_tm_X).
      - exact (Cmult_eq_reg_l Y _ _ HY a_tm_Y).
    Qed.
    Lemma p_neq : p1 <> 0 \/ m2 * dp1 <> 0.
    Proof.
      destruct (Ceq_dec p1 0) as [HX|HX]; [|now left]. right. intros HY. apply HD. unfold D, X, Y. rewrite HX.
      replace (m2 * c2 * dp1) with (c2 * (m2 * dp1)) by ring. replace (m2 * p2 * dp1) with (p2 * (m2 * dp1)) by ring.
      rewrite HY. ring.
    Qed.
    Lemma d_tm : d * D = m1 * m2 * (c2 * dp2 - dc2 * p2) * W.
    Proof.
      destruct p_neq as [Hp|Hp]; apply (Cmult_eq_reg_l _ _ _ Hp).
      - apply Csub_eq0.
        transitivity (- D * (g * p2 - w * c2 - d * p1) + (g * D) * p2 - (w * D) * c2 - p1 * (m1 * m2 * (c2 * dp2 - dc2 * p2) * W)); [ring|].
        rewrite E1, g_tm, w_tm. unfold X, Y. ring.
      - apply Csub_eq0.
        transitivity (D * (w * m1 * dc2 - g * m1 * dp2 + d * m2 * dp1) - (w * D) * m1 * dc2 + (g * D) * m1 * dp2
           - m2 * dp1 * (m1 * m2 * (c2 * dp2 - dc2 * p2) * W)); [ring|].
        rewrite E2, g_tm, w_tm. unfold X, Y. ring.
    Qed.
  End TM.
  Section TE.
    Variables b f v c : C.
    Hypothesis E1 : f * m1 * p2 - v * m1 * c2 - c * m2 * p1 = 0.
    Hypothesis E2 : v * dc2 - f * dp2 + c * dp1 = 0.
    Hypothesis E3 : m2 * b * xy - m2 * py + f * q2 - v * k2 = 0.
    Hypothesis E4 : b * dxy - dpy + f * dq2 - v * dk2 = 0.
    Let X := m2 * dc2 * p1 - m1 * c2 * dp1.
    Let Y := m2 * dp2 * p1 - m1 * p2 * dp1.
    Let D := dxy * (q2 * X - k2 * Y) - m2 * xy * (dq2 * X - dk2 * Y).
    Let W := dpy * xy - dxy * py.
    Lemma core_te : v * X = f * Y.
    Proof.
      apply Csub_eq0. unfold X, Y.
      transitivity (m2 * p1 * (v * dc2 - f * dp2 + c * dp1) + dp1 * (f * m1 * p2 - v * m1 * c2 - c * m2 * p1)); [ring|].
      rewrite E1, E2. ring.
    Qed.
    Lemma f_te : f * D = - (m2 * X * W).
    Proof.
      apply Csub_eq0. unfold D, W.
      transitivity (dxy * k2 * (v * X - f * Y) - m2 * xy * dk2 * (v * X - f * Y)
        + dxy * X * (m2 * b * xy - m2 * py + f * q2 - v * k2) - m2 * xy * X * (b * dxy - dpy + f * dq2 - v * dk2)); [ring|].
      rewrite E3, E4, core_te. ring.
    Qed.
    Lemma v_te : v * D = - (m2 * Y * W).
    Proof.
      apply Csub_eq0. unfold D, W.
      transitivity (dxy * q2 * (v * X - f * Y) - m2 * xy * dq2 * (v * X - f * Y)
        + dxy * Y * (m2 * b * xy - m2 * py + f * q2 - v * k2) - m2 * xy * Y * (b * dxy - dpy + f * dq2 - v * dk2)); [ring|].
      rewrite E3, E4, core_te. ring.
    Qed.
    Lemma b_te_X : X * (b * D) = X * (dpy * (q2 * X - k2 * Y) - m2 * py * (dq2 * X - dk2 * Y)).
    Proof.
      apply Csub_eq0. unfold D.
      transitivity ((b * dxy - dpy + f * dq2 - v * dk2) * X * (q2 * X - k2 * Y)
                    - (m2 * b * xy - m2 * py + f * q2 - v * k2) * X * (dq2 * X - dk2 * Y)
                    + (q2 * X - k2 * Y) * dk2 * (v * X - f * Y) - (dq2 * X - dk2 * Y) * k2 * (v * X - f * Y)); [ring|].
      rewrite E3, E4, core_te. ring.
    Qed.
    Lemma b_te_Y : Y * (b * D) = Y * (dpy * (q2 * X - k2 * Y) - m2 * py * (dq2 * X - dk2 * Y)).
    Proof.
      apply Csub_eq0. unfold D.
      transitivity ((b * dxy - dpy + f * dq2 - v * dk2) * Y * (q2 * X - k2 * Y)
                    - (m2 * b * xy - m2 * py + f * q2 - v * k2) * Y * (dq2 * X - dk2 * Y)
                    + (q2 * X - k2 * Y) * dq2 * (v * X - f * Y) - (dq2 * X - dk2 * Y) * q2 * (v * X - f * Y)); [ring|].
      rewrite E3, E4, core_te. ring.
    Qed.
    Hypothesis HD : D <> 0.
    Lemma XY_neq' : X <> 0 \/ Y <> 0.
    Proof.
      destruct (Ceq_dec X 0) as [HX|HX]; [|now left]. right. intros HY. apply HD. unfold D. rewrite HX, HY. ring.
    Qed.
    Lemma b_te : b * D = dpy * (q2 * X - k2 * Y) - m2 * py * (dq2 * X - dk2 * Y).
    Proof.
      destruct XY_neq' as [HX|HY].
      - exact (Cmult_eq_reg_l X _ _ HX b_te_X).
      - exact (Cmult_eq_reg_l Y _ _ HY b_te_Y).
    Qed.
    Lemma p_neq' : m2 * p1 <> 0 \/ dp1 <> 0.
    Proof.
      destruct (Ceq_dec (m2 * p1) 0) as [HX|HX]; [|now left]. right. intros HY. apply HD. unfold D, X, Y. rewrite HY.
      replace (m2 * dc2 * p1) with (dc2 * (m2 * p1)) by ring. replace (m2 * dp2 * p1) with (dp2 * (m2 * p1)) by ring.
      rewrite HX. ring.
    Qed.
    Lemma c_te : c * D = m1 * m2 * (c2 * dp2 - dc2 * p2) * W.
    Proof.
      destruct p_neq' as [Hp|Hp]; apply (Cmult_eq_reg_l _ _ _ Hp).
      - apply Csub_eq0.
        transitivity (- D * (f * m1 * p2 - v * m1 * c2 - c * m2 * p1) + (f * D) * m1 * p2 - (v * D) * m1 * c2
            - m2 * p1 * (m1 * m2 * (c2 * dp2 - dc2 * p2) * W)); [ring|].
        rewrite E1, f_te, v_te. unfold X, Y. ring.
      - apply Csub_eq0.
        transitivity (D * (v * dc2 - f * dp2 + c * dp1) - (v * D) * dc2 + (f * D) * dp2
           - dp1 * (m1 * m2 * (c2 * dp2 - dc2 * p2) * W)); [ring|].
        rewrite E2, f_te, v_te. unfold X, Y. ring.
    Qed.
  End TE.
End Unique.

Theorem tm_unique r a g w d : det_a r <> 0 -> tm_system r a g w d ->
  let c := @miecoef_core R ROps r in a = an c /\ g = gn c /\ w = wn c /\ d = dn c.
Proof.
  intros H (E1 & E2 & E3 & E4). cbv zeta. closed. repeat split; apply eq_over; try exact H.
  - eapply a_tm; eassumption.
  - eapply g_tm; eassumption.
  - eapply w_tm; eassumption.
  - eapply d_tm; eassumption.
Qed.
Theorem te_unique r b f v c : det_b r <> 0 -> te_system r b f v c ->
  let k := @miecoef_core R ROps r in b = bn k /\ f = fn k /\ v = vn k /\ c = cn k.
Proof.
  intros H (E1 & E2 & E3 & E4). cbv zeta. closed. repeat split; apply eq_over; try exact H.
  - eapply b_te; eassumption.
  - eapply f_te; eassumption.
  - eapply v_te; eassumption.
  - eapply c_te; eassumption.
Qed.
