(** Lossless particles (C19): real radial data give |a|^2 = Re a. *)
From Coq Require Import Reals ZArith Lra Lia Bool List Arith.
From Coquelicot Require Import Coquelicot.
From Verif Require Import Ops ROps Spec StackSpec CLemmas CTrig ModelSpecial ModelMie TorchSpec TorchProofs
  ExampleStack BesselProofs FarFieldProofs.
Import ListNotations.
Open Scope C_scope.

(* all interior radial values and indices real; exterior xi = psi + i (real) *)
Record real_radial (r : @radial R) : Prop := {
  rr_m1 : realc (m1 r); rr_m2 : realc (m2 r);
  rr_py : realc (psi_y r); rr_dpy : realc (dpsi_y r);
  rr_xy : fst (xi_y r) = fst (psi_y r); rr_dxy : fst (dxi_y r) = fst (dpsi_y r);
  rr_p1 : realc (psi_m1x r); rr_dp1 : realc (dpsi_m1x r);
  rr_p2 : realc (psi_m2x r); rr_dp2 : realc (dpsi_m2x r); rr_c2 : realc (chi_m2x r); rr_dc2 : realc (dchi_m2x r);
  rr_q2 : realc (psi_m2y r); rr_dq2 : realc (dpsi_m2y r); rr_k2 : realc (chi_m2y r); rr_dk2 : realc (dchi_m2y r) }.

Lemma quot_lossless (N D : C) : D <> RtoC 0 -> realc N -> fst D = fst N ->
  (Cmod (N / D)%C ^ 2 = fst (N / D)%C)%R.
Proof.
  intros HD HN HR. rewrite (realc_eq N HN). destruct D as [d e]. cbn [fst] in HR. subst d.
  set (x := fst N) in *.
  assert (Hne : (x ^ 2 + e ^ 2 <> 0)%R).
  { intros H. apply HD. assert (x = 0)%R by nra. assert (e = 0)%R by nra. now subst e; rewrite H0. }
  rewrite Cmod_div by exact HD. rewrite Cmod_R. unfold Cmod. cbn [fst snd].
  unfold Rdiv. rewrite Rpow_mult_distr, pow_inv, pow2_sqrt, pow2_abs by nra.
  unfold Cdiv, Cinv, Cmult, RtoC. cbn [fst snd]. field. exact Hne.
Qed.

Section Lossless.
  Variable r : @radial R.
  Hypothesis Hr : real_radial r.
  Ltac rc := repeat first [apply realc_minus | apply realc_plus | apply realc_mult | apply rr_m1 | apply rr_m2 | apply rr_py | apply rr_dpy
    | apply rr_p1 | apply rr_dp1 | apply rr_p2 | apply rr_dp2 | apply rr_c2 | apply rr_dc2 | apply rr_q2 | apply rr_dq2
    | apply rr_k2 | apply rr_dk2 | exact Hr].
  Lemma realc_X : realc (Xa r) /\ realc (Ya r) /\ realc (Xb r) /\ realc (Yb r).
  Proof. unfold Xa, Ya, Xb, Yb. repeat split; rc. Qed.
  Lemma re_prod (a b : C) : realc a -> fst (b * a) = (fst b * fst a)%R.
  Proof. unfold realc. intros H. cbn. rewrite H. ring. Qed.
  Lemma re_prod' (a b : C) : realc a -> fst (a * b) = (fst a * fst b)%R.
  Proof. unfold realc. intros H. cbn. rewrite H. ring. Qed.
  Lemma lossless_a : det_a r <> RtoC 0 -> (Cmod (an (@miecoef_core R ROps r)) ^ 2 = fst (an (@miecoef_core R ROps r)))%R.
  Proof.
    intros HD. rewrite an_closed by exact HD. destruct realc_X as (HX & HY & _ & _).
    assert (HP : realc (psi_m2y r * Xa r - chi_m2y r * Ya r)) by (rc; assumption).
    assert (HQ : realc (dpsi_m2y r * Xa r - dchi_m2y r * Ya r)) by (rc; assumption).
    apply quot_lossless; [exact HD| |].
    - rc; assumption.
    - unfold det_a. set (P := psi_m2y r * Xa r - _) in *. set (Q := dpsi_m2y r * Xa r - _) in *.
      change (fst (m2 r * dxi_y r * P)%C - fst (xi_y r * Q)%C = fst (m2 r * dpsi_y r * P)%C - fst (psi_y r * Q)%C)%R.
      rewrite !(re_prod P), !(re_prod Q), !(re_prod' (m2 r)) by (assumption || apply rr_m2, Hr).
      now rewrite (rr_xy r Hr), (rr_dxy r Hr).
  Qed.
  Lemma lossless_b : det_b r <> RtoC 0 -> (Cmod (bn (@miecoef_core R ROps r)) ^ 2 = fst (bn (@miecoef_core R ROps r)))%R.
  Proof.
    intros HD. rewrite bn_closed by exact HD. destruct realc_X as (_ & _ & HX & HY).
    assert (HP : realc (psi_m2y r * Xb r - chi_m2y r * Yb r)) by (rc; assumption).
    assert (HQ : realc (dpsi_m2y r * Xb r - dchi_m2y r * Yb r)) by (rc; assumption).
    apply quot_lossless; [exact HD| |].
    - rc; assumption.
    - unfold det_b. set (P := psi_m2y r * Xb r - _) in *. set (Q := dpsi_m2y r * Xb r - _) in *.
      change (fst (dxi_y r * P)%C - fst (m2 r * xi_y r * Q)%C = fst (dpsi_y r * P)%C - fst (m2 r * psi_y r * Q)%C)%R.
      rewrite !(re_prod P), !(re_prod Q), !(re_prod' (m2 r)) by (assumption || apply rr_m2, Hr).
      now rewrite (rr_xy r Hr), (rr_dxy r Hr).
  Qed.

  (** with real data the determinants vanish only if a Wronskian does *)
  Lemma real_pair_zero (u v w z P Q : C) : u * P - v * Q = 0 -> w * P - z * Q = 0 -> u * z - v * w <> RtoC 0 -> P = 0 /\ Q = 0.
  Proof.
    intros E1 E2 H. split; apply (Cmult_eq_reg_l (u * z - v * w)); try exact H; rewrite Cmult_0_r.
    - transitivity (z * (u * P - v * Q) - v * (w * P - z * Q)); [ring|]. rewrite E1, E2. ring.
    - transitivity (w * (u * P - v * Q) - u * (w * P - z * Q)); [ring|]. rewrite E1, E2. ring.
  Qed.
  Lemma split_re (a b P Q : C) : realc P -> realc Q -> a * P - b * Q = 0 ->
    RtoC (fst a) * P - RtoC (fst b) * Q = 0 /\ RtoC (snd a) * P - RtoC (snd b) * Q = 0.
  Proof.
    intros HP HQ E. rewrite (realc_eq P HP), (realc_eq Q HQ) in *. destruct a, b. unfold Cmult, Cminus, Cplus, Copp, RtoC in *.
    cbn [fst snd] in *. injection E. intros E1 E2. split; f_equal; try ring; lra.
  Qed.
  Hypothesis Hm1 : m1 r <> RtoC 0.
  Hypothesis Hm2 : m2 r <> RtoC 0.
  Hypothesis Wy : RtoC (fst (xi_y r)) * RtoC (snd (dxi_y r)) - RtoC (fst (dxi_y r)) * RtoC (snd (xi_y r)) <> RtoC 0.
  Hypothesis W2y : psi_m2y r * dchi_m2y r - dpsi_m2y r * chi_m2y r <> RtoC 0.
  Hypothesis W2x : psi_m2x r * dchi_m2x r - dpsi_m2x r * chi_m2x r <> RtoC 0.
  Hypothesis W1x : psi_m1x r <> RtoC 0 \/ dpsi_m1x r <> RtoC 0.
  Lemma core_nz (u v : C) : u <> RtoC 0 -> v <> RtoC 0 ->
    u * dchi_m2x r * psi_m1x r - v * chi_m2x r * dpsi_m1x r = 0 ->
    u * dpsi_m2x r * psi_m1x r - v * psi_m2x r * dpsi_m1x r = 0 -> False.
  Proof.
    intros Hu Hv E1 E2.
    destruct (real_pair_zero (dchi_m2x r) (chi_m2x r) (dpsi_m2x r) (psi_m2x r) (u * psi_m1x r) (v * dpsi_m1x r)) as [H1 H2].
    - rewrite <- E1. ring.
    - rewrite <- E2. ring.
    - intros H. apply W2x. rewrite <- H. ring.
    - destruct W1x as [W|W]; apply W.
      + destruct (C_integral _ _ H1); [contradiction|assumption].
      + destruct (C_integral _ _ H2); [contradiction|assumption].
  Qed.
  Lemma det_a_nz : det_a r <> RtoC 0.
  Proof.
    intros E. destruct realc_X as (HX & HY & _ & _).
    assert (HP : realc (m2 r * (psi_m2y r * Xa r - chi_m2y r * Ya r))) by (rc; assumption).
    assert (HQ : realc (dpsi_m2y r * Xa r - dchi_m2y r * Ya r)) by (rc; assumption).
    destruct (split_re (dxi_y r) (xi_y r) _ _ HP HQ) as [E1 E2]; [rewrite <- E; unfold det_a; ring|].
    destruct (real_pair_zero _ _ _ _ _ _ E1 E2) as [P0 Q0].
    { intros H. apply Wy. replace (RtoC 0) with (- RtoC 0) by ring. rewrite <- H. ring. }
    destruct (C_integral _ _ P0) as [P1|P1]; [contradiction|].
    destruct (real_pair_zero _ _ _ _ _ _ P1 Q0) as [X0 Y0].
    { intros H. apply W2y. rewrite <- H. ring. }
    exact (core_nz _ _ Hm1 Hm2 X0 Y0).
  Qed.
  Lemma det_b_nz : det_b r <> RtoC 0.
  Proof.
    intros E. destruct realc_X as (_ & _ & HX & HY).
    assert (HP : realc (psi_m2y r * Xb r - chi_m2y r * Yb r)) by (rc; assumption).
    assert (HQ : realc (m2 r * (dpsi_m2y r * Xb r - dchi_m2y r * Yb r))) by (rc; assumption).
    destruct (split_re (dxi_y r) (xi_y r) _ _ HP HQ) as [E1 E2]; [rewrite <- E; unfold det_b; ring|].
    destruct (real_pair_zero _ _ _ _ _ _ E1 E2) as [P1 Q0].
    { intros H. apply Wy. replace (RtoC 0) with (- RtoC 0) by ring. rewrite <- H. ring. }
    destruct (C_integral _ _ Q0) as [Q1|Q1]; [contradiction|].
    destruct (real_pair_zero _ _ _ _ _ _ P1 Q1) as [X0 Y0].
    { intros H. apply W2y. rewrite <- H. ring. }
    exact (core_nz _ _ Hm2 Hm1 X0 Y0).
  Qed.
End Lossless.

(** ** the backend's radial functions at real arguments *)
Definition real_bessel (f : C -> nat -> C) : Prop := forall (z : R) n, realc (f (RtoC z) n).

Lemma realc_replace e z : realc z -> realc (@replace_small R ROps e z).
Proof. intros H. unfold replace_small. destruct (rltb _ _); [apply realc_R|exact H]. Qed.
Lemma realc_sin z : realc z -> realc (Csin z).
Proof. intros H. rewrite (realc_eq z H), Csin_R. apply realc_R. Qed.
Lemma realc_cos z : realc z -> realc (Ccos z).
Proof. intros H. rewrite (realc_eq z H), Ccos_R. apply realc_R. Qed.
Lemma realc_opp z : realc z -> realc (- z).
Proof. unfold realc. intros H. cbn. rewrite H. ring. Qed.
Lemma realc_jrec z N k : realc z -> realc (fst (@jrec R ROps z N k)) /\ realc (snd (@jrec R ROps z N k)).
Proof.
  intros Hz. induction k as [|k [IH1 IH2]]; [split; apply realc_R|].
  cbn [jrec]. destruct (jrec z N k) as [a b]. toC. cbn [fst snd] in *. split; [|exact IH1].
  apply realc_minus; [|exact IH2]. apply realc_mult; [|exact IH1]. apply realc_div; [apply realc_R|exact Hz].
Qed.
Lemma real_jn n_max depth : real_bessel (fun z => @sph_jn_via_rec R ROps n_max (depth z) z).
Proof.
  intros z n. unfold sph_jn_via_rec. toCT. set (zr := replace_small _ _).
  assert (Hz : realc zr) by apply realc_replace, realc_R.
  unfold jrec_at. apply realc_mult; [apply realc_jrec, Hz|].
  apply realc_div; [|apply realc_jrec, Hz]. apply realc_div; [apply realc_sin, Hz|exact Hz].
Qed.
Lemma real_yn : real_bessel (@sph_yn R ROps).
Proof.
  intros z n. unfold sph_yn. set (zr := replace_small _ _).
  assert (Hz : realc zr) by apply realc_replace, realc_R.
  assert (H : realc (fst (yn_pair zr n)) /\ realc (snd (yn_pair zr n))); [|apply H].
  induction n as [|n [IH1 IH2]].
  - cbn [yn_pair fst snd]. unfold csqr. toCT. split.
    + apply realc_opp, realc_div; [apply realc_cos, Hz|exact Hz].
    + apply realc_opp, realc_plus; apply realc_div; try exact Hz;
        [apply realc_cos, Hz|apply realc_mult; exact Hz|apply realc_sin, Hz].
  - rewrite yn_pair_S. cbn [fst snd]. split; [exact IH2|].
    apply realc_minus; [|exact IH1]. apply realc_mult; [|exact IH2]. apply realc_div; [apply realc_R|exact Hz].
Qed.

Lemma realc_fder (z : C) f n : realc z -> (forall k, realc (f k)) -> realc (@f_der_at R ROps z f n).
Proof.
  intros Hz Hf. destruct n; cbn [f_der_at]; toC; [apply realc_opp, Hf|].
  apply realc_minus; [apply Hf|]. apply realc_mult; [|apply Hf]. apply realc_div; [apply realc_R|exact Hz].
Qed.
Lemma re_plus_i (a b : C) : realc b -> fst (a + Ci * b) = fst a.
Proof. unfold realc. intros H. cbn. rewrite H. ring. Qed.

Lemma radial_real fj fy (x y mc ms : R) n : real_bessel fj -> real_bessel fy ->
  real_radial (@radial_of R ROps fj fy (RtoC x) (RtoC y) (RtoC mc) (RtoC ms) n).
Proof.
  intros Hj Hy.
  assert (Hj' : forall z, realc z -> forall k, realc (fj z k)) by (intros z Hz k; rewrite (realc_eq z Hz); apply Hj).
  assert (Hy' : forall z, realc z -> forall k, realc (fy z k)) by (intros z Hz k; rewrite (realc_eq z Hz); apply Hy).
  split; cbn [radial_of m1 m2 psi_y dpsi_y xi_y dxi_y psi_m1x dpsi_m1x psi_m2x dpsi_m2x
                  chi_m2x dchi_m2x psi_m2y dpsi_m2y chi_m2y dchi_m2y]; unfold h1_of; toC;
  try solve [repeat first [apply realc_R | apply realc_minus | apply realc_plus | apply realc_opp | apply realc_mult
     | apply realc_fder; [|intros ?] | apply Hj' | apply Hy']].
  - rewrite !re_prod' by apply realc_R. rewrite re_plus_i; [reflexivity|apply Hy'; apply realc_R].
  - change (fst (fj (RtoC y) n + Ci * fy (RtoC y) n)%C
        + fst (RtoC y * (f_der_at (RtoC y) (fj (RtoC y)) n + Ci * f_der_at (RtoC y) (fy (RtoC y)) n))%C
      = fst (fj (RtoC y) n) + fst (RtoC y * f_der_at (RtoC y) (fj (RtoC y)) n)%C)%R.
    rewrite !re_prod' by apply realc_R. rewrite !re_plus_i; [reflexivity| |].
    + apply realc_fder; [apply realc_R|intros; apply Hy', realc_R].
    + apply Hy', realc_R.
Qed.

(** ** C19 *)
Theorem lossless_miecoef fj fy (x y mc ms : R) n : real_bessel fj -> real_bessel fy ->
  let r := @radial_of R ROps fj fy (RtoC x) (RtoC y) (RtoC mc) (RtoC ms) n in
  let c := @miecoef R ROps fj fy (RtoC x) (RtoC y) (RtoC mc) (RtoC ms) n in
  (det_a r <> RtoC 0 -> (Cmod (an c) ^ 2 = fst (an c))%R) /\ (det_b r <> RtoC 0 -> (Cmod (bn c) ^ 2 = fst (bn c))%R).
Proof.
  intros Hj Hy. cbv zeta. pose proof (radial_real fj fy x y mc ms n Hj Hy) as Hr.
  split; intros HD; [exact (lossless_a _ Hr HD)|exact (lossless_b _ Hr HD)].
Qed.

(** ** The determinants do not vanish for real arguments in (0, 1] *)
Section Small.
  Variable (z : R).
  Hypothesis Hz : (1 / 1000 <= z <= 1)%R.
  Lemma z_e10 : (e10 <= Cmod (RtoC z))%R.
  Proof.
    rewrite Cmod_Rp by lra. apply Rle_trans with (1 / 1000)%R; [|lra].
    unfold rtenth. cbn [rdiv rone rofZ ROps]. apply Rmult_le_compat_l; [lra|]. apply Rinv_le_contravar; [lra|].
    apply IZR_le. now apply Z.leb_le.
  Qed.
  (* f_k = - g_k with g_N = 0, g_(N-1) = 1e-25 and g at least doubling downwards *)
  Lemma jrec_grow N k : (S k <= N)%nat -> exists g h : R, @jrec R ROps (RtoC z) N (S k) = (RtoC (- g), RtoC (- h)) /\
    (0 < g)%R /\ (0 <= 2 * h <= g)%R.
  Proof.
    induction k as [|k IH]; intros Hk.
    - exists (@rtenth R ROps 25), 0%R. split; [|split; [apply rtenth_pos|pose proof (rtenth_pos 25); lra]].
      cbn [jrec]. toC. f_equal; [|f_equal; ring]. rewrite RtoC_opp. cring.
    - destruct (IH ltac:(lia)) as (g & h & E & Hg & Hh).
      exists (INR (2 * (N - S k) + 1) / z * g - h)%R, g.
      assert (H3 : (3 <= INR (2 * (N - S k) + 1) / z)%R).
      { assert (3 <= INR (2 * (N - S k) + 1))%R.
        { replace 3%R with (INR 3) by (simpl; ring). apply le_INR. lia. }
        apply (Rmult_le_reg_r z); [lra|]. unfold Rdiv. rewrite Rmult_assoc, Rinv_l by lra. nra. }
      split; [|split; nra].
      remember (S k) as k1. cbn [jrec]. rewrite E. toC. f_equal.
      rewrite <- RtoC_div by lra. rewrite <- RtoC_mult, <- RtoC_minus. f_equal. ring.
  Qed.
  Lemma jn_small_facts n_max n_add : (2 <= n_max + n_add)%nat ->
    exists j0 j1 : R, @sph_jn_via_rec R ROps n_max n_add (RtoC z) 0 = RtoC j0 /\
      @sph_jn_via_rec R ROps n_max n_add (RtoC z) 1 = RtoC j1 /\ (0 < j0)%R /\ (0 <= 2 * j1 <= j0)%R /\ j0 = (sin z / z)%R.
  Proof.
    intros HN. set (N := (n_max + n_add)%nat) in *.
    destruct (jrec_grow N (N - 1) ltac:(lia)) as (g & h & E & Hg & Hh).
    assert (E0 : @jrec_at R ROps (RtoC z) N 0 = RtoC (- g)).
    { unfold jrec_at. replace (N - 0)%nat with (S (N - 1)) by lia. now rewrite E. }
    assert (E1 : @jrec_at R ROps (RtoC z) N 1 = RtoC (- h)).
    { unfold jrec_at. replace (N - 1)%nat with (S (N - 2)) by lia. replace (S (N - 2)) with (N - 1)%nat by lia.
      rewrite <- (jrec_snd (RtoC z) N (N - 1)) by lia. now rewrite E. }
    assert (Hs : (0 < sin z)%R) by (apply sin_gt_0; pose proof PI_RGT_0; pose proof PI2_1; unfold PI2 in *; lra).
    exists (sin z / z)%R, (h / g * (sin z / z))%R.
    assert (Hq : (0 < sin z / z)%R) by (apply Rdiv_lt_0_compat; lra).
    assert (Hhg : (0 <= 2 * (h / g) <= 1)%R).
    { split; [apply Rmult_le_pos; [lra|]; apply Rmult_le_pos; [lra|]; left; now apply Rinv_0_lt_compat|].
      apply (Rmult_le_reg_r g); [exact Hg|]. unfold Rdiv. rewrite Rmult_assoc, Rmult_assoc, Rinv_l by lra. lra. }
    rewrite !sph_jn_def by exact z_e10. fold N. rewrite E0, E1, Csin_R.
    rewrite <- RtoC_div by lra. rewrite <- RtoC_div by lra. rewrite <- !RtoC_mult.
    split; [f_equal; field; lra|]. split; [f_equal; field; lra|]. split; [exact Hq|]. split; [nra|reflexivity].
  Qed.
  (* order-1 Wronskian *)
  Lemma W1_nz n_max n_add : (2 <= n_max + n_add)%nat ->
    @sph_jn_via_rec R ROps n_max n_add (RtoC z) 1 * @sph_yn R ROps (RtoC z) 0
    - @sph_jn_via_rec R ROps n_max n_add (RtoC z) 0 * @sph_yn R ROps (RtoC z) 1 <> RtoC 0.
  Proof.
    intros HN. destruct (jn_small_facts n_max n_add HN) as (j0 & j1 & E0 & E1 & Hj0 & Hj1 & _).
    rewrite E0, E1, sph_yn_0, sph_yn_1 by exact z_e10. rewrite Csin_R, Ccos_R.
    rewrite <- RtoC_mult. rewrite <- !RtoC_div by nra. rewrite <- !RtoC_opp, <- RtoC_minus, <- !RtoC_mult, <- RtoC_minus.
    apply RtoC_neq.
    assert (Hs : (0 < sin z)%R) by (apply sin_gt_0; pose proof PI_RGT_0; pose proof PI2_1; unfold PI2 in *; lra).
    assert (Hc : (0 < cos z)%R) by (apply cos_gt_0; pose proof PI2_1; unfold PI2 in *; lra).
    assert (Hi : (1 <= / z)%R) by (rewrite <- Rinv_1; apply Rinv_le_contravar; lra).
    assert (H1 : (0 < cos z / z)%R) by (apply Rdiv_lt_0_compat; lra).
    assert (H2 : (cos z / z <= cos z / (z * z))%R).
    { unfold Rdiv. rewrite Rinv_mult. apply Rmult_le_compat_l; [lra|]. nra. }
    assert (H3 : (0 < sin z / z)%R) by (apply Rdiv_lt_0_compat; lra).
    nra.
  Qed.
  Lemma Wn_nz n_max n_add n : (2 <= n_max + n_add)%nat -> (1 <= n <= n_max + n_add)%nat ->
    let fj := @sph_jn_via_rec R ROps n_max n_add (RtoC z) in let fy := @sph_yn R ROps (RtoC z) in
    fj n * fy (n - 1)%nat - fj (n - 1)%nat * fy n <> RtoC 0.
  Proof.
    intros HN Hn. cbv zeta.
    rewrite (casoratian (RtoC z) _ _ (n_max + n_add)
      (fun k Hk => sph_jn_recurrence n_max n_add (RtoC z) k z_e10 Hk)
      (fun k Hk => sph_yn_recurrence (RtoC z) k z_e10 (proj1 Hk)) n Hn).
    now apply W1_nz.
  Qed.
End Small.

Lemma Csqr_nz (z : C) : z <> RtoC 0 -> z * z <> RtoC 0.
Proof. intros H E. destruct (C_integral _ _ E); contradiction. Qed.

Theorem small_nonsingular n_max depth (x y mc ms : R) n :
  (1 <= n <= n_max)%nat -> (forall z, (1 <= depth z)%nat) ->
  (1 / 1000 <= y <= 1)%R -> (1 / 1000 <= mc * x <= 1)%R -> (1 / 1000 <= ms * x <= 1)%R -> (1 / 1000 <= ms * y <= 1)%R ->
  let r := @radial_of R ROps (fun z => sph_jn_via_rec n_max (depth z) z) (@sph_yn R ROps) (RtoC x) (RtoC y) (RtoC mc) (RtoC ms) n in
  det_a r <> RtoC 0 /\ det_b r <> RtoC 0.
Proof.
  intros Hn Hd Hy H1x H2x H2y. cbv zeta.
  set (r := radial_of _ _ _ _ _ _ _).
  pose proof (radial_real _ _ x y mc ms n (real_jn n_max depth) real_yn) as Hr. fold r in Hr.
  assert (Hmc : (mc <> 0)%R) by (intros ->; lra). assert (Hms : (ms <> 0)%R) by (intros ->; lra).
  assert (key : forall t, (1 / 1000 <= t <= 1)%R ->
     let fj := @sph_jn_via_rec R ROps n_max (depth (RtoC t)) (RtoC t) in let fy := @sph_yn R ROps (RtoC t) in
     (RtoC t * fj n) * (fy n + RtoC t * f_der_at (RtoC t) fy n) - (fj n + RtoC t * f_der_at (RtoC t) fj n) * (RtoC t * fy n) <> RtoC 0).
  { intros t Ht. cbv zeta. assert (Ht0 : RtoC t <> RtoC 0) by (apply RtoC_neq; lra).
    rewrite wronskian_der by (lia || exact Ht0). pose proof (Hd (RtoC t)).
    intros E. destruct (C_integral _ _ E) as [E1|E1]; [exact (Csqr_nz _ Ht0 E1)|].
    revert E1. apply Wn_nz; [exact Ht|lia|lia]. }
  assert (Wy : RtoC (fst (xi_y r)) * RtoC (snd (dxi_y r)) - RtoC (fst (dxi_y r)) * RtoC (snd (xi_y r)) <> RtoC 0).
  { rewrite (rr_xy r Hr), (rr_dxy r Hr). rewrite <- (realc_eq _ (rr_py r Hr)), <- (realc_eq _ (rr_dpy r Hr)).
    pose proof (key y Hy) as K. cbv zeta in K.
    assert (E1 : RtoC (snd (xi_y r)) = RtoC y * @sph_yn R ROps (RtoC y) n).
    { pose proof (real_jn n_max depth y n) as Rj. pose proof (real_yn y n) as Ry.
      rewrite (realc_eq _ Ry), <- RtoC_mult. f_equal. cbn [xi_y r radial_of]. unfold h1_of. toC.
      rewrite (realc_eq _ Ry), (realc_eq _ Rj). cbn. ring. }
    assert (E2 : RtoC (snd (dxi_y r)) = @sph_yn R ROps (RtoC y) n + RtoC y * @f_der_at R ROps (RtoC y) (@sph_yn R ROps (RtoC y)) n).
    { pose proof (real_jn n_max depth y n) as Rj. pose proof (real_yn y n) as Ry.
      pose proof (realc_fder (RtoC y) _ n (realc_R y) (fun k => real_jn n_max depth y k)) as Dj.
      pose proof (realc_fder (RtoC y) _ n (realc_R y) (fun k => real_yn y k)) as Dy.
      cbn [dxi_y r radial_of]. unfold h1_of. toC.
      rewrite (realc_eq _ Ry), (realc_eq _ Rj), (realc_eq _ Dy), (realc_eq _ Dj).
      rewrite <- RtoC_mult, <- RtoC_plus. f_equal. cbn. ring. }
    rewrite E1, E2. exact K. }
  assert (W2y : psi_m2y r * dchi_m2y r - dpsi_m2y r * chi_m2y r <> RtoC 0).
  { pose proof (key (ms * y)%R H2y) as K. cbv zeta in K. rewrite RtoC_mult in K. intros E. apply K.
    replace (RtoC 0) with (- RtoC 0) by ring. rewrite <- E. cbn [psi_m2y dchi_m2y dpsi_m2y chi_m2y r radial_of]. cring. }
  assert (W2x : psi_m2x r * dchi_m2x r - dpsi_m2x r * chi_m2x r <> RtoC 0).
  { pose proof (key (ms * x)%R H2x) as K. cbv zeta in K. rewrite RtoC_mult in K. intros E. apply K.
    replace (RtoC 0) with (- RtoC 0) by ring. rewrite <- E. cbn [psi_m2x dchi_m2x dpsi_m2x chi_m2x r radial_of]. cring. }
  assert (W1x : psi_m1x r <> RtoC 0 \/ dpsi_m1x r <> RtoC 0).
  { pose proof (key (mc * x)%R H1x) as K. cbv zeta in K. rewrite RtoC_mult in K.
    destruct (Ceq_dec (psi_m1x r) 0) as [E|E]; [|now left]. right. intros E2. apply K.
    change (psi_m1x r * (@sph_yn R ROps (RtoC mc * RtoC x) n + RtoC mc * RtoC x * f_der_at (RtoC mc * RtoC x) (sph_yn (RtoC mc * RtoC x)) n)
       - dpsi_m1x r * (RtoC mc * RtoC x * @sph_yn R ROps (RtoC mc * RtoC x) n) = 0).
    rewrite E, E2. cring. }
  assert (Hm1 : m1 r <> RtoC 0) by (cbn; now apply RtoC_neq).
  assert (Hm2 : m2 r <> RtoC 0) by (cbn; now apply RtoC_neq).
  split; [now apply det_a_nz|now apply det_b_nz].
Qed.

Lemma sum1_zero f n : (forall j, (1 <= j <= n)%nat -> f j = 0%R) -> sum1 f n = 0%R.
Proof.
  intros H. induction n as [|n IH]; [reflexivity|]. cbn [sum1]. rewrite H, IH by (intros; try apply H; lia). ring.
Qed.
Lemma lossless_cs n_max (k : C) (a b : nat -> C) :
  (forall n, (1 <= n <= n_max)%nat -> (Cmod (a n) ^ 2 = fst (a n))%R /\ (Cmod (b n) ^ 2 = fst (b n))%R) ->
  (forall t n, (1 <= n <= n_max)%nat -> @cs_abs_multipole R ROps k a b t n = 0%R) /\
  @cs_abs R ROps n_max k a b = 0%R /\ @cs_ext R ROps n_max k a b = @cs_sca R ROps n_max k a b.
Proof.
  intros H.
  assert (E : forall t n, (1 <= n <= n_max)%nat -> @cs_abs_multipole R ROps k a b t n = 0%R).
  { intros t n Hn. destruct (H n Hn) as [Ha Hb].
    unfold cs_abs_multipole, cs_abs_mp, cs_ext_mp, cs_sca_mp, coef, cre, rsqr. cbn [rmul rone ROps].
    replace (@cabs R ROps (if t then b n else a n) * (@cabs R ROps (if t then b n else a n) * 1))%R with (fst (if t then b n else a n)).
    - toC. match goal with |- fst (Cminus ?u ?v) = _ => change (fst (Cminus u u) = 0%R); generalize u end. intros [u v]. cbn. ring.
    - toC. destruct t; [rewrite <- Hb|rewrite <- Ha]; ring. }
  assert (Z : @cs_abs R ROps n_max k a b = 0%R).
  { rewrite cs_abs_sum, !sum1_zero; [ring| |]; intros; apply E; lia. }
  split; [exact E|]. split; [exact Z|]. rewrite cs_balance, Z. ring.
Qed.

Theorem lossless_torch n_max (depth : C -> nat) (k : C) (x y mc ms : R) :
  let fj := fun z => @sph_jn_via_rec R ROps n_max (depth z) z in
  let r := @radial_of R ROps fj (@sph_yn R ROps) (RtoC x) (RtoC y) (RtoC mc) (RtoC ms) in
  let c := @miecoef_torch R ROps n_max depth (RtoC x) (RtoC y) (RtoC mc) (RtoC ms) in
  (forall n, (1 <= n <= n_max)%nat -> det_a (r n) <> RtoC 0 /\ det_b (r n) <> RtoC 0) ->
  let a n := an (c n) in let b n := bn (c n) in
  (forall n, (1 <= n <= n_max)%nat -> (Cmod (a n) ^ 2 = fst (a n))%R /\ (Cmod (b n) ^ 2 = fst (b n))%R) /\
  (forall t n, (1 <= n <= n_max)%nat -> @cs_abs_multipole R ROps k a b t n = 0%R) /\
  @cs_abs R ROps n_max k a b = 0%R /\ @cs_ext R ROps n_max k a b = @cs_sca R ROps n_max k a b.
Proof.
  intros fj r c HD a b.
  assert (H : forall n, (1 <= n <= n_max)%nat -> (Cmod (a n) ^ 2 = fst (a n))%R /\ (Cmod (b n) ^ 2 = fst (b n))%R).
  { intros n Hn. destruct (HD n Hn) as [Ha Hb].
    destruct (lossless_miecoef fj (@sph_yn R ROps) x y mc ms n (real_jn n_max depth) real_yn) as [H1 H2].
    split; [exact (H1 Ha)|exact (H2 Hb)]. }
  split; [exact H|]. exact (lossless_cs n_max k a b H).
Qed.
Lemma jrec_half_nz : @jrec_at R ROps (RtoC (1/2)) (3 + 10) 0 <> RtoC 0.
Proof.
  destruct (jrec_grow (1/2) ltac:(lra) 13 12 ltac:(lia)) as (g & h & E & Hg & _).
  change (fst (@jrec R ROps (RtoC (1/2)) 13 13) <> RtoC 0). rewrite E. cbn [fst]. apply RtoC_neq. lra.
Qed.
