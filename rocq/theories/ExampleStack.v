(** A concrete non-degenerate two-layer stack (core m = 2, x = 1/4; shell m = 3/2,
    x = 1/2) for which no safeguard fires: the hypotheses of C09-C13, C41, C42
    are satisfiable.  Also: real size parameters meet the order-1 condition. *)
From Coq Require Import Reals ZArith Lra Lia Bool List Arith.
From Coquelicot Require Import Coquelicot.
From Verif Require Import Ops ROps Spec StackSpec CLemmas CTrig ModelSpecial ModelMie PenaProofs QuietSpec StackProofs.
Import ListNotations.
Open Scope R_scope.

Definition realc (z : C) : Prop := snd z = 0.
Lemma realc_eq z : realc z -> z = RtoC (fst z).
Proof. intros H. apply C_eq; [reflexivity|exact H]. Qed.
Lemma realc_R x : realc (RtoC x). Proof. reflexivity. Qed.
Lemma realc_plus x y : realc x -> realc y -> realc (x + y)%C.
Proof. unfold realc. intros Hx Hy. cbn. rewrite Hx, Hy. ring. Qed.
Lemma realc_minus x y : realc x -> realc y -> realc (x - y)%C.
Proof. unfold realc. intros Hx Hy. cbn. rewrite Hx, Hy. ring. Qed.
Lemma realc_mult x y : realc x -> realc y -> realc (x * y)%C.
Proof. unfold realc. intros Hx Hy. cbn. rewrite Hx, Hy. ring. Qed.
Lemma realc_inv x : realc x -> realc (/ x)%C.
Proof. unfold realc. intros Hx. cbn. rewrite Hx. unfold Rdiv. ring. Qed.
Lemma realc_div x y : realc x -> realc y -> realc (x / y)%C.
Proof. intros. apply realc_mult; auto. now apply realc_inv. Qed.
Lemma realc_guard e z : realc z -> realc (@guard R ROps e z).
Proof. intros H. unfold guard. destruct (rltb _ _); auto. toC. apply realc_plus; [auto|apply realc_R]. Qed.
Lemma realc_D1 eps N z n : realc z -> realc (gD1 eps N z n).
Proof.
  intros Hz. unfold gD1, D1_at. generalize (N - n)%nat as k. induction k as [|k IH]; [reflexivity|].
  cbn [d1_iter]. unfold d1_step. toC.
  assert (realc (Cn (N - k) / @guard R ROps eps z)%C) by (apply realc_div; [apply realc_R|now apply realc_guard]).
  apply realc_minus; [assumption|]. apply realc_div; [apply realc_R|]. apply realc_guard. now apply realc_plus.
Qed.
Lemma D1_real_neq_i n_max n_add (x : R) n : @pD1 R ROps n_max n_add (RtoC x) n <> Ci.
Proof.
  intros H. pose proof (realc_D1 eps30 (n_max + n_add) (RtoC x) n (realc_R x)) as E.
  change (gD1 eps30 (n_max + n_add)) with (@pD1 R ROps n_max n_add) in E. rewrite H in E.
  unfold realc in E. simpl in E. lra.
Qed.

Lemma eps30_small : @eps30 R ROps <= 1 / 1000.
Proof.
  unfold eps30, rtenth. cbn [rdiv rone rofZ ROps]. apply Rmult_le_compat_l; [lra|].
  apply Rinv_le_contravar; [lra|]. apply IZR_le. change (10 ^ Z.of_nat 30)%Z with (10 ^ 3 * 10 ^ 27)%Z.
  pose proof (Z.pow_pos_nonneg 10 27 ltac:(lia) ltac:(lia)). change (10 ^ 3)%Z with 1000%Z. lia.
Qed.
Lemma no_guard_re (z : C) x : 1 / 1000 <= x -> x <= Cmod z -> no_guard (@eps30 R ROps) z.
Proof. unfold no_guard. pose proof eps30_small. lra. Qed.

Lemma Cmod_ge_re z : Rabs (fst z) <= Cmod z.
Proof. eapply Rle_trans; [apply Rmax_l|apply Rmax_Cmod]. Qed.
Lemma Cmod_ge_im z : Rabs (snd z) <= Cmod z.
Proof. eapply Rle_trans; [apply Rmax_r|apply Rmax_Cmod]. Qed.
Lemma Cmod_sub_ge x y : Cmod x - Cmod y <= Cmod (x - y)%C.
Proof.
  pose proof (Cmod_triangle (x - y)%C y) as H. replace (x - y + y)%C with x in H by ring. lra.
Qed.
Lemma Cmod_add_ge x y : Cmod x - Cmod y <= Cmod (x + y)%C.
Proof.
  pose proof (Cmod_triangle (x + y)%C (- y)%C) as H. replace (x + y + - y)%C with x in H by ring.
  rewrite Cmod_opp in H. lra.
Qed.
Lemma Cmod_Rp x : 0 <= x -> Cmod (RtoC x) = x.
Proof. intros. rewrite Cmod_R. now apply Rabs_pos_eq. Qed.

(** D1 on (0,1]: real, non-negative *)
Section RealArg.
  Variables (n_max n_add : nat) (z : R).
  Hypothesis Hz : 1 / 1000 <= z <= 1.
  Notation N := (n_max + n_add)%nat.
  Notation e30 := (@eps30 R ROps).
  Notation D1 := (gD1 e30 N (RtoC z)).
  Lemma zc_guard : no_guard e30 (RtoC z).
  Proof. apply (no_guard_re _ z); [lra|]. rewrite Cmod_Rp; lra. Qed.
  Lemma D1_nonneg k : (k <= N)%nat -> exists d, 0 <= d /\ D1 (N - k)%nat = RtoC d.
  Proof.
    induction k as [|k IH]; intros Hk.
    - exists 0. split; [lra|]. rewrite Nat.sub_0_r. apply gD1_top.
    - destruct (IH ltac:(lia)) as (d & Hd & E).
      assert (Hi : 0 < / z) by (apply Rinv_0_lt_compat; lra).
      assert (Hi1 : 1 <= / z) by (rewrite <- Rinv_1; apply Rinv_le_contravar; lra).
      set (j := (N - S k)%nat) in *. replace (N - k)%nat with (S j) in E by lia.
      assert (Hj : 1 <= INR (S j)) by (rewrite S_INR; pose proof (pos_INR j); lra).
      assert (Hjz : 1 <= INR (S j) / z) by (unfold Rdiv; nra).
      assert (Er : (D1 (S j) + Cn (S j) / RtoC z)%C = RtoC (d + INR (S j) / z)).
      { rewrite E, <- RtoC_div by lra. now rewrite <- RtoC_plus. }
      exists (INR (S j) / z - 1 / (d + INR (S j) / z)). split.
      + assert (1 / (d + INR (S j) / z) <= 1).
        { apply (Rmult_le_reg_r (d + INR (S j) / z)); [lra|]. unfold Rdiv at 1. rewrite Rmult_assoc, Rinv_l; lra. }
        lra.
      + rewrite (gD1_step e30 N (RtoC z) zc_guard j); [|lia|].
        * rewrite Er. rewrite RtoC_minus, !RtoC_div by lra. reflexivity.
        * apply (no_guard_re _ (d + INR (S j) / z)); [lra|]. rewrite Er, Cmod_Rp; lra.
  Qed.
  Hypothesis HN : (3 <= N)%nat.
  (* explicit bounds at order 1 *)
  Lemma D1_1_bounds : exists d1, D1 1 = RtoC d1 /\
     2 / z - 1 / (5 / z - z / 3) <= d1 <= 2 / z - z / 5.
  Proof.
    destruct (D1_nonneg (N - 3) ltac:(lia)) as (d3 & H3 & E3). replace (N - (N - 3))%nat with 3%nat in E3 by lia.
    assert (Hi1 : 1 <= / z) by (rewrite <- Rinv_1; apply Rinv_le_contravar; lra).
    assert (Hzz : z * / z = 1) by (apply Rinv_r; lra).
    assert (I2 : INR 2 = 2) by (simpl; ring). assert (I3 : INR 3 = 3) by (simpl; ring).
    assert (P3 : 3 / z <= d3 + 3 / z) by lra.
    assert (Er3 : (D1 3 + Cn 3 / RtoC z)%C = RtoC (d3 + 3 / z)).
    { rewrite E3, I3, <- RtoC_div by lra. now rewrite <- RtoC_plus. }
    assert (E2 : D1 2 = RtoC (3 / z - 1 / (d3 + 3 / z))).
    { rewrite (gD1_step e30 N (RtoC z) zc_guard 2); [|lia|].
      - rewrite Er3, I3. rewrite RtoC_minus, !RtoC_div by (unfold Rdiv in *; lra). reflexivity.
      - apply (no_guard_re _ (d3 + 3 / z)); [unfold Rdiv in *; lra|]. rewrite Er3, Cmod_Rp; unfold Rdiv in *; lra. }
    assert (B2 : 0 < 1 / (d3 + 3 / z) <= z / 3).
    { split; [apply Rdiv_lt_0_compat; unfold Rdiv in *; lra|].
      replace (z / 3) with (1 / (3 / z)) by (field; lra).
      unfold Rdiv at 1 3. apply Rmult_le_compat_l; [lra|]. apply Rinv_le_contravar; [unfold Rdiv; lra|exact P3]. }
    set (t := 1 / (d3 + 3 / z)) in *.
    assert (Er2 : (D1 2 + Cn 2 / RtoC z)%C = RtoC (5 / z - t)).
    { rewrite E2, I2, <- RtoC_div, <- RtoC_plus by lra. f_equal. unfold Rdiv. ring. }
    assert (P2 : 1 <= 5 / z - z / 3) by (unfold Rdiv; lra).
    exists (2 / z - 1 / (5 / z - t)). split.
    - rewrite (gD1_step e30 N (RtoC z) zc_guard 1); [|lia|].
      + rewrite Er2, I2. rewrite (RtoC_minus (2 / z)), (RtoC_div 2 z), (RtoC_div 1 (5 / z - t)) by lra. reflexivity.
      + apply (no_guard_re _ 1); [lra|]. rewrite Er2, Cmod_Rp; lra.
    - split.
      + apply Rplus_le_compat_l, Ropp_le_contravar. unfold Rdiv at 1 5. apply Rmult_le_compat_l; [lra|].
        apply Rinv_le_contravar; lra.
      + apply Rplus_le_compat_l, Ropp_le_contravar.
        replace (z / 5) with (1 * / (5 / z)) by (field; lra). unfold Rdiv at 2. apply Rmult_le_compat_l; [lra|].
        apply Rinv_le_contravar; lra.
  Qed.

  Lemma psi1_bounds d1 : D1 1 = RtoC d1 -> 1 <= d1 + 1 / z ->
     gpsi e30 N (RtoC z) 1 = RtoC (sin z / (d1 + 1 / z)).
  Proof.
    intros E H. pose proof (gpsi_rec e30 N (rtenth_pos 30) (RtoC z) zc_guard 0 ltac:(lia)) as P.
    assert (Er : (D1 1 + Cn 1 / RtoC z)%C = RtoC (d1 + 1 / z)).
    { rewrite E. change (INR 1) with 1. rewrite <- RtoC_div by lra. now rewrite <- RtoC_plus. }
    rewrite Er in P. rewrite gpsi_0, Csin_R in P.
    assert (RtoC (d1 + 1 / z) <> RtoC 0) by (apply RtoC_neq; lra).
    rewrite RtoC_div by lra. rewrite <- P; [field; assumption|].
    apply (no_guard_re _ 1); [lra|]. rewrite Cmod_Rp; lra.
  Qed.
  Lemma zeta1_mod : Cmod (gzeta e30 N (RtoC z) 1) = sqrt (1 + (1 / z) * (1 / z)).
  Proof.
    rewrite (gzeta_S e30 N (RtoC z) zc_guard 0), gzeta_0', gD3_0. change (INR 1) with 1.
    rewrite <- RtoC_div by lra. rewrite Cmod_mult, Cmod_opp, Cmod_mult, Cmod_i_real.
    replace (Cmod Ci) with 1.
    - unfold Cmod. rewrite !Rmult_1_l. f_equal. simpl. ring.
    - unfold Cmod. simpl. replace (0 * (0 * 1) + 1 * (1 * 1)) with 1 by ring. now rewrite sqrt_1.
  Qed.
  Lemma real_big d1 s : D1 1 = RtoC d1 -> 1 <= d1 + 1 / z <= 30 -> s <= sin z -> 3 / 100 <= s ->
    1 / 1000 <= Cmod (gpsi e30 N (RtoC z) 1 * gzeta e30 N (RtoC z) 1)%C.
  Proof.
    intros E H Hs Hs'. rewrite (psi1_bounds d1 E ltac:(lra)). replace (1 / 1000) with (1 / 1000 * 1) by ring.
    rewrite Cmod_mult, zeta1_mod. apply Rmult_le_compat; try lra.
    - rewrite Cmod_Rp.
      + apply (Rmult_le_reg_r (d1 + 1 / z)); [lra|].
        unfold Rdiv at 3. rewrite Rmult_assoc, (Rinv_l (d1 + 1 / z)) by lra. lra.
      + apply Rdiv_le_0_compat; lra.
    - rewrite <- sqrt_1 at 1. apply sqrt_le_1_alt. pose proof (Rle_0_sqr (1 / z)) as H0. unfold Rsqr in H0. lra.
  Qed.
  Lemma quiet_real d1 s : D1 1 = RtoC d1 -> 1 <= d1 + 1 / z <= 30 -> s <= sin z -> 3 / 100 <= s ->
    quiet_arg n_max n_add (RtoC z) 1.
  Proof.
    intros E H Hs Hs'. split; [apply zc_guard|]. intros j Hj. assert (j = 1%nat) as -> by lia.
    change (@pD1 R ROps n_max n_add (RtoC z) 1) with (D1 1).
    change (@ppsi R ROps n_max n_add (RtoC z) 1) with (gpsi e30 N (RtoC z) 1).
    change (@pzeta R ROps n_max n_add (RtoC z) 1) with (gzeta e30 N (RtoC z) 1). split.
    - rewrite E. change (INR 1) with 1. rewrite <- RtoC_div, <- RtoC_plus by lra.
      apply (no_guard_re _ 1); [lra|]. rewrite Cmod_Rp; lra.
    - apply (no_guard_re _ (1/1000)); [lra|]. now apply (real_big d1 s).
  Qed.
End RealArg.

Lemma sin_bounds_lem x : 0 < x <= 1 -> x - x * x * x / 6 <= sin x <= x.
Proof.
  intros H. split.
  - pose proof (sin_bound x 0 ltac:(lra) ltac:(pose proof PI2_1; lra)) as [B _].
    unfold sin_approx, sin_term in B. simpl in B. lra.
  - pose proof (SIN_bound x). apply Rlt_le, sin_lt_x. lra.
Qed.

Section TheStack.
  Let n_max := 1%nat.
  Let n_add := 15%nat.
  Definition ex_core : C * C := (RtoC 2, RtoC (1/4)).
  Definition ex_shell : C * C := (RtoC (3/2), RtoC (1/2)).
  Notation e30 := (@eps30 R ROps).
  Notation D1 := (@pD1 R ROps 1 15).
  Notation D3 := (@pD3 R ROps 1 15).
  Notation psi := (@ppsi R ROps 1 15).
  Notation zeta := (@pzeta R ROps 1 15).
  Notation Qn := (@pQ R ROps 1 15).

  Lemma facts_at z lo hi : 1 / 1000 <= z <= 1 -> lo = 2 / z - 1 / (5 / z - z / 3) -> hi = 2 / z - z / 5 ->
    1 <= lo + 1 / z -> hi + 1 / z <= 30 -> 6 / 100 <= z ->
    exists d, D1 (RtoC z) 1 = RtoC d /\ lo <= d <= hi /\ quiet_arg 1 15 (RtoC z) 1 /\
      psi (RtoC z) 1 = RtoC (sin z / (d + 1 / z)) /\ Cmod (zeta (RtoC z) 1) = sqrt (1 + 1 / z * (1 / z)).
  Proof.
    intros Hz -> -> H1 H2 H6. destruct (D1_1_bounds 1 15 z Hz ltac:(lia)) as (d & E & B).
    exists d. split; [exact E|]. split; [exact B|].
    assert (Hs : z / 2 <= sin z).
    { pose proof (sin_bounds_lem z ltac:(lra)) as [Hs _]. assert (z * z <= 1) by nra. assert (z * z * z <= z) by nra. lra. }
    split; [|split].
    - apply (quiet_real 1 15 z Hz ltac:(lia) d (z / 2) E); lra.
    - apply (psi1_bounds 1 15 z Hz ltac:(lia) d E). lra.
    - apply (zeta1_mod 1 15 z Hz).
  Qed.

  Lemma dz (x y : R) : y <> 0 -> (RtoC x / RtoC y)%C = RtoC (x / y).
  Proof. intros. now rewrite RtoC_div. Qed.

  (* core point 1/2 (also the outer size parameter), 3/8 and 3/4 *)
  Lemma at_half : exists d, D1 (RtoC (1/2)) 1 = RtoC d /\ 389/100 <= d <= 39/10 /\ quiet_arg 1 15 (RtoC (1/2)) 1 /\
     psi (RtoC (1/2)) 1 = RtoC (sin (1/2) / (d + 2)).
  Proof.
    destruct (facts_at (1/2) (4 - 1 / (10 - 1/6)) (4 - 1/10)) as (d & H1 & H2 & H3 & H4 & H5); try lra; try field.
    - exists d. split; [exact H1|]. split; [lra|]. split; [exact H3|]. rewrite H4. do 2 f_equal. lra.
  Qed.
  Lemma at_prev : exists d, D1 (RtoC (3/8)) 1 = RtoC d /\ 525/100 <= d <= 526/100 /\ quiet_arg 1 15 (RtoC (3/8)) 1 /\
     psi (RtoC (3/8)) 1 = RtoC (sin (3/8) / (d + 8/3)) /\ Cmod (zeta (RtoC (3/8)) 1) = sqrt (73/9).
  Proof.
    destruct (facts_at (3/8) (16/3 - 1 / (40/3 - 1/8)) (16/3 - 3/40)) as (d & H1 & H2 & H3 & H4 & H5); try lra; try field.
    - exists d. split; [exact H1|]. split; [lra|]. split; [exact H3|]. split; [rewrite H4; do 2 f_equal; lra|].
      rewrite H5. f_equal. lra.
  Qed.
  Lemma at_curr : exists d, D1 (RtoC (3/4)) 1 = RtoC d /\ 25/10 <= d <= 252/100 /\ quiet_arg 1 15 (RtoC (3/4)) 1 /\
     psi (RtoC (3/4)) 1 = RtoC (sin (3/4) / (d + 4/3)) /\ Cmod (zeta (RtoC (3/4)) 1) = 5/3.
  Proof.
    destruct (facts_at (3/4) (8/3 - 1 / (20/3 - 1/4)) (8/3 - 3/20)) as (d & H1 & H2 & H3 & H4 & H5); try lra; try field.
    - exists d. split; [exact H1|]. split; [lra|]. split; [exact H3|]. split; [rewrite H4; do 2 f_equal; lra|].
      rewrite H5. replace (1 + 1 / (3 / 4) * (1 / (3 / 4))) with (Rsqr (5/3)) by (unfold Rsqr; field).
      apply sqrt_Rsqr. lra.
  Qed.

  Lemma ex_ratio_big : 1/2 <= Cmod (RtoC (1/2)) /\
    1/2 <= Cmod (Cexp (- RtoC 2 * Ci * RtoC (fst (RtoC (3/4)))) - RtoC (exp (- 2 * snd (RtoC (3/4)))))%C /\
    forall j, (1 <= j <= 1)%nat -> 1 <= Cmod ((RtoC (3/8) * D1 (RtoC (3/8)) j + RtoC (INR j)) * (RtoC (INR j) - RtoC (3/8) * D3 (RtoC (3/8)) (j - 1)%nat))%C.
  Proof.
    split; [|split].
    - rewrite Cmod_Rp; lra.
    - eapply Rle_trans; [|apply Cmod_ge_im]. unfold Cexp. cbn [fst snd RtoC Cmult Copp Cminus Cplus Ci].
      match goal with |- context [sin ?t] => replace t with (- (3/2)) by lra end.
      match goal with |- context [exp ?t * sin _] => replace t with 0 by lra end.
      rewrite exp_0, sin_neg. pose proof (sin_bounds_lem (3/4) ltac:(lra)) as [B _].
      assert (1/2 <= sin (3/2)).
      { replace (3/2) with (2 * (3/4)) by lra. rewrite sin_2a.
        assert (C0 : 1 / 2 <= cos (3/4)).
        { pose proof (cos_bound (3/4) 0 ltac:(pose proof PI2_1; lra) ltac:(pose proof PI2_1; lra)) as [Bc _].
          unfold cos_approx, cos_term in Bc. simpl in Bc. lra. }
        nra. }
      rewrite Rabs_left; lra.
    - intros j Hj. assert (j = 1%nat) as -> by lia. destruct at_prev as (d & E & B & _).
      rewrite E. change (1 - 1)%nat with 0%nat. change (D3 (RtoC (3/8)) 0) with Ci. change (INR 1) with 1.
      rewrite Cmod_mult.
      replace 1 with (1 * 1) at 1 by ring. apply Rmult_le_compat; try lra.
      + rewrite <- RtoC_mult, <- RtoC_plus, Cmod_Rp; lra.
      + eapply Rle_trans; [|apply Cmod_ge_re]. simpl. rewrite Rabs_pos_eq; lra.
  Qed.
  Lemma ex_ratio_quiet : quiet_ratio 1 15 (RtoC (3/8)) (RtoC (3/4)) (RtoC (1/2)) 1.
  Proof.
    destruct ex_ratio_big as (H1 & H2 & H3). split; [|split].
    - apply (no_guard_re _ (1/2)); [lra|exact H1].
    - apply (no_guard_re _ (1/2)); [lra|exact H2].
    - intros j Hj. apply (no_guard_re _ 1); [lra|exact (H3 j Hj)].
  Qed.

  Section Layer.
    (* both polarisations at once: u H - v D, with H = D1 at the core *)
    Variables (u v : R).
    Hypothesis Hu : 3/2 <= u <= 2.
    Hypothesis Hv : 3/2 <= v <= 2.
    Hypothesis Huv : u * v = 3.
    Let zp := RtoC (3/8).
    Let zc := RtoC (3/4).
    Let H := D1 (RtoC (1/2)) 1.
    Let Q := Qn zp zc (RtoC (1/4)) (RtoC (1/2)) 1.
    Let G1 := (RtoC u * H - RtoC v * D1 zp 1)%C.
    Let G2 := (RtoC u * H - RtoC v * D3 zp 1)%C.
    Hypothesis Hsmall : v = 2 \/ u = 2.
    Lemma G1_small : Cmod G1 <= 5.
    Proof.
      unfold G1, H, zp. destruct at_half as (d & -> & B & _). destruct at_prev as (e & -> & B' & _).
      rewrite <- !RtoC_mult, <- RtoC_minus, Cmod_R. apply Rabs_le.
      destruct Hsmall as [->| ->]; [assert (u = 3/2) by lra|assert (v = 3/2) by lra]; subst; lra.
    Qed.
    Lemma wp_big : exists w, (D3 zp 1 - D1 zp 1)%C = (Ci * w)%C /\ 7 <= Cmod w.
    Proof.
      unfold zp. destruct at_prev as (e & E & B & Hq & Ep & Ez).
      destruct (arg_facts 1 15 (RtoC (3/8)) 1 ltac:(lia) Hq) as (_ & Np & Nz & W).
      exists (/ (psi (RtoC (3/8)) 1 * zeta (RtoC (3/8)) 1))%C. split.
      - rewrite <- W. field. split; assumption.
      - rewrite Cmod_inv by (apply Cmult_neq_0; assumption). rewrite Cmod_mult, Ep, Ez.
        pose proof (sin_bounds_lem (3/8) ltac:(lra)) as [S1 S2].
        assert (S : sqrt (73/9) <= 2.85).
        { rewrite <- (sqrt_Rsqr 2.85) by lra. apply sqrt_le_1_alt. unfold Rsqr. lra. }
        assert (P : 0 < sqrt (73/9)) by (apply sqrt_lt_R0; lra).
        assert (T : 0 < sin (3/8) / (e + 8/3) <= 0.0475).
        { split; [apply Rdiv_lt_0_compat; lra|]. apply (Rmult_le_reg_r (e + 8/3)); [lra|].
          unfold Rdiv at 1. rewrite Rmult_assoc, Rinv_l by lra. lra. }
        rewrite Cmod_Rp by lra. rewrite <- (Rinv_inv 7) by lra.
        apply Rinv_le_contravar; [nra|]. apply Rle_trans with (0.0475 * 2.85); [|lra].
        apply Rmult_le_compat; lra.
    Qed.
    Lemma Q_small : Cmod Q <= 3/10.
    Proof.
      unfold Q, zp, zc. destruct at_prev as (e & E & B & Hq & Ep & Ez). destruct at_curr as (c & F & B' & Hq' & Fp & Fz).
      destruct (arg_facts 1 15 (RtoC (3/8)) 1 ltac:(lia) Hq) as (_ & Np & Nz & _).
      destruct (arg_facts 1 15 (RtoC (3/4)) 1 ltac:(lia) Hq') as (_ & Mp & Mz & _).
      pose proof (Q_fact 1 15 (RtoC (3/8)) (RtoC (3/4)) (RtoC (1/4)) (RtoC (1/2)) 1 ltac:(lia) Hq Hq' ex_ratio_quiet
        ltac:(rewrite <- !RtoC_mult; f_equal; lra)) as EQ.
      apply (f_equal Cmod) in EQ. rewrite !Cmod_mult, Ez, Fz, Ep, Fp in EQ.
      pose proof (sin_bounds_lem (3/8) ltac:(lra)) as [S1 S2]. pose proof (sin_bounds_lem (3/4) ltac:(lra)) as [S3 S4].
      assert (S : 2.8 <= sqrt (73/9)).
      { rewrite <- (sqrt_Rsqr 2.8) by lra. apply sqrt_le_1_alt. unfold Rsqr. lra. }
      assert (T : 0 < sin (3/8) / (e + 8/3) <= 0.0475).
      { split; [apply Rdiv_lt_0_compat; lra|]. apply (Rmult_le_reg_r (e + 8/3)); [lra|].
        unfold Rdiv at 1. rewrite Rmult_assoc, Rinv_l by lra. lra. }
      assert (T' : 0.17 <= sin (3/4) / (c + 4/3)).
      { apply (Rmult_le_reg_r (c + 4/3)); [lra|]. unfold Rdiv at 2. rewrite Rmult_assoc, Rinv_l by lra. lra. }
      rewrite (Cmod_Rp (sin (3/8) / _)), (Cmod_Rp (sin (3/4) / _)) in EQ by lra.
      set (q := Cmod (Qn (RtoC (3/8)) (RtoC (3/4)) (RtoC (1/4)) (RtoC (1/2)) 1)) in *. pose proof (Cmod_ge_0 (Qn (RtoC (3/8)) (RtoC (3/4)) (RtoC (1/4)) (RtoC (1/2)) 1)) as Hq0.
      assert (0 <= q) by exact Hq0.
      assert (q * (2.8 * 0.17) <= 0.0475 * (5/3)).
      { apply Rle_trans with (q * (sqrt (73/9) * (sin (3/4) / (c + 4/3)))).
        - apply Rmult_le_compat_l; [lra|]. apply Rmult_le_compat; lra.
        - rewrite EQ. apply Rmult_le_compat_r; lra. }
      lra.
    Qed.
    Lemma den_big : 4 <= Cmod (G2 - Q * G1)%C.
    Proof.
      destruct wp_big as (w & E & W). pose proof G1_small. pose proof Q_small.
      assert (E2 : (G2 - Q * G1 = (G1 - Q * G1) - RtoC v * (Ci * w))%C).
      { rewrite <- E. unfold G1, G2. ring. }
      rewrite E2. replace (G1 - Q * G1 - RtoC v * (Ci * w))%C with (- (RtoC v * (Ci * w) - (G1 - Q * G1)))%C by ring.
      rewrite Cmod_opp. eapply Rle_trans; [|apply Cmod_sub_ge].
      assert (A : Cmod (G1 - Q * G1)%C <= 6.5).
      { replace (G1 - Q * G1)%C with (G1 + (- Q) * G1)%C by ring. eapply Rle_trans; [apply Cmod_triangle|].
        rewrite Cmod_mult, Cmod_opp. pose proof (Cmod_ge_0 Q). pose proof (Cmod_ge_0 G1). nra. }
      assert (A' : 10.5 <= Cmod (RtoC v * (Ci * w))%C).
      { rewrite !Cmod_mult, Cmod_Rp by lra.
        replace (Cmod Ci) with 1 by (unfold Cmod; simpl; replace (0 * (0 * 1) + 1 * (1 * 1)) with 1 by ring; now rewrite sqrt_1).
        nra. }
      lra.
    Qed.
    Lemma H_re : 0 <= fst ((G2 * D1 zc 1 - Q * G1 * D3 zc 1) / (G2 - Q * G1))%C.
    Proof.
      pose proof den_big as Hd. pose proof G1_small. pose proof Q_small.
      assert (Hne : (G2 - Q * G1)%C <> RtoC 0) by (apply (Cmod_pos_neq 4); lra).
      unfold zc. destruct at_curr as (c & F & B' & Hq' & Fp & Fz).
      destruct (arg_facts 1 15 (RtoC (3/4)) 1 ltac:(lia) Hq') as (_ & Mp & Mz & W).
      assert (E : ((G2 * D1 (RtoC (3/4)) 1 - Q * G1 * D3 (RtoC (3/4)) 1) / (G2 - Q * G1) =
                  D1 (RtoC (3/4)) 1 - Q * G1 * (D3 (RtoC (3/4)) 1 - D1 (RtoC (3/4)) 1) / (G2 - Q * G1))%C).
      { cfield. exact Hne. }
      rewrite E. set (t := (Q * G1 * _ / _)%C).
      assert (Ht : Cmod t <= 2).
      { assert (EW : (D3 (RtoC (3/4)) 1 - D1 (RtoC (3/4)) 1)%C = (Ci / (psi (RtoC (3/4)) 1 * zeta (RtoC (3/4)) 1))%C).
        { rewrite <- W. field. split; assumption. }
        unfold t. rewrite EW. rewrite Cmod_div by exact Hne. rewrite !Cmod_mult, Cmod_div by (now apply Cmult_neq_0).
        rewrite Cmod_mult, Fz, Fp.
        replace (Cmod Ci) with 1 by (unfold Cmod; simpl; replace (0 * (0 * 1) + 1 * (1 * 1)) with 1 by ring; now rewrite sqrt_1).
        pose proof (sin_bounds_lem (3/4) ltac:(lra)) as [S3 S4].
        assert (T' : 0.17 <= sin (3/4) / (c + 4/3)).
        { apply (Rmult_le_reg_r (c + 4/3)); [lra|]. unfold Rdiv at 2. rewrite Rmult_assoc, Rinv_l by lra. lra. }
        rewrite (Cmod_Rp (sin (3/4) / _)) by lra.
        set (s := sin (3/4) / (c + 4/3)) in *.
        assert (I : 1 / (s * (5/3)) <= 3.6).
        { apply (Rmult_le_reg_r (s * (5/3))); [lra|]. unfold Rdiv at 1. rewrite Rmult_assoc, Rinv_l; lra. }
        assert (I0 : 0 < 1 / (s * (5/3))) by (apply Rdiv_lt_0_compat; lra).
        apply (Rmult_le_reg_r (Cmod (G2 - Q * G1)%C)); [lra|].
        unfold Rdiv at 1. rewrite Rmult_assoc, Rinv_l, Rmult_1_r by lra.
        pose proof (Cmod_ge_0 Q). pose proof (Cmod_ge_0 G1).
        apply Rle_trans with (3/10 * 5 * 3.6); [|lra].
        apply Rmult_le_compat; [apply Rmult_le_pos; lra|lra|apply Rmult_le_compat; lra|lra]. }
      pose proof (Cmod_ge_re t) as Ht'. rewrite F. cbn [fst Cminus Cplus Copp RtoC].
      pose proof (Rabs_def2 (fst t) 2.1 ltac:(lra)). lra.
    Qed.
  End Layer.

  Lemma final_big (h : C) : 0 <= fst h ->
    1 <= Cmod ((h + RtoC (INR 1) / RtoC (1/2)) * zeta (RtoC (1/2)) 1 - zeta (RtoC (1/2)) 0)%C.
  Proof.
    intros Hh.
    pose proof (zc_guard (1/2) ltac:(lra)) as Hg.
    pose proof (gzeta_S e30 16 (RtoC (1/2)) Hg 0) as E.
    change (gzeta e30 16 (RtoC (1/2)) 1) with (zeta (RtoC (1/2)) 1) in E.
    change (gzeta e30 16 (RtoC (1/2)) 0) with (zeta (RtoC (1/2)) 0) in E.
    change (gD3 e30 16 (RtoC (1/2)) 0) with Ci in E. rewrite E. change (INR 1) with 1. rewrite dz by lra.
    replace (1 / (1/2)) with 2 by lra.
    replace ((h + RtoC 2) * (zeta (RtoC (1/2)) 0 * (RtoC 2 - Ci)) - zeta (RtoC (1/2)) 0)%C
      with (zeta (RtoC (1/2)) 0 * ((h + RtoC 2) * (RtoC 2 - Ci) - RtoC 1))%C by cring.
    rewrite Cmod_mult.
    assert (Z : Cmod (zeta (RtoC (1/2)) 0) = 1).
    { change (zeta (RtoC (1/2)) 0) with (gzeta e30 16 (RtoC (1/2)) 0). rewrite gzeta_0', Cmod_opp, Cmod_mult, Cmod_i_real.
      rewrite Rmult_1_r. unfold Cmod. simpl. replace (0 * (0 * 1) + 1 * (1 * 1)) with 1 by ring. apply sqrt_1. }
    rewrite Z, Rmult_1_l. eapply Rle_trans; [|apply Cmod_sub_ge]. rewrite Cmod_mult, (Cmod_Rp 1) by lra.
    assert (2 <= Cmod (h + RtoC 2)%C).
    { eapply Rle_trans; [|apply Cmod_ge_re]. simpl. rewrite Rabs_pos_eq; lra. }
    assert (2 <= Cmod (RtoC 2 - Ci)%C).
    { eapply Rle_trans; [|apply Cmod_ge_re]. simpl. rewrite Rabs_pos_eq; lra. }
    nra.
  Qed.
  Lemma final_ok (h : C) : 0 <= fst h ->
    no_guard e30 ((h + RtoC (INR 1) / RtoC (1/2)) * zeta (RtoC (1/2)) 1 - zeta (RtoC (1/2)) 0)%C.
  Proof. intros Hh. apply (no_guard_re _ 1); [lra|now apply final_big]. Qed.

  Lemma fst_scale (a : R) (h : C) : fst (RtoC a * h)%C = a * fst h.
  Proof. simpl. ring. Qed.

  Theorem ex_quiet : quiet_stack 1 15 ex_core [ex_shell] 1.
  Proof.
    assert (Z0 : (fst ex_core * snd ex_core)%C = RtoC (1/2)) by (cbn; rewrite <- RtoC_mult; f_equal; lra).
    assert (Zp : (fst ex_shell * snd ex_core)%C = RtoC (3/8)) by (cbn; rewrite <- RtoC_mult; f_equal; lra).
    assert (Zc : (fst ex_shell * snd ex_shell)%C = RtoC (3/4)) by (cbn; rewrite <- RtoC_mult; f_equal; lra).
    assert (EH : @pena_first R ROps 1 15 ex_core 1 = (D1 (RtoC (1/2)) 1, D1 (RtoC (1/2)) 1)).
    { unfold pena_first. toC. rewrite Z0. reflexivity. }
    destruct at_half as (d & E & B & Hh & _). destruct at_prev as (e & E' & B' & Hp & _). destruct at_curr as (c & E'' & B'' & Hc & _).
    assert (QL : quiet_layer 1 15 ex_core ex_shell (@pena_first R ROps 1 15 ex_core 1) 1).
    { unfold quiet_layer. rewrite Zp, Zc, EH. cbn [fst snd ex_core ex_shell].
      split; [exact Hp|]. split; [exact Hc|]. split; [exact ex_ratio_quiet|].
      split; (apply (no_guard_re _ 4); [lra|]); apply den_big; lra. }
    unfold quiet_stack. rewrite Z0. split; [exact Hh|]. split; [split; [exact QL|exact I]|].
    unfold quiet_final. cbn [last fst snd ex_shell]. split; [exact Hh|].
    unfold pena_H. cbn [pena_layers].
    destruct (layer_H 1 15 true _ _ _ _ QL) as [_ Ea]. destruct (layer_H 1 15 false _ _ _ _ QL) as [_ Eb].
    cbn [sel] in Ea, Eb. cbv zeta in Ea, Eb. rewrite Ea, Eb. cbn [uu vv]. rewrite Zp, Zc, EH.
    cbn [fst snd ex_core ex_shell]. change (1 - 1)%nat with 0%nat. split.
    - replace (RtoC (INR 1)) with (RtoC (INR 1)) by reflexivity.
      match goal with |- context [(?h / RtoC (3/2))%C] => replace (h / RtoC (3/2))%C with (RtoC (2/3) * h)%C end.
      + apply final_ok. rewrite fst_scale. apply Rmult_le_pos; [lra|]. apply H_re; lra.
      + replace (RtoC (2/3)) with (/ RtoC (3/2))%C by (rewrite <- RtoC_inv by lra; f_equal; lra).
        unfold Cdiv. ring.
    - apply final_ok. rewrite fst_scale. apply Rmult_le_pos; [lra|]. apply H_re; lra.
  Qed.

  (* a single layer (m, 1/2) with m * 1/2 one of the points above *)
  Lemma homog_quiet (m : R) d : 1 <= m -> D1 (RtoC (m * (1/2))) 1 = RtoC d -> 0 <= d ->
    quiet_arg 1 15 (RtoC (m * (1/2))) 1 -> quiet_stack 1 15 (RtoC m, RtoC (1/2)) [] 1.
  Proof.
    intros Hm E Hd Hq. destruct at_half as (d' & _ & _ & Hh & _).
    unfold quiet_stack. cbn [fst snd last]. rewrite <- RtoC_mult. split; [exact Hq|]. split; [exact I|].
    unfold quiet_final. cbn [fst snd]. split; [exact Hh|]. unfold pena_H. cbn [pena_layers].
    unfold pena_first. cbn [fst snd]. toC. rewrite <- RtoC_mult, E. change (1 - 1)%nat with 0%nat.
    assert (0 < / m) by (apply Rinv_0_lt_compat; lra).
    split; apply final_ok.
    - rewrite <- RtoC_div by lra. simpl. apply Rmult_le_pos; lra.
    - rewrite <- RtoC_mult. simpl. apply Rmult_le_pos; lra.
  Qed.
  Lemma ex_homog_quiet : quiet_stack 1 15 (RtoC (3/2), RtoC (1/2)) [] 1.
  Proof.
    destruct at_curr as (c & E & B & Hc & _). apply (homog_quiet (3/2) c); try lra.
    - replace (3/2 * (1/2)) with (3/4) by lra. exact E.
    - replace (3/2 * (1/2)) with (3/4) by lra. exact Hc.
  Qed.
  Lemma ex_matched_quiet : quiet_stack 1 15 (RtoC 1, RtoC (1/2)) [] 1.
  Proof.
    destruct at_half as (c & E & B & Hc & _). apply (homog_quiet 1 c); try lra.
    - rewrite Rmult_1_l. exact E.
    - rewrite Rmult_1_l. exact Hc.
  Qed.
  Lemma ex_split_quiet : quiet_stack 1 15 (RtoC (3/2), RtoC (1/4)) [(RtoC (3/2), RtoC (1/2))] 1.
  Proof.
    assert (Zp : (RtoC (3/2) * RtoC (1/4))%C = RtoC (3/8)) by (rewrite <- RtoC_mult; f_equal; lra).
    assert (Zc : (RtoC (3/2) * RtoC (1/2))%C = RtoC (3/4)) by (rewrite <- RtoC_mult; f_equal; lra).
    destruct at_half as (d & E & B & Hh & _). destruct at_prev as (e & E' & B' & Hp & _). destruct at_curr as (c & E'' & B'' & Hc & _).
    assert (EH : @pena_first R ROps 1 15 (RtoC (3/2), RtoC (1/4)) 1 = (D1 (RtoC (3/8)) 1, D1 (RtoC (3/8)) 1)).
    { unfold pena_first. cbn [fst snd]. toC. rewrite Zp. reflexivity. }
    destruct wp_big as (w & W1 & W2).
    assert (HD : forall q : C, (RtoC (3/2) * D1 (RtoC (3/8)) 1 - RtoC (3/2) * D3 (RtoC (3/8)) 1
        - q * (RtoC (3/2) * D1 (RtoC (3/8)) 1 - RtoC (3/2) * D1 (RtoC (3/8)) 1))%C = (- (RtoC (3/2) * (Ci * w)))%C).
    { intros q. rewrite <- W1. cring. }
    assert (HW : 10 <= Cmod (- (RtoC (3/2) * (Ci * w)))%C).
    { rewrite Cmod_opp, !Cmod_mult, Cmod_Rp by lra.
      replace (Cmod Ci) with 1 by (unfold Cmod; simpl; replace (0 * (0 * 1) + 1 * (1 * 1)) with 1 by ring; now rewrite sqrt_1).
      lra. }
    assert (QL : quiet_layer 1 15 (RtoC (3/2), RtoC (1/4)) (RtoC (3/2), RtoC (1/2))
                   (@pena_first R ROps 1 15 (RtoC (3/2), RtoC (1/4)) 1) 1).
    { unfold quiet_layer. cbn [fst snd]. rewrite Zp, Zc, EH. cbn [fst snd].
      split; [exact Hp|]. split; [exact Hc|]. split; [exact ex_ratio_quiet|].
      rewrite HD. split; (apply (no_guard_re _ 10); [lra|exact HW]). }
    unfold quiet_stack. cbn [fst snd]. rewrite Zp. split; [exact Hp|]. split; [split; [exact QL|exact I]|].
    unfold quiet_final. cbn [last fst snd]. split; [exact Hh|].
    unfold pena_H. cbn [pena_layers].
    destruct (layer_H 1 15 true _ _ _ _ QL) as [Na Ea]. destruct (layer_H 1 15 false _ _ _ _ QL) as [Nb Eb].
    cbn [sel] in Ea, Eb, Na, Nb. cbv zeta in Ea, Eb, Na, Nb. rewrite Ea, Eb. cbn [uu vv] in *. cbn [fst snd] in *.
    rewrite Zp, Zc, EH in *. cbn [fst snd] in *. rewrite HD in *.
    assert (HH : forall q : C, ((RtoC (3/2) * D1 (RtoC (3/8)) 1 - RtoC (3/2) * D3 (RtoC (3/8)) 1) * D1 (RtoC (3/4)) 1
         - q * (RtoC (3/2) * D1 (RtoC (3/8)) 1 - RtoC (3/2) * D1 (RtoC (3/8)) 1) * D3 (RtoC (3/4)) 1)%C =
         ((- (RtoC (3/2) * (Ci * w))) * D1 (RtoC (3/4)) 1)%C).
    { intros q. rewrite <- W1. cring. }
    rewrite HH. change (1 - 1)%nat with 0%nat.
    assert (HX : ((- (RtoC (3/2) * (Ci * w))) * D1 (RtoC (3/4)) 1 / (- (RtoC (3/2) * (Ci * w))))%C = RtoC c).
    { rewrite E''. set (t := (- (RtoC (3/2) * (Ci * w)))%C) in *. field. exact Na. }
    rewrite HX. split; apply final_ok.
    - rewrite <- RtoC_div by lra. simpl. lra.
    - rewrite <- RtoC_mult. simpl. lra.
  Qed.
End TheStack.
Lemma csqrt_1 : @csqrt R ROps (RtoC 1) = RtoC 1.
Proof.
  unfold csqrt. toC. rewrite Cmod_R, Rabs_R1. unfold rsub, rtwo. cbn [fst snd RtoC rsqrt rdiv radd ropp rone rltb rzero ROps].
  unfold Rltb. destruct (Rlt_dec 0 0); [lra|]. replace ((1 + 1) / (1 + 1)) with 1 by field.
  replace ((1 + Ropp 1) / (1 + 1)) with 0 by field. now rewrite sqrt_1, sqrt_0.
Qed.
Lemma ex_layer_of : @layer_of R ROps (1/2) (RtoC 1) (1, RtoC 1) = (RtoC 1, RtoC (1/2)).
Proof.
  unfold layer_of. cbn [fst snd]. rewrite csqrt_1. toC. apply f_equal2.
  - field. apply RtoC_neq. lra.
  - rewrite <- !RtoC_mult. f_equal. field.
Qed.
