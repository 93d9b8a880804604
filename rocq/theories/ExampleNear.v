(** A sphere and order at which the near-field hypotheses hold. *)
From Coq Require Import Reals Lra Lia List Arith.
From Coquelicot Require Import Coquelicot.
From Verif Require Import Ops ROps Spec StackSpec CLemmas CTrig ModelSpecial ModelMie PenaProofs QuietSpec StackProofs ExampleStack ModelNear NearSpec NearField.
Import ListNotations.
Open Scope R_scope.
Notation eD1 := (@pD1 R ROps 1 15).
Notation eD3 := (@pD3 R ROps 1 15).
Notation epsi := (@ppsi R ROps 1 15).
Notation ezeta := (@pzeta R ROps 1 15).

Section AtZ.
  Variables (z w d1 : R).
  Hypothesis Hw : w = 1 / z.
  Hypothesis Hz : 1 / 2 <= z <= 3 / 4.
  Hypothesis HD1 : eD1 (RtoC z) 1 = RtoC d1.
  Hypothesis Hd1 : 0 <= d1 <= 2 * w.
  Hypothesis Hp0 : z <= 6/10 * (d1 + w) / (1 + w * w).
  Hypothesis Hp1 : (d1 + w) / (1 + w * w) <= 8 * sin z.
  Hypothesis Hq1 : quiet_arg 1 15 (RtoC z) 1.
  Let p := sin z / (d1 + w).
  Let G := (RtoC (2 * w) - eD3 (RtoC z) 1)%C.
  Lemma w_b : 4 / 3 <= w <= 2.
  Proof. rewrite Hw. split; [apply (Rmult_le_reg_r z)|apply (Rmult_le_reg_r z)]; try lra; replace (1 / z * z) with 1 by (field; lra); lra. Qed.
  Lemma zg : no_guard (@eps30 R ROps) (RtoC z). Proof. apply zc_guard. lra. Qed.
  Lemma psi1 : epsi (RtoC z) 1 = RtoC p.
  Proof.
    unfold p. rewrite Hw. apply (psi1_bounds 1 15 z ltac:(lra) ltac:(lia) d1 HD1). pose proof w_b. rewrite <- Hw. lra.
  Qed.
  Lemma zeta1 : ezeta (RtoC z) 1 = ((sin z * w - cos z)%R, (- (sin z + cos z * w))%R).
  Proof.
    assert (E : ezeta (RtoC z) 1 = (ezeta (RtoC z) 0 * (Cn 1 / RtoC z - eD3 (RtoC z) 0))%C) by exact (gzeta_S eps30 16 (RtoC z) zg 0).
    rewrite E. change (eD3 (RtoC z) 0) with Ci. change (ezeta (RtoC z) 0) with (Csin (RtoC z) - Ci * Ccos (RtoC z))%C.
    rewrite Csin_R, Ccos_R, dz by lra. change (INR 1) with 1. rewrite <- Hw. apply C_eq; cbn; ring.
  Qed.
  Lemma trig_b : 1/4 <= sin z <= z /\ 1/2 <= cos z <= 1 /\ sin z * sin z + cos z * cos z = 1.
  Proof.
    pose proof (sin_bounds_lem z ltac:(lra)) as [S1 S2]. assert (z * z <= 1) by nra. assert (z * z * z <= z) by nra.
    split; [lra|]. split; [|pose proof (sin2_cos2 z) as E; unfold Rsqr in E; lra]. split; [|apply COS_bound].
    pose proof (cos_bound z 0 ltac:(pose proof PI2_1; lra) ltac:(pose proof PI2_1; lra)) as [Bc _]. unfold cos_approx, cos_term in Bc. simpl in Bc. nra.
  Qed.
  Lemma p_b : 1/8 <= p * (1 + w * w) <= 6/10.
  Proof.
    pose proof w_b. destruct trig_b as (S & _ & _). unfold p. assert (0 < d1 + w) by lra. assert (0 < 1 + w * w) by nra. split.
    - apply (Rmult_le_reg_r ((d1 + w) / (1 + w * w))); [apply Rdiv_lt_0_compat; lra|].
      replace (sin z / (d1 + w) * (1 + w * w) * ((d1 + w) / (1 + w * w))) with (sin z) by (field; lra). lra.
    - apply (Rmult_le_reg_r ((d1 + w) / (1 + w * w))); [apply Rdiv_lt_0_compat; lra|].
      replace (sin z / (d1 + w) * (1 + w * w) * ((d1 + w) / (1 + w * w))) with (sin z) by (field; lra). unfold Rdiv in *. lra.
  Qed.
  Lemma G_eq : G = ((2 * w - d1 + (sin z + cos z * w) / (p * (1 + w * w)))%R, (- ((sin z * w - cos z) / (p * (1 + w * w))))%R).
  Proof.
    pose proof p_b. pose proof w_b. destruct trig_b as (_ & _ & T).
    assert (P0 : p <> 0) by (intros E; rewrite E in H; lra).
    assert (E : eD3 (RtoC z) 1 = (eD1 (RtoC z) 1 + Ci / (epsi (RtoC z) 1 * ezeta (RtoC z) 1))%C).
    { apply (gD3_S eps30 16 (RtoC z) zg 0). apply (proj2 (proj2 Hq1 1%nat ltac:(lia))). }
    unfold G. rewrite E, HD1, psi1, zeta1.
    assert (M : (sin z * w - cos z) * (sin z * w - cos z) + (sin z + cos z * w) * (sin z + cos z * w) = 1 + w * w).
    { replace ((sin z * w - cos z) * (sin z * w - cos z) + (sin z + cos z * w) * (sin z + cos z * w)) with ((sin z * sin z + cos z * cos z) * (1 + w * w)) by ring. rewrite T. ring. }
    set (A := sin z * w - cos z) in *. set (B := sin z + cos z * w) in *.
    assert (N : 0 < 1 + w * w) by nra.
    assert (Q : (Ci / (RtoC p * (A, (- B)%R)))%C = ((- (B / (p * (1 + w * w))))%R, (A / (p * (1 + w * w)))%R)).
    { assert (Nz : (RtoC p * (A, (- B)%R))%C <> RtoC 0).
      { apply Cmult_neq_0; [apply RtoC_neq; exact P0|]. intros E0. injection E0 as E1 E2. assert (B = 0) by lra. rewrite E1, H1 in M. lra. }
      apply (Cmult_eq_reg_l (RtoC p * (A, (- B)%R))%C); [exact Nz|]. unfold Cdiv.
      assert (K : forall q : C, q <> RtoC 0 -> (q * (Ci * / q))%C = Ci) by (intros q Hq; field; exact Hq). rewrite (K _ Nz).
      rewrite <- M in *. apply C_eq; cbn; field; repeat split; lra. }
    rewrite Q. apply C_eq; cbn; ring.
  Qed.
  Lemma inv_p_b : 1 <= / (p * (1 + w * w)) <= 8 /\ 5/3 <= / (p * (1 + w * w)).
  Proof.
    pose proof p_b as P. set (u := p * (1 + w * w)) in *. assert (0 < / u) by (apply Rinv_0_lt_compat; lra). assert (u * / u = 1) by (apply Rinv_r; lra). nra.
  Qed.
  Lemma G_re : 1 <= fst G.
  Proof.
    rewrite G_eq. cbn [fst]. pose proof w_b. destruct trig_b as (S & T & _). destruct inv_p_b as [_ I]. unfold Rdiv. set (u := / (p * (1 + w * w))) in *.
    assert (6/10 <= sin z + cos z * w) by nra. nra.
  Qed.
  Lemma G_mod : 1 <= Cmod G <= 100.
  Proof.
    split; [eapply Rle_trans; [apply G_re|]; eapply Rle_trans; [apply Rle_abs|apply Cmod_ge_re]|].
    eapply Rle_trans; [apply Cmod_2Rmax|]. rewrite G_eq. cbn [fst snd]. pose proof w_b. destruct trig_b as (S & T & _). destruct inv_p_b as [I _]. unfold Rdiv. set (u := / (p * (1 + w * w))) in *.
    assert (0 <= sin z + cos z * w <= 3) by nra. assert (-3 <= sin z * w - cos z <= 3) by nra.
    assert (0 <= (sin z + cos z * w) * u <= 24) by nra.
    assert (-24 <= (sin z * w - cos z) * u <= 24) by nra.
    assert (M : Rmax (Rabs (2 * w - d1 + (sin z + cos z * w) * u)) (Rabs (- ((sin z * w - cos z) * u))) <= 30).
    { apply Rmax_lub; apply Rabs_le; lra. }
    assert (Q2 : sqrt 2 <= 2) by (rewrite <- (sqrt_Rsqr 2) at 2 by lra; apply sqrt_le_1_alt; unfold Rsqr; lra). pose proof (sqrt_pos 2).
    pose proof (Rmax_l (Rabs (2 * w - d1 + (sin z + cos z * w) * u)) (Rabs (- ((sin z * w - cos z) * u)))). pose proof (Rabs_pos (2 * w - d1 + (sin z + cos z * w) * u)). nra.
  Qed.
  Lemma zeta1_b : 1 <= Cmod (ezeta (RtoC z) 1) <= 3.
  Proof.
    pose proof (zeta1_mod 1 15 z ltac:(lra)) as E. change (gzeta eps30 (1 + 15) (RtoC z) 1) with (ezeta (RtoC z) 1) in E. rewrite E, <- Hw. pose proof w_b. split.
    - rewrite <- sqrt_1 at 1. apply sqrt_le_1_alt. nra.
    - rewrite <- (sqrt_Rsqr 3) by lra. apply sqrt_le_1_alt. unfold Rsqr. nra.
  Qed.
  Lemma zeta2 : ezeta (RtoC z) 2 = (ezeta (RtoC z) 1 * G)%C.
  Proof.
    assert (E : ezeta (RtoC z) 2 = (ezeta (RtoC z) 1 * (Cn 2 / RtoC z - eD3 (RtoC z) 1))%C) by exact (gzeta_S eps30 16 (RtoC z) zg 1).
    rewrite E. unfold G. rewrite dz by lra. replace (INR 2 / z) with (2 * w) by (rewrite Hw; simpl; field; lra). reflexivity.
  Qed.
  Lemma order2 : exists d2, eD1 (RtoC z) 2 = RtoC d2 /\ 0 <= d2 <= 3 * w /\ epsi (RtoC z) 2 = RtoC (p / (d2 + 2 * w)).
  Proof.
    pose proof w_b. destruct (D1_nonneg 1 15 z ltac:(lra) 13 ltac:(lia)) as (d3 & H3 & E3). change (1 + 15 - 13)%nat with 3%nat in E3.
    destruct (D1_nonneg 1 15 z ltac:(lra) 14 ltac:(lia)) as (d2 & H2 & E2). change (1 + 15 - 14)%nat with 2%nat in E2.
    change (gD1 eps30 (1 + 15) (RtoC z) 2) with (eD1 (RtoC z) 2) in E2. change (gD1 eps30 (1 + 15) (RtoC z) 3) with (eD1 (RtoC z) 3) in E3.
    assert (I2 : INR 2 / z = 2 * w) by (rewrite Hw; simpl; field; lra). assert (I3 : INR 3 / z = 3 * w) by (rewrite Hw; simpl; field; lra).
    exists d2. split; [exact E2|].
    assert (S2 : eD1 (RtoC z) 2 = (Cn 3 / RtoC z - 1 / (eD1 (RtoC z) 3 + Cn 3 / RtoC z))%C).
    { apply (gD1_step eps30 16 (RtoC z) zg 2); [lia|]. change (gD1 eps30 16 (RtoC z) 3) with (eD1 (RtoC z) 3). rewrite E3, dz, I3, <- RtoC_plus by lra.
      apply (no_guard_re _ 1); [lra|]. rewrite Cmod_Rp; lra. }
    rewrite E2, E3, dz, I3, <- RtoC_plus, dz, <- RtoC_minus in S2 by lra. apply RtoC_inj' in S2.
    assert (0 < 1 / (d3 + 3 * w)) by (apply Rdiv_lt_0_compat; lra). split; [lra|].
    assert (P : (epsi (RtoC z) 2 * (eD1 (RtoC z) 2 + Cn 2 / RtoC z))%C = epsi (RtoC z) 1).
    { apply (gpsi_rec eps30 16 (rtenth_pos 30) (RtoC z) zg 1 ltac:(lia)). change (gD1 eps30 16 (RtoC z) 2) with (eD1 (RtoC z) 2). rewrite E2, dz, I2, <- RtoC_plus by lra.
      apply (no_guard_re _ 1); [lra|]. rewrite Cmod_Rp; lra. }
    rewrite psi1, E2, dz, I2, <- RtoC_plus in P by lra. rewrite RtoC_div by lra. rewrite <- P. field. apply RtoC_neq. lra.
  Qed.
  Lemma quiet2 : quiet_arg 1 15 (RtoC z) 2.
  Proof.
    split; [exact zg|]. intros j Hj. destruct (Nat.eq_dec j 1) as [->|Hn]; [apply (proj2 Hq1); lia|]. assert (j = 2%nat) as -> by lia.
    pose proof w_b. destruct order2 as (d2 & E2 & B2 & P2). assert (I2 : INR 2 / z = 2 * w) by (rewrite Hw; simpl; field; lra). split.
    - rewrite E2, dz, I2, <- RtoC_plus by lra. apply (no_guard_re _ 1); [lra|]. rewrite Cmod_Rp; lra.
    - apply (no_guard_re _ (1/500)); [lra|]. rewrite P2, zeta2, !Cmod_mult. pose proof G_mod. pose proof zeta1_b. pose proof p_b.
      assert (Q : 1/500 <= p / (d2 + 2 * w)).
      { apply (Rmult_le_reg_r (d2 + 2 * w)); [lra|]. replace (p / (d2 + 2 * w) * (d2 + 2 * w)) with p by (field; lra).
        assert (w * w <= 4) by nra. assert (0 < p) by nra. nra. }
      rewrite Cmod_Rp by lra. assert (1 <= Cmod (ezeta (RtoC z) 1) * Cmod G) by nra. nra.
  Qed.
  Lemma step2 (m x : C) : (m * x)%C = RtoC z -> quiet_step 1 15 m x 2.
  Proof.
    intros E. unfold quiet_step. rewrite E. destruct (arg_facts 1 15 (RtoC z) 2 ltac:(lia) quiet2) as (_ & Np & Nz & W).
    pose proof w_b. destruct order2 as (d2 & E2 & B2 & P2). pose proof G_mod. pose proof zeta1_b. pose proof p_b.
    assert (K1 : Cmod (epsi (RtoC z) 2) <= 1).
    { rewrite P2. assert (0 < p) by nra. assert (0 < p / (d2 + 2 * w)) by (apply Rdiv_lt_0_compat; lra). rewrite Cmod_Rp by lra.
      apply (Rmult_le_reg_r (d2 + 2 * w)); [lra|]. replace (p / (d2 + 2 * w) * (d2 + 2 * w)) with p by (field; lra). nra. }
    assert (K2 : Cmod (ezeta (RtoC z) 2) <= 300) by (rewrite zeta2, Cmod_mult; nra).
    assert (C1 : Cmod Ci = 1) by (unfold Cmod; simpl; replace (0 * (0 * 1) + 1 * (1 * 1)) with 1 by ring; apply sqrt_1).
    assert (Q1 : (ezeta (RtoC z) 2 * (eD1 (RtoC z) 2 - eD3 (RtoC z) 2))%C = (- (Ci / epsi (RtoC z) 2))%C) by (rewrite <- W; field; exact Np).
    assert (Q2 : (epsi (RtoC z) 2 * (eD1 (RtoC z) 2 - eD3 (RtoC z) 2))%C = (- (Ci / ezeta (RtoC z) 2))%C) by (rewrite <- W; field; exact Nz).
    pose proof (proj1 (Cmod_gt_0 _) Np) as G1. pose proof (proj1 (Cmod_gt_0 _) Nz) as G2. clear W.
    split.
    - cbv zeta. rewrite Q1. apply (no_guard_re _ 1); [lra|]. rewrite Cmod_opp, Cmod_div, C1 by exact Np.
      apply (Rmult_le_reg_r (Cmod (epsi (RtoC z) 2))); [lra|]. replace (1 / Cmod (epsi (RtoC z) 2) * Cmod (epsi (RtoC z) 2)) with 1 by (field; lra). lra.
    - cbv zeta. rewrite Q2. apply (no_guard_re _ (1/300)); [lra|]. rewrite Cmod_opp, Cmod_div, C1 by exact Nz.
      apply (Rmult_le_reg_r (Cmod (ezeta (RtoC z) 2))); [lra|]. replace (1 / Cmod (ezeta (RtoC z) 2) * Cmod (ezeta (RtoC z) 2)) with 1 by (field; lra). lra.
  Qed.
  Lemma final2 h : 0 <= h -> no_guard (@eps30 R ROps) ((RtoC h + RtoC (INR 2) / RtoC z) * ezeta (RtoC z) 2 - ezeta (RtoC z) 1)%C.
  Proof.
    intros Hh. pose proof w_b. pose proof G_mod. pose proof zeta1_b. pose proof G_re.
    replace ((RtoC h + RtoC (INR 2) / RtoC z) * ezeta (RtoC z) 2 - ezeta (RtoC z) 1)%C with (ezeta (RtoC z) 1 * (RtoC (h + 2 * w) * G - RtoC 1))%C.
    - apply (no_guard_re _ 1); [lra|]. rewrite Cmod_mult.
      assert (1 <= Cmod (RtoC (h + 2 * w) * G - RtoC 1)%C).
      { eapply Rle_trans; [|apply Cmod_ge_re].
        replace (fst (RtoC (h + 2 * w) * G - RtoC 1)%C) with ((h + 2 * w) * fst G - 1).
        - clearbody G. rewrite Rabs_pos_eq; nra.
        - clearbody G. destruct G as [gr gi]. simpl. ring. }
      clearbody G. nra.
    - rewrite zeta2, dz by lra. replace (INR 2 / z) with (2 * w) by (rewrite Hw; simpl; field; lra). rewrite RtoC_plus. ring.
  Qed.
  Lemma step1 (m x : C) : (m * x)%C = RtoC z -> quiet_step 1 15 m x 1.
  Proof.
    intros E. unfold quiet_step. rewrite E. destruct (arg_facts 1 15 (RtoC z) 1 ltac:(lia) Hq1) as (_ & Np & Nz & W).
    pose proof w_b. pose proof zeta1_b. pose proof p_b. assert (P0 : 0 < p) by nra.
    assert (K1 : Cmod (epsi (RtoC z) 1) <= 1) by (rewrite psi1, Cmod_Rp by lra; nra).
    assert (C1 : Cmod Ci = 1) by (unfold Cmod; simpl; replace (0 * (0 * 1) + 1 * (1 * 1)) with 1 by ring; apply sqrt_1).
    assert (Q1 : (ezeta (RtoC z) 1 * (eD1 (RtoC z) 1 - eD3 (RtoC z) 1))%C = (- (Ci / epsi (RtoC z) 1))%C) by (rewrite <- W; field; exact Np).
    assert (Q2 : (epsi (RtoC z) 1 * (eD1 (RtoC z) 1 - eD3 (RtoC z) 1))%C = (- (Ci / ezeta (RtoC z) 1))%C) by (rewrite <- W; field; exact Nz).
    pose proof (proj1 (Cmod_gt_0 _) Np) as G1. pose proof (proj1 (Cmod_gt_0 _) Nz) as G2. clear W.
    split.
    - cbv zeta. rewrite Q1. apply (no_guard_re _ 1); [lra|]. rewrite Cmod_opp, Cmod_div, C1 by exact Np.
      apply (Rmult_le_reg_r (Cmod (epsi (RtoC z) 1))); [lra|]. replace (1 / Cmod (epsi (RtoC z) 1) * Cmod (epsi (RtoC z) 1)) with 1 by (field; lra). lra.
    - cbv zeta. rewrite Q2. apply (no_guard_re _ (1/300)); [lra|]. rewrite Cmod_opp, Cmod_div, C1 by exact Nz.
      apply (Rmult_le_reg_r (Cmod (ezeta (RtoC z) 1))); [lra|]. replace (1 / Cmod (ezeta (RtoC z) 1) * Cmod (ezeta (RtoC z) 1)) with 1 by (field; lra). lra.
  Qed.
End AtZ.
Lemma near_half : exists d1, eD1 (RtoC (1/2)) 1 = RtoC d1 /\ 0 <= d1 <= 2 * 2 /\ 1/2 <= 6/10 * (d1 + 2) / (1 + 2 * 2) /\ (d1 + 2) / (1 + 2 * 2) <= 8 * sin (1/2) /\ quiet_arg 1 15 (RtoC (1/2)) 1.
Proof.
  destruct at_half as (d & E & B & Q & _). pose proof (sin_bounds_lem (1/2) ltac:(lra)). exists d. split; [exact E|]. split; [lra|]. split; [lra|]. split; [lra|exact Q].
Qed.
Lemma near_34 : exists d1, eD1 (RtoC (3/4)) 1 = RtoC d1 /\ 0 <= d1 <= 2 * (4/3) /\ 3/4 <= 6/10 * (d1 + 4/3) / (1 + 4/3 * (4/3)) /\ (d1 + 4/3) / (1 + 4/3 * (4/3)) <= 8 * sin (3/4) /\ quiet_arg 1 15 (RtoC (3/4)) 1.
Proof.
  destruct at_curr as (d & E & B & Q & _). pose proof (sin_bounds_lem (3/4) ltac:(lra)). exists d. split; [exact E|]. split; [lra|]. split; [lra|]. split; [lra|exact Q].
Qed.
(* m = 3/2, x = 1/2 at order 2 *)
Definition ex_ball : C * C := (RtoC (3/2), RtoC (1/2)).
Lemma ball_arg : (fst ex_ball * snd ex_ball)%C = RtoC (3/4). Proof. cbn. rewrite <- RtoC_mult. f_equal. lra. Qed.
Lemma ball_quiet : quiet_stack 1 15 ex_ball [] 2 /\ quiet_near 1 15 [ex_ball] 2.
Proof.
  destruct near_half as (d & E & B1 & B2 & B3 & Q). destruct near_34 as (c & F & C1 & C2 & C3 & Q').
  assert (W1 : 2 = 1 / (1/2)) by field. assert (W2 : 4/3 = 1 / (3/4)) by field.
  pose proof (quiet2 (1/2) 2 d W1 ltac:(lra) E B1 B2 B3 Q) as Qh. pose proof (quiet2 (3/4) (4/3) c W2 ltac:(lra) F C1 C2 C3 Q') as Qc.
  destruct (order2 (3/4) (4/3) c W2 ltac:(lra) F C1) as (d2 & E2 & D2 & _).
  split.
  - unfold quiet_stack. rewrite ball_arg. split; [exact Qc|]. split; [exact I|]. unfold quiet_final. cbn [last ex_ball fst snd]. split; [exact Qh|].
    unfold pena_H, pena_first, ex_ball. cbn [pena_layers fst snd]. toC. rewrite <- RtoC_mult. replace (3/2 * (1/2)) with (3/4) by lra. rewrite E2. change (2 - 1)%nat with 1%nat. split.
    + rewrite <- RtoC_div by lra. apply (final2 (1/2) 2 d); try assumption; lra.
    + rewrite <- RtoC_mult. apply (final2 (1/2) 2 d); try assumption; lra.
  - intros i Hi. assert (i = 0%nat) as -> by (cbn in Hi; lia). unfold index_at, size_at. cbn [nth].
    apply (step2 (3/4) (4/3) c W2); try assumption; try lra. exact ball_arg.
Qed.
(* the two-material core-shell particle of ExampleStack at order 1 *)
Lemma shell_quiet : quiet_near 1 15 [ex_core; ex_shell] 1.
Proof.
  destruct near_half as (d & E & B1 & B2 & B3 & Q). destruct near_34 as (c & F & C1 & C2 & C3 & Q').
  assert (W1 : 2 = 1 / (1/2)) by field. assert (W2 : 4/3 = 1 / (3/4)) by field.
  intros i Hi. destruct i as [|[|i]]; [| |cbn in Hi; lia]; unfold index_at, size_at; cbn [nth].
  - apply (step1 (1/2) 2 d W1); try assumption; try lra. cbn. rewrite <- RtoC_mult. f_equal. lra.
  - apply (step1 (3/4) (4/3) c W2); try assumption; try lra. cbn. rewrite <- RtoC_mult. f_equal. lra.
Qed.
Lemma shell_index : forall i, (i <= length [ex_shell])%nat -> index_at [ex_core; ex_shell] i <> RtoC 0.
Proof. intros i Hi. destruct i as [|[|i]]; [| |cbn in Hi; lia]; unfold index_at; cbn; apply RtoC_neq; lra. Qed.
