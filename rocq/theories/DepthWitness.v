(** A sphere whose magnetic dipole coefficient is wrong when only one order is requested (C101). *)
From Coq Require Import Reals ZArith Lra Lia Bool List Arith.
From Coquelicot Require Import Coquelicot.
From Verif Require Import Ops ROps Spec CLemmas CTrig ComplexDiff ModelSpecial ModelMie PenaProofs
  BesselSpec BesselTrue BesselMinimal StackSpec ConvergeSpec BesselLimits StackConverge DepthShallow.
Import ListNotations.
Open Scope R_scope.

Definition wx : R := PI / 2 + 400 * PI.
Definition wz : R := 800 * PI.
Definition wm : R := 1600 / 801.
Lemma PI_lo : 3 < PI. Proof. pose proof PI2_3_2. lra. Qed.
Lemma PI_hi : PI <= 4. Proof. exact PI_4. Qed.
Lemma wmx : (RtoC wm * RtoC wx)%C = RtoC wz.
Proof. rewrite <- RtoC_mult. f_equal. unfold wm, wx, wz. field. Qed.
Lemma wx_sin : sin wx = 1 /\ cos wx = 0.
Proof.
  assert (E : wx = PI / 2 + 2 * INR 200 * PI) by (unfold wx; replace (INR 200) with 200 by (rewrite INR_IZR_INZ; reflexivity); ring).
  rewrite E, sin_period, cos_period. split; [exact sin_PI2|exact cos_PI2].
Qed.
Lemma wz_sin : sin wz = 0 /\ cos wz = 1.
Proof.
  assert (E : wz = 0 + 2 * INR 400 * PI) by (unfold wz; replace (INR 400) with 400 by (rewrite INR_IZR_INZ; reflexivity); ring).
  rewrite E, sin_period, cos_period. split; [exact sin_0|exact cos_0].
Qed.
Lemma e30_size : @eps30 R ROps <= / 10000.
Proof.
  unfold eps30, rtenth. cbn [ROps rdiv rone rofZ].
  replace (IZR (10 ^ Z.of_nat 30)) with (10 ^ 30) by (rewrite pow_IZR; f_equal; f_equal; reflexivity).
  unfold Rdiv. rewrite Rmult_1_l. apply Rinv_le_contravar; [lra|].
  replace 30%nat with (4 + 26)%nat by reflexivity. rewrite pow_add. assert (1 <= 10 ^ 26) by (apply pow_R1_Rle; lra). generalize dependent (10 ^ 26). intros p Hp. replace (10 ^ 4) with 10000 by (cbn; lra). lra.
Qed.
Lemma Rx : RtoC wx <> RtoC 0. Proof. apply RtoC_neq. unfold wx. pose proof PI_lo. lra. Qed.
Lemma Rz : RtoC wz <> RtoC 0. Proof. apply RtoC_neq. unfold wz. pose proof PI_lo. lra. Qed.

Lemma psi1_z : true_psi 0 (RtoC wz) = RtoC 0 /\ true_psi 1 (RtoC wz) = RtoC (-1).
Proof.
  destruct wz_sin as [S0 C0]. split.
  - rewrite psi0_true by exact Rz. now rewrite Csin_R, S0.
  - unfold true_psi, true_j. cbn [three_term fst]. rewrite Csin_R, Ccos_R, S0, C0. change (-1) with (-(1)). rewrite RtoC_opp. field. exact Rz.
Qed.
Lemma true_b1 : bh_b (RtoC wm) (RtoC wx) 1 = RtoC 1.
Proof.
  destruct psi1_z as [A B]. destruct wx_sin as [S0 C0].
  assert (P0 : true_psi 0 (RtoC wx) = RtoC 1) by (rewrite psi0_true by exact Rx; now rewrite Csin_R, S0).
  assert (Z0 : true_zeta 0 (RtoC wx) = RtoC 1) by (rewrite zeta0_true by exact Rx; rewrite Csin_R, Ccos_R, S0, C0; ring).
  unfold bh_b. rewrite wmx. unfold true_dpsi, true_dzeta. cbn [Nat.sub]. rewrite A, B, P0, Z0. change (INR 1) with 1.
  set (p := true_psi 1 (RtoC wx)). set (q := true_zeta 1 (RtoC wx)).
  assert (M : (RtoC wm / RtoC wz)%C = (/ RtoC wx)%C) by (rewrite <- wmx; field; split; [exact Rx|apply RtoC_neq; unfold wm; lra]).
  assert (G : forall w : C, (RtoC (-1) * (RtoC 1 - RtoC 1 / RtoC wx * w) - RtoC wm * w * (RtoC 0 - RtoC 1 / RtoC wz * RtoC (-1)))%C = RtoC (-1)).
  { intros w. transitivity (RtoC (-1) * (RtoC 1 - RtoC 1 / RtoC wx * w) + RtoC (-1) * w * (RtoC wm / RtoC wz))%C; [field; exact (conj Rz Rx)|]. rewrite M. field. exact Rx. }
  rewrite !G. field. apply RtoC_neq. lra.
Qed.

(** the same coefficient from the code with n_max = 1 *)
Lemma D_z : exists d, @pD1 R ROps 1 15 (RtoC wz) 1 = RtoC d /\ 2 / wz - wz / 135 <= d <= 2 / wz - wz / 142.
Proof.
  pose proof PI_lo. pose proof PI_hi. pose proof e30_size. destruct e30_le1 as [E0 E1].
  destruct (shallow (@eps30 R ROps) wz e30_le1 ltac:(unfold wz; lra) ltac:(unfold wz; nra)) as (d & A & B & _). exists d. split; [exact A|exact B].
Qed.
Lemma D_x : exists d, @pD1 R ROps 1 15 (RtoC wx) 0 = RtoC (1 / wx - 1 / (d + 1 / wx)) /\ 2 / wx - wx / 135 <= d <= 2 / wx - wx / 142.
Proof.
  pose proof PI_lo. pose proof PI_hi. pose proof e30_size. destruct e30_le1 as [E0 E1].
  destruct (shallow (@eps30 R ROps) wx e30_le1 ltac:(unfold wx; lra) ltac:(unfold wx; nra)) as (d & _ & B & A). exists d. split; [exact A|exact B].
Qed.
Lemma code_psi_zeta : exists g, 135 <= g * wx <= 143 /\ @ppsi R ROps 1 15 (RtoC wx) 0 = RtoC 1 /\ @pzeta R ROps 1 15 (RtoC wx) 0 = RtoC 1 /\
  @ppsi R ROps 1 15 (RtoC wx) 1 = RtoC (- g) /\ @pzeta R ROps 1 15 (RtoC wx) 1 = (RtoC (1 / wx) - Ci)%C.
Proof.
  destruct wx_sin as [S0 C0]. destruct D_x as (d & E & B). pose proof PI_lo as Q. pose proof PI_hi as Q'.
  assert (X : 1200 <= wx <= 1700) by (unfold wx; lra).
  assert (P0 : @ppsi R ROps 1 15 (RtoC wx) 0 = RtoC 1).
  { unfold ppsi, pPZ. cbn [psi_zeta_at fst]. toCT. now rewrite Csin_R, S0. }
  assert (Z0 : @pzeta R ROps 1 15 (RtoC wx) 0 = RtoC 1).
  { unfold pzeta, pPZ. cbn [psi_zeta_at snd]. toCT. rewrite Csin_R, Ccos_R, S0, C0. ring. }
  exists (1 / (- (d + 1 / wx))). 
  assert (Hg : @guard R ROps eps30 (RtoC wx) = RtoC wx).
  { apply guard_C. unfold no_guard. rewrite Cmod_R, Rabs_pos_eq by lra. pose proof e30_size. lra. }
  assert (Ix : 0 < / wx <= / 1200) by (split; [apply Rinv_0_lt_compat|apply Rinv_le_contravar]; lra).
  assert (Hd : wx / 142 - 3 / wx <= - (d + 1 / wx) <= wx / 135 - 3 / wx) by (unfold Rdiv in *; lra).
  assert (Hp : 8 <= - (d + 1 / wx)) by (unfold Rdiv in *; lra).
  set (u := - (d + 1 / wx)) in *. assert (U : / u * u = 1) by (apply Rinv_l; lra). assert (Iu : 0 < / u) by (apply Rinv_0_lt_compat; lra).
  assert (V : wx * / wx = 1) by (apply Rinv_r; lra).
  repeat split; try assumption.
  - apply (Rmult_le_reg_r u); [lra|]. unfold Rdiv. rewrite Rmult_1_l. replace (/ u * wx * u) with ((/ u * u) * wx) by ring. rewrite U. unfold Rdiv in Hd. nra.
  - apply (Rmult_le_reg_r u); [lra|]. unfold Rdiv. rewrite Rmult_1_l. replace (/ u * wx * u) with ((/ u * u) * wx) by ring. rewrite U. unfold Rdiv in Hd. nra.
  - assert (E' : @ppsi R ROps 1 15 (RtoC wx) 1 = (@ppsi R ROps 1 15 (RtoC wx) 0 * (Cn 1 / @guard R ROps eps30 (RtoC wx) - @pD1 R ROps 1 15 (RtoC wx) 0))%C) by reflexivity.
    rewrite E', P0, Hg, E. change (INR 1) with 1. rewrite <- RtoC_div, <- RtoC_minus, <- RtoC_mult by lra. f_equal. unfold u. field. split; [lra|]. unfold u in Hp. intros Q2. apply (Rmult_eq_compat_r (/ wx)) in Q2. revert Q2. replace ((d * wx + 1) * / wx) with (d + 1 / wx) by (field; lra). lra.
  - assert (E' : @pzeta R ROps 1 15 (RtoC wx) 1 = (@pzeta R ROps 1 15 (RtoC wx) 0 * (Cn 1 / @guard R ROps eps30 (RtoC wx) - Ci))%C) by reflexivity.
    rewrite E', Z0, Hg. change (INR 1) with 1. rewrite RtoC_div by lra. match goal with |- @eq _ ?a ?b => change (@eq C a b) end. ring.
Qed.
Lemma code_b1 : Cmod (snd (@pena_ab R ROps 1 15 (RtoC wm, RtoC wx) [] 1)) <= / 5.
Proof.
  destruct code_psi_zeta as (g & Hg & P0 & Z0 & P1 & Z1). destruct D_z as (d & E & B). pose proof PI_lo as Q. pose proof PI_hi as Q'.
  assert (X : 1200 <= wx <= 1700) by (unfold wx; lra).
  assert (W : @guard R ROps eps30 (RtoC wx) = RtoC wx).
  { apply guard_C. unfold no_guard. rewrite Cmod_R, Rabs_pos_eq by lra. pose proof e30_size. lra. }
  set (t := wm * d + 1 / wx).
  assert (T : (RtoC wm * RtoC d + RtoC 1 / RtoC wx)%C = RtoC t) by (unfold t; rewrite RtoC_plus, RtoC_mult, RtoC_div by lra; reflexivity).
  assert (Den : (RtoC t * (RtoC (1 / wx) - Ci) - RtoC 1)%C = (t / wx - 1, - t)) by (apply injective_projections; cbn; field; lra).
  assert (Num : (RtoC t * RtoC (- g) - RtoC 1)%C = RtoC (- (t * g) - 1)) by (rewrite <- RtoC_mult, <- RtoC_minus; f_equal; ring).
  assert (Ix : 0 < / wx <= / 1200) by (split; [apply Rinv_0_lt_compat|apply Rinv_le_contravar]; lra).
  assert (Zx : wz = wm * wx) by (unfold wz, wm, wx; field).
  assert (Mw : wm / wz = / wx) by (rewrite Zx; field; split; [lra|unfold wm; lra]).
  assert (Ht : - (wm * wm * wx) / 135 + 3 / wx <= t <= - (wm * wm * wx) / 142 + 3 / wx).
  { assert (H0 : 0 < wm) by (unfold wm; lra). destruct B as [B1 B2]. apply (Rmult_le_compat_l wm) in B1; [|lra]. apply (Rmult_le_compat_l wm) in B2; [|lra].
    assert (F : forall c, c <> 0 -> wm * (2 / wz - wz / c) = 2 * / wx - wm * wm * wx / c) by (intros c Hc; rewrite <- Mw, Zx; field; repeat split; [exact Hc|lra|lra]).
    rewrite F in B1, B2 by lra. unfold t. unfold Rdiv in *. lra. }
  assert (M2 : 398 / 100 <= wm * wm <= 4) by (unfold wm; lra).
  assert (Tn : t <= - 30) by (unfold Rdiv in Ht; nra).
  assert (Tg : - (t * g) <= 45 / 10 /\ 3 <= - (t * g)).
  { assert (Hgw : g = g * wx * / wx) by (field; lra). set (y := g * wx) in *. assert (Y : 0 < y) by lra.
    replace (- (t * g)) with (y * (- t * / wx)) by (rewrite Hgw at 1; unfold y; field; lra).
    assert (R1 : wm * wm / 142 - 1 / 100000 <= - t * / wx <= wm * wm / 135).
    { assert (V : wx * / wx = 1) by (apply Rinv_r; lra). split; apply (Rmult_le_reg_r wx); try lra; replace (- t * / wx * wx) with (- t * (wx * / wx)) by ring; rewrite V; unfold Rdiv in *; nra. }
    unfold Rdiv in R1. split; nra. }
  unfold pena_ab. cbn [pena_H pena_layers last]. unfold pena_H, pena_first, pena_final. cbn [pena_layers fst snd]. cbv zeta. cbn [fst snd].
  toC. rewrite W. change (1 - 1)%nat with 0%nat. rewrite wmx, E, P0, P1, Z0, Z1. change (INR 1) with 1. rewrite T, Den, Num.
  assert (Dn : 30 <= Cmod ((t / wx - 1, - t) : C)).
  { pose proof (Rmax_Cmod ((t / wx - 1, - t) : C)) as R1. cbn [fst snd] in R1. pose proof (Rmax_r (Rabs (t / wx - 1)) (Rabs (- t))) as R2. rewrite (Rabs_pos_eq (- t)) in R1, R2 by lra. lra. }
  rewrite (guard_C (@eps30 R ROps)) by (unfold no_guard; pose proof e30_size; lra).
  rewrite Cmod_div by (apply Cmod_gt_0; lra). rewrite Cmod_R. apply (Rmult_le_reg_r (Cmod ((t / wx - 1, - t) : C))); [lra|]. unfold Rdiv at 1. rewrite Rmult_assoc, Rinv_l by lra.
  rewrite Rabs_pos_eq by lra. lra.
Qed.
Lemma one_order z : 1000 <= z -> @eps30 R ROps * z <= 1 -> exists d, @pD1 R ROps 1 15 (RtoC z) 1 = RtoC d /\ 2 / z - z / 135 <= d <= 2 / z - z / 142.
Proof. intros H1 H2. destruct (shallow (@eps30 R ROps) z e30_le1 H1 H2) as (d & A & B & _). exists d. split; [exact A|exact B]. Qed.
Lemma witness : exists m x : R, 1 < m < 2 /\ 0 < x /\ bh_b (RtoC m) (RtoC x) 1 = RtoC 1 /\ Cmod (snd (@pena_ab R ROps 1 15 (RtoC m, RtoC x) [] 1)) <= / 5.
Proof. exists wm, wx. pose proof PI_lo. split; [unfold wm; lra|]. split; [unfold wx; lra|]. split; [exact true_b1|exact code_b1]. Qed.
