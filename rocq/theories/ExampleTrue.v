(** Concrete arguments satisfying the regularity conditions of ConvergeSpec. *)
From Coq Require Import Reals ZArith Lra Lia Bool List Arith.
From Coquelicot Require Import Coquelicot.
From Verif Require Import Ops ROps Spec CLemmas CTrig ComplexDiff BesselSpec BesselTrue BesselMinimal StackSpec ModelMie PenaProofs StackProofs ConvergeSpec BesselLimits StackConverge.
Import ListNotations.
Open Scope R_scope.

Lemma sin_int z : 0 <= z <= 1 -> z - z ^ 3 / 6 <= sin z <= z - z ^ 3 / 6 + z ^ 5 / 120.
Proof.
  intros Hz. pose proof PI2_1. destruct (sin_bound z 0 ltac:(lra) ltac:(lra)) as [A B].
  assert (E1 : sin_approx z (2 * 0 + 1) = z - z ^ 3 / 6) by (unfold sin_approx, sin_term; simpl; field).
  assert (E2 : sin_approx z (2 * (0 + 1)) = z - z ^ 3 / 6 + z ^ 5 / 120) by (unfold sin_approx, sin_term; simpl; field).
  rewrite <- E2, <- E1. now split.
Qed.
Lemma cos_int z : 0 <= z <= 1 -> 1 - z ^ 2 / 2 <= cos z <= 1 - z ^ 2 / 2 + z ^ 4 / 24.
Proof.
  intros Hz. pose proof PI2_1. destruct (cos_bound z 0 ltac:(lra) ltac:(lra)) as [A B].
  assert (E1 : cos_approx z (2 * 0 + 1) = 1 - z ^ 2 / 2) by (unfold cos_approx, cos_term; simpl; field).
  assert (E2 : cos_approx z (2 * (0 + 1)) = 1 - z ^ 2 / 2 + z ^ 4 / 24) by (unfold cos_approx, cos_term; simpl; field).
  rewrite <- E2, <- E1. now split.
Qed.

(* order 0 and 1 functions at a real argument *)
Section RealArg.
  Variable z : R.
  Hypothesis Hz : 0 < z.
  Let Hc : RtoC z <> 0%C. Proof. apply RtoC_neq. lra. Qed.
  Definition ps1 := sin z / z - cos z.
  Definition ch1 := - (cos z / z) - sin z.
  Definition dps1 := sin z - ps1 / z.
  Definition dch1 := - cos z - ch1 / z.
  Lemma r_psi0 : true_psi 0 (RtoC z) = RtoC (sin z). Proof. now rewrite psi0_true, Csin_R. Qed.
  Lemma r_zeta0 : true_zeta 0 (RtoC z) = (RtoC (sin z) + Ci * RtoC (- cos z))%C.
  Proof. rewrite zeta0_true, Csin_R, Ccos_R, RtoC_opp by exact Hc. ring. Qed.
  Lemma r_psi1 : true_psi 1 (RtoC z) = RtoC ps1.
  Proof.
    unfold true_psi, true_j, ps1. cbn [three_term fst snd]. rewrite Csin_R, Ccos_R, RtoC_minus, RtoC_div by lra. field. exact Hc.
  Qed.
  Lemma r_zeta1 : true_zeta 1 (RtoC z) = (RtoC ps1 + Ci * RtoC ch1)%C.
  Proof.
    unfold true_zeta, true_j, true_y, ps1, ch1. cbn [three_term fst snd].
    rewrite Csin_R, Ccos_R, !RtoC_minus, RtoC_opp, !RtoC_div by lra. field. exact Hc.
  Qed.
  Lemma r_dpsi1 : true_dpsi 1 (RtoC z) = RtoC dps1.
  Proof.
    unfold true_dpsi, dps1. cbn [Nat.sub]. rewrite r_psi0, r_psi1, RtoC_minus, RtoC_div by lra. change (INR 1) with 1. field. exact Hc.
  Qed.
  Lemma r_dzeta1 : true_dzeta 1 (RtoC z) = (RtoC dps1 + Ci * RtoC dch1)%C.
  Proof.
    unfold true_dzeta, dps1, dch1. cbn [Nat.sub]. rewrite r_zeta0, r_zeta1. change (INR 1) with 1.
    rewrite !RtoC_minus, !RtoC_div, RtoC_opp by lra. field. exact Hc.
  Qed.
  Lemma Cmod_im (a b : R) : Rabs b <= Cmod (RtoC a + Ci * RtoC b)%C.
  Proof. pose proof (Rmax_Cmod (RtoC a + Ci * RtoC b)%C) as H. cbn in H. replace (0 + (0 * 0 + 1 * b)) with b in H by ring.
    eapply Rle_trans; [apply Rmax_r|exact H]. Qed.
  Hypothesis Hz1 : z <= 1.
  Lemma ps1_b : z ^ 2 / 3 - z ^ 4 / 24 <= ps1 <= z ^ 2 / 3 + z ^ 4 / 120.
  Proof.
    pose proof (sin_int z ltac:(lra)) as [A B]. pose proof (cos_int z ltac:(lra)) as [C0 D]. unfold ps1.
    assert (E1 : 1 - z ^ 2 / 6 <= sin z / z <= 1 - z ^ 2 / 6 + z ^ 4 / 120); [|lra].
    split; apply (Rmult_le_reg_r z); try lra; unfold Rdiv; rewrite ?Rmult_assoc, ?Rinv_l, ?Rmult_1_r by lra; cbn [pow] in *; nra.
  Qed.
  Lemma sin_pos : z / 2 <= sin z. Proof. pose proof (sin_int z ltac:(lra)) as [A B]. cbn [pow] in A. nra. Qed.
  Lemma cos_pos : 1 / 2 <= cos z. Proof. pose proof (cos_int z ltac:(lra)) as [A B]. cbn [pow] in A. nra. Qed.
  Lemma ch1_b : ch1 <= - (1 / 2).
  Proof.
    unfold ch1. pose proof sin_pos. pose proof cos_pos. assert (1 / 2 <= cos z / z); [|lra].
    apply (Rmult_le_reg_r z); [lra|]. unfold Rdiv at 2. rewrite Rmult_assoc, Rinv_l by lra. nra.
  Qed.
  Lemma e30_small : e30 < / 1000.
  Proof.
    unfold eps30, rtenth. cbn [ROps rdiv rone rofZ].
    replace (IZR (10 ^ Z.of_nat 30)) with (10 ^ 30) by (rewrite pow_IZR; f_equal; f_equal; reflexivity).
    unfold Rdiv. rewrite Rmult_1_l. apply Rinv_lt_contravar; [|].
    - apply Rmult_lt_0_compat; [lra|apply pow_lt; lra].
    - replace 30%nat with (4 + 26)%nat by reflexivity. rewrite pow_add. assert (1 <= 10 ^ 26) by (apply pow_R1_Rle; lra). generalize dependent (10 ^ 26). intros p Hp. replace (10 ^ 4) with 10000 by (cbn; lra). lra.
  Qed.
  Lemma real_regular : / 10 <= z -> z < 1 -> regular_arg e30 (RtoC z) 1.
  Proof.
    intros Hz2 Hz3. pose proof e30_small as E. pose proof e30_pos as E0. pose proof ps1_b as [P1 P2]. pose proof sin_pos as S. pose proof ch1_b as H1.
    replace (z ^ 4) with (z ^ 2 * z ^ 2) in P1, P2 by ring.
    assert (W1 : / 100 <= z ^ 2) by (cbn [pow]; nra). assert (W2 : z ^ 2 <= 1) by (cbn [pow]; nra).
    assert (Hp : / 400 <= ps1) by nra. assert (Hp2 : ps1 <= 1) by nra. clear P1 P2 W1 W2.
    split; [split|].
    - rewrite Cmod_R, Rabs_pos_eq by lra. lra.
    - intros k Hk HI. rewrite Cmod_R, Rabs_pos_eq in HI by lra.
      assert (k = 1)%nat as ->. { assert (INR k < INR 2) by (change (INR 2) with 2; lra). apply INR_lt in H. lia. }
      cbn [Nat.sub]. rewrite r_psi1, r_psi0, !Cmod_R, !Rabs_pos_eq by lra. nra.
    - intros j Hj. assert (j = 1)%nat as -> by lia. rewrite r_psi1, r_zeta1, Cmod_mult, Cmod_R, Rabs_pos_eq by lra.
      pose proof (Cmod_im ps1 ch1) as Q. rewrite Rabs_left in Q by lra. nra.
  Qed.
  Lemma r_L1 : ps1 <> 0 -> true_L1 1 (RtoC z) = RtoC (dps1 / ps1).
  Proof.
    intros Hp. assert (Hpc : RtoC ps1 <> 0%C) by now apply RtoC_neq.
    unfold true_L1. rewrite true_psi_rec, r_psi1, r_psi0. unfold dps1. rewrite RtoC_div by exact Hp. rewrite RtoC_minus, RtoC_div by lra.
    nrm. field. auto.
  Qed.
End RealArg.

(* homogeneous sphere, relative index 3/2, size parameter 1/2 *)
Example bh_regular : regular_stack e30 (RtoC (3 / 2), RtoC (1 / 2)) [] 1.
Proof.
  assert (Ez : (RtoC (3 / 2) * RtoC (1 / 2))%C = RtoC (3 / 4)) by (rewrite <- RtoC_mult; f_equal; lra).
  unfold regular_stack, exact_first. cbn [last exact_layers fst snd regular_layers]. rewrite Ez.
  split; [apply real_regular; lra|]. split; [exact I|].
  split; cbn [fst snd]; [apply real_regular; lra|].
  pose proof (ps1_b (3 / 4) ltac:(lra) ltac:(lra)) as [P1 P2]. cbn [pow] in P1, P2.
  rewrite r_L1, r_zeta1, r_dzeta1 by lra.
  assert (Hd : 0 <= dps1 (3 / 4)).
  { unfold dps1. pose proof (sin_pos (3 / 4) ltac:(lra) ltac:(lra)). lra. }
  set (L := dps1 (3 / 4) / ps1 (3 / 4)). assert (HL : 0 <= L) by (apply Rdiv_le_0_compat; lra).
  pose proof (ch1_b (1 / 2) ltac:(lra) ltac:(lra)) as H1.
  assert (H2 : 0 <= dch1 (1 / 2)).
  { unfold dch1. pose proof (COS_bound (1 / 2)). lra. }
  pose proof e30_small as E.
  assert (G : forall h, 0 <= h -> 0 < h -> e30 < Cmod (RtoC h * (RtoC (ps1 (1 / 2)) + Ci * RtoC (ch1 (1 / 2))) - (RtoC (dps1 (1 / 2)) + Ci * RtoC (dch1 (1 / 2))))%C \/ h * (1 / 2) + dch1 (1 / 2) <= e30).
  { intros h Hh Hh'. destruct (Rle_dec (h * (1 / 2) + dch1 (1 / 2)) e30) as [|Hn]; [now right|left].
    replace (RtoC h * (RtoC (ps1 (1 / 2)) + Ci * RtoC (ch1 (1 / 2))) - (RtoC (dps1 (1 / 2)) + Ci * RtoC (dch1 (1 / 2))))%C
      with (RtoC (h * ps1 (1 / 2) - dps1 (1 / 2)) + Ci * RtoC (h * ch1 (1 / 2) - dch1 (1 / 2)))%C
      by (rewrite !RtoC_minus, !RtoC_mult; ring).
    eapply Rlt_le_trans; [|apply Cmod_im]. rewrite Rabs_left1; nra. }
  assert (H3 : / 10 <= dch1 (1 / 2)).
  { unfold dch1, ch1. pose proof (cos_pos (1 / 2) ltac:(lra) ltac:(lra)). pose proof (sin_pos (1 / 2) ltac:(lra) ltac:(lra)). lra. }
  rewrite <- RtoC_div, <- RtoC_mult by lra.
  assert (HLp : 0 < L). { apply Rdiv_lt_0_compat; [|lra]. unfold dps1. pose proof (sin_pos (3 / 4) ltac:(lra) ltac:(lra)). lra. }
  split.
  - destruct (G (L / (3 / 2)) ltac:(lra) ltac:(lra)) as [K|K]; [exact K|lra].
  - destruct (G (3 / 2 * L) ltac:(lra) ltac:(lra)) as [K|K]; [exact K|lra].
Qed.

(** ** a genuinely layered sphere: core index 3, size 1/4; shell index 3/2, size 1/2 *)
Section TwoLayer.
  Variables (zp zc : R).
  Hypotheses (Hp : / 10 <= zp < 1) (Hc : / 10 <= zc < 1).
  Lemma nz_ps (z : R) : / 10 <= z < 1 -> 0 < ps1 z.
  Proof.
    intros H. pose proof (ps1_b z ltac:(lra) ltac:(lra)) as [P1 _]. replace (z ^ 4) with (z ^ 2 * z ^ 2) in P1 by ring.
    assert (0 < z ^ 2 <= 1) by (cbn [pow]; nra). nra.
  Qed.
  Lemma L1_real z : / 10 <= z < 1 -> (true_L1 1 (RtoC z) * RtoC (ps1 z))%C = RtoC (dps1 z).
  Proof.
    intros H. rewrite <- (r_psi1 z), <- (r_dpsi1 z) by lra.
    symmetry. apply (a_dpsi _ 1); [apply real_regular; lra|lia].
  Qed.
  Lemma L3_real z : / 10 <= z < 1 -> (true_L3 1 (RtoC z) * (RtoC (ps1 z) + Ci * RtoC (ch1 z)))%C = (RtoC (dps1 z) + Ci * RtoC (dch1 z))%C.
  Proof.
    intros H. rewrite <- (r_zeta1 z), <- (r_dzeta1 z) by lra.
    symmetry. apply (a_dzeta _ 1); [apply real_regular; lra|lia].
  Qed.
  Definition XX (u v h : R) := u * h * ch1 zp - v * dch1 zp.
  Definition YY (u v h : R) := u * h * ps1 zp - v * dps1 zp.
  Let zt := (RtoC (ps1 zp) + Ci * RtoC (ch1 zp))%C.
  Lemma zt_nz : zt <> 0%C.
  Proof. apply Cmod_gt_0. pose proof (Cmod_im (ps1 zp) (ch1 zp)) as Q. pose proof (ch1_b zp ltac:(lra) ltac:(lra)). rewrite Rabs_left in Q by lra. fold zt in Q. lra. Qed.
  Lemma den_real (u v h : R) : (exact_den (RtoC u) (RtoC v) (RtoC h) (RtoC zp) (RtoC zc) 1 * (zt * RtoC (ps1 zc)))%C
     = (Ci * RtoC (XX u v h * ps1 zc - YY u v h * ch1 zc))%C.
  Proof.
    unfold exact_den, true_Q. rewrite !r_psi1, !r_zeta1 by lra. fold zt.
    pose proof (L1_real zp Hp) as E1. pose proof (L3_real zp Hp) as E3. fold zt in E3.
    pose proof zt_nz. assert (RtoC (ps1 zc) <> 0%C) by (apply RtoC_neq; pose proof (nz_ps zc Hc); lra).
    transitivity ((RtoC u * RtoC h * zt - RtoC v * (true_L3 1 (RtoC zp) * zt)) * RtoC (ps1 zc)
       - (RtoC u * RtoC h * RtoC (ps1 zp) - RtoC v * (true_L1 1 (RtoC zp) * RtoC (ps1 zp))) * (RtoC (ps1 zc) + Ci * RtoC (ch1 zc)))%C.
    - field. auto.
    - rewrite E1, E3. unfold XX, YY, zt. rewrite !RtoC_minus, !RtoC_mult, !RtoC_minus, !RtoC_mult. ring.
  Qed.
  Lemma num_real (u v h : R) : (exact_num (RtoC u) (RtoC v) (RtoC h) (RtoC zp) (RtoC zc) 1 * (zt * RtoC (ps1 zc)))%C
     = (Ci * RtoC (XX u v h * dps1 zc - YY u v h * dch1 zc))%C.
  Proof.
    unfold exact_num, true_Q. rewrite !r_psi1, !r_zeta1 by lra. fold zt.
    pose proof (L1_real zp Hp) as E1. pose proof (L3_real zp Hp) as E3. fold zt in E3.
    pose proof (L1_real zc Hc) as F1. pose proof (L3_real zc Hc) as F3.
    pose proof zt_nz. assert (RtoC (ps1 zc) <> 0%C) by (apply RtoC_neq; pose proof (nz_ps zc Hc); lra).
    transitivity ((RtoC u * RtoC h * zt - RtoC v * (true_L3 1 (RtoC zp) * zt)) * (true_L1 1 (RtoC zc) * RtoC (ps1 zc))
       - (RtoC u * RtoC h * RtoC (ps1 zp) - RtoC v * (true_L1 1 (RtoC zp) * RtoC (ps1 zp))) * (true_L3 1 (RtoC zc) * (RtoC (ps1 zc) + Ci * RtoC (ch1 zc))))%C.
    - field. auto.
    - rewrite E1, E3, F1, F3. unfold XX, YY, zt. rewrite !RtoC_minus, !RtoC_mult, !RtoC_minus, !RtoC_mult. ring.
  Qed.
  Definition hnext (u v h : R) := (XX u v h * dps1 zc - YY u v h * dch1 zc) / (XX u v h * ps1 zc - YY u v h * ch1 zc).
  Lemma next_real (u v h : R) : XX u v h * ps1 zc - YY u v h * ch1 zc <> 0 ->
    (exact_num (RtoC u) (RtoC v) (RtoC h) (RtoC zp) (RtoC zc) 1 / exact_den (RtoC u) (RtoC v) (RtoC h) (RtoC zp) (RtoC zc) 1)%C = RtoC (hnext u v h).
  Proof.
    intros Hd. pose proof (den_real u v h) as Ed. pose proof (num_real u v h) as En. pose proof zt_nz as Hz.
    assert (Hpc : RtoC (ps1 zc) <> 0%C) by (apply RtoC_neq; pose proof (nz_ps zc Hc); lra).
    unfold hnext. rewrite RtoC_div by exact Hd.
    set (d := exact_den _ _ _ _ _ _) in *. set (nn := exact_num _ _ _ _ _ _) in *.
    set (dr := XX u v h * ps1 zc - YY u v h * ch1 zc) in *. set (nr := XX u v h * dps1 zc - YY u v h * dch1 zc) in *.
    assert (Hdr : RtoC dr <> 0%C) by now apply RtoC_neq.
    set (w := (zt * RtoC (ps1 zc))%C) in *. assert (Hw : w <> 0%C) by now apply Cmult_neq_0.
    assert (Hd0 : d <> 0%C).
    { intros E. rewrite E, Cmult_0_l in Ed. apply (Cmult_neq_0 Ci (RtoC dr)); [apply Ci_neq0|exact Hdr|now symmetry]. }
    apply Cdiv_eq; [exact Hd0|]. apply (Cmult_eq_reg_l w); [exact Hw|].
    transitivity (nn * w)%C; [ring|]. rewrite En.
    transitivity (RtoC nr / RtoC dr * (d * w))%C; [rewrite Ed; field; exact Hdr|ring].
  Qed.
  Lemma den_mod (u v h c : R) : c * (Cmod zt * ps1 zc) < Rabs (XX u v h * ps1 zc - YY u v h * ch1 zc) ->
    c < Cmod (exact_den (RtoC u) (RtoC v) (RtoC h) (RtoC zp) (RtoC zc) 1).
  Proof.
    intros H. pose proof (den_real u v h) as Ed. apply (f_equal Cmod) in Ed. pose proof (nz_ps zc Hc).
    rewrite !Cmod_mult, !Cmod_R, (Rabs_pos_eq (ps1 zc)) in Ed by lra.
    replace (Cmod Ci) with 1 in Ed by (unfold Cmod; cbn; rewrite <- sqrt_1 at 1; f_equal; ring).
    assert (0 < Cmod zt) by apply (Cmod_gt_0 zt), zt_nz.
    assert (0 < Cmod zt * ps1 zc) by nra.
    apply (Rmult_lt_reg_r (Cmod zt * ps1 zc)); [assumption|]. lra.
  Qed.
End TwoLayer.

Lemma num38 : 0.04 <= ps1 (3/8) <= 0.05 /\ -2.9 <= ch1 (3/8) <= -2.8 /\ 0.23 <= dps1 (3/8) <= 0.26 /\ 6.5 <= dch1 (3/8) <= 6.9.
Proof.
  pose proof (sin_int (3/8) ltac:(lra)) as [A B]. pose proof (cos_int (3/8) ltac:(lra)) as [D E]. cbn [pow] in *.
  unfold dps1, dch1, ps1, ch1. repeat split; lra.
Qed.
Lemma num34 : 0.17 <= ps1 (3/4) <= 0.2 /\ -1.7 <= ch1 (3/4) <= -1.6 /\ 0.42 <= dps1 (3/4) <= 0.46 /\ 1.3 <= dch1 (3/4) <= 1.6.
Proof.
  pose proof (sin_int (3/4) ltac:(lra)) as [A B]. pose proof (cos_int (3/4) ltac:(lra)) as [D E]. cbn [pow] in *.
  unfold dps1, dch1, ps1, ch1. repeat split; lra.
Qed.
Lemma num12 : -2.3 <= ch1 (1/2) <= -2.2 /\ 3 <= dch1 (1/2) <= 4.
Proof.
  pose proof (sin_int (1/2) ltac:(lra)) as [A B]. pose proof (cos_int (1/2) ltac:(lra)) as [D E]. cbn [pow] in *.
  unfold dch1, ch1. repeat split; lra.
Qed.

Example layered_regular : regular_stack e30 (RtoC 3, RtoC (1 / 4)) [(RtoC (3 / 2), RtoC (1 / 2))] 1.
Proof.
  assert (Ea : (RtoC 3 * RtoC (1 / 4))%C = RtoC (3 / 4)) by (rewrite <- RtoC_mult; f_equal; lra).
  assert (Ep : (RtoC (3 / 2) * RtoC (1 / 4))%C = RtoC (3 / 8)) by (rewrite <- RtoC_mult; f_equal; lra).
  assert (Ec : (RtoC (3 / 2) * RtoC (1 / 2))%C = RtoC (3 / 4)) by (rewrite <- RtoC_mult; f_equal; lra).
  destruct num38 as (A1 & A2 & A3 & A4). destruct num34 as (B1 & B2 & B3 & B4). destruct num12 as (C2 & C4).
  pose proof e30_small as E. pose proof e30_pos as E0.
  set (h := dps1 (3 / 4) / ps1 (3 / 4)).
  assert (Hh : 2.1 <= h <= 2.8).
  { split; apply (Rmult_le_reg_r (ps1 (3 / 4))); try lra; unfold h, Rdiv; rewrite Rmult_assoc, Rinv_l by lra; lra. }
  assert (XY : forall u v, (u = 3 / 2 /\ v = 3) \/ (u = 3 /\ v = 3 / 2) ->
     -60 <= XX (3 / 8) u v h <= -18 /\ -1 <= YY (3 / 8) u v h <= 1).
  { intros u v Huv. unfold XX, YY.
    assert (h * ch1 (3 / 8) <= - 5.8 /\ - 9 <= h * ch1 (3 / 8)) by nra.
    assert (h * ps1 (3 / 8) <= 0.14 /\ 0.08 <= h * ps1 (3 / 8)) by nra.
    rewrite !Rmult_assoc. destruct Huv as [[-> ->]|[-> ->]]; lra. }
  assert (DEN : forall u v, (u = 3 / 2 /\ v = 3) \/ (u = 3 /\ v = 3 / 2) ->
     XX (3 / 8) u v h * ps1 (3 / 4) - YY (3 / 8) u v h * ch1 (3 / 4) <= -1 /\
     XX (3 / 8) u v h * dps1 (3 / 4) - YY (3 / 8) u v h * dch1 (3 / 4) <= -1).
  { intros u v Huv. destruct (XY u v Huv) as [X Y].
    assert (XX (3 / 8) u v h * ps1 (3 / 4) <= -18 * 0.17) by nra.
    assert (- 1.7 <= YY (3 / 8) u v h * ch1 (3 / 4)) by nra.
    assert (XX (3 / 8) u v h * dps1 (3 / 4) <= -18 * 0.42) by nra.
    assert (- 1.6 <= YY (3 / 8) u v h * dch1 (3 / 4)) by nra. lra. }
  assert (ZT : Cmod (RtoC (ps1 (3 / 8)) + Ci * RtoC (ch1 (3 / 8)))%C <= 5).
  { eapply Rle_trans; [apply Cmod_le_abs|]. cbn. rewrite Rabs_pos_eq by lra. rewrite Rabs_left by lra. lra. }
  pose proof (Cmod_ge_0 (RtoC (ps1 (3 / 8)) + Ci * RtoC (ch1 (3 / 8)))%C) as ZT0.
  assert (EL : true_L1 1 (RtoC (3 / 4)) = RtoC h) by (apply r_L1; lra).
  unfold regular_stack, exact_first, regular_layers, exact_layers, exact_layer, regular_layer.
  cbn [last fst snd]. rewrite Ea, Ep, Ec, EL.
  split; [apply real_regular; lra|]. split; [split; [|exact I]|].
  - split; [apply real_regular; lra|]. split; [apply real_regular; lra|]. split; [|split].
    + split; [|split].
      * rewrite Cmod_R, Rabs_pos_eq by lra. lra.
      * replace (Cexp (- RtoC 2 * Ci * RtoC (fst (RtoC (3 / 4))))%C - RtoC (exp (-2 * snd (RtoC (3 / 4)))))%C
          with (RtoC (cos (3 / 2) - 1) + Ci * RtoC (- sin (3 / 2)))%C.
        2:{ cbn [fst snd RtoC]. rewrite Rmult_0_r, exp_0. apply C_eq; unfold Cexp; cbn.
            - replace (-2 * 0 - - 0 * 1) with 0 by ring. rewrite <- (cos_neg (3 / 2)).
              match goal with |- _ = exp ?a * cos ?b + _ => replace a with 0 by field; replace b with (- (3 / 2)) by field end. rewrite exp_0. ring.
            - rewrite <- sin_neg.
              match goal with |- _ = exp ?a * sin ?b + _ => replace a with 0 by field; replace b with (- (3 / 2)) by field end. rewrite exp_0. ring. }
        eapply Rle_trans; [|apply Cmod_im]. rewrite Rabs_Ropp.
        replace (3 / 2) with (2 * (3 / 4)) by lra. rewrite sin_2a.
        pose proof (sin_pos (3 / 4) ltac:(lra) ltac:(lra)). pose proof (cos_pos (3 / 4) ltac:(lra) ltac:(lra)).
        rewrite Rabs_pos_eq by nra. nra.
      * intros j Hj. assert (j = 1)%nat as -> by lia. cbn [Nat.sub]. rewrite L3_0 by (apply RtoC_neq; lra).
        rewrite r_L1 by lra. rewrite <- RtoC_mult. change (INR 1) with 1. rewrite <- RtoC_plus, Cmod_mult, Cmod_R.
        assert (K : 1 <= 3 / 8 * (dps1 (3 / 8) / ps1 (3 / 8)) + 1).
        { assert (0 <= dps1 (3 / 8) / ps1 (3 / 8)) by (apply Rdiv_le_0_compat; lra). lra. }
        rewrite Rabs_pos_eq by lra.
        assert (1 <= Cmod (RtoC 1 - RtoC (3 / 8) * Ci)%C).
        { pose proof (Rmax_Cmod (RtoC 1 - RtoC (3 / 8) * Ci)%C) as Q. eapply Rle_trans; [|exact Q]. eapply Rle_trans; [|apply Rmax_l].
          cbn. rewrite Rabs_pos_eq; lra. }
        nra.
    + apply den_mod; try lra. destruct (DEN (3 / 2) 3 ltac:(left; lra)) as [D1 D2]. rewrite Rabs_left by lra. apply Rle_lt_trans with (/ 1000 * 1); [apply Rmult_le_compat; nra|lra].
    + apply den_mod; try lra. destruct (DEN 3 (3 / 2) ltac:(right; lra)) as [D1 D2]. rewrite Rabs_left by lra. apply Rle_lt_trans with (/ 1000 * 1); [apply Rmult_le_compat; nra|lra].
  - destruct (DEN (3 / 2) 3 ltac:(left; lra)) as [D1 D2]. destruct (DEN 3 (3 / 2) ltac:(right; lra)) as [D3 D4].
    rewrite !next_real by lra.
    set (ha := hnext (3 / 8) (3 / 4) (3 / 2) 3 h). set (hb := hnext (3 / 8) (3 / 4) 3 (3 / 2) h).
    assert (Ha : 0 < ha) by (unfold ha, hnext; set (a := XX _ _ _ _ * dps1 _ - _) in *; set (b := XX _ _ _ _ * ps1 _ - _) in *;
        replace (a / b) with ((- a) / (- b)) by (field; lra); apply Rdiv_lt_0_compat; lra).
    assert (Hb : 0 < hb) by (unfold hb, hnext; set (a := XX _ 3 _ _ * dps1 _ - _) in *; set (b := XX _ 3 _ _ * ps1 _ - _) in *;
        replace (a / b) with ((- a) / (- b)) by (field; lra); apply Rdiv_lt_0_compat; lra).
    split; cbn [fst snd]; [apply real_regular; lra|]. rewrite r_zeta1, r_dzeta1 by lra.
    rewrite <- RtoC_div, <- RtoC_mult by lra.
    assert (G : forall g, 0 < g -> e30 < Cmod (RtoC g * (RtoC (ps1 (1 / 2)) + Ci * RtoC (ch1 (1 / 2))) - (RtoC (dps1 (1 / 2)) + Ci * RtoC (dch1 (1 / 2))))%C).
    { intros g Hg.
      replace (RtoC g * (RtoC (ps1 (1 / 2)) + Ci * RtoC (ch1 (1 / 2))) - (RtoC (dps1 (1 / 2)) + Ci * RtoC (dch1 (1 / 2))))%C
        with (RtoC (g * ps1 (1 / 2) - dps1 (1 / 2)) + Ci * RtoC (g * ch1 (1 / 2) - dch1 (1 / 2)))%C
        by (rewrite !RtoC_minus, !RtoC_mult; ring).
      eapply Rlt_le_trans; [|apply Cmod_im]. rewrite Rabs_left1; nra. }
    split; apply G; [apply Rdiv_lt_0_compat; lra|nra].
Qed.
