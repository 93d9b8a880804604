(** Inputs for the instances of C104: a homogeneous sphere of index 3/2 and
    size parameter 1/2, cut at 1/4 and 1/8. *)
From Coq Require Import Reals Lra Lia List Arith Bool.
From Coquelicot Require Import Coquelicot.
From Verif Require Import Ops ROps Spec StackSpec CLemmas CTrig ModelSpecial ModelMie PenaProofs QuietSpec StackProofs StackConsequences ExampleStack ModelNear NearSpec NearField.
Import ListNotations.
Open Scope R_scope.

Section At.
  Variable z : R.
  Hypothesis Hz : 1 / 8 <= z <= 3 / 4.
  Notation D1 := (@pD1 R ROps 1 15).
  Notation D3 := (@pD3 R ROps 1 15).
  Notation psi := (@ppsi R ROps 1 15).
  Notation zeta := (@pzeta R ROps 1 15).
  Lemma inv_z : 4 / 3 <= 1 / z <= 8.
  Proof. split; apply (Rmult_le_reg_r z); try lra; replace (1 / z * z) with 1 by (field; lra); lra. Qed.
  Lemma at_z : exists d, D1 (RtoC z) 1 = RtoC d /\ 0 <= d /\ quiet_arg 1 15 (RtoC z) 1 /\ psi (RtoC z) 1 = RtoC (sin z / (d + 1 / z)) /\ Cmod (zeta (RtoC z) 1) = sqrt (1 + 1 / z * (1 / z)).
  Proof.
    pose proof inv_z as W. set (lo := 2 / z - 1 / (5 / z - z / 3)). set (hi := 2 / z - z / 5).
    assert (E2 : 2 / z = 2 * (1 / z)) by (field; lra). assert (E5 : 5 / z = 5 * (1 / z)) by (field; lra).
    assert (K : 0 < 1 / (5 / z - z / 3) <= 1).
    { assert (U : 1 <= 5 / z - z / 3) by lra. revert U. generalize (5 / z - z / 3). intros u U. split; [apply Rdiv_lt_0_compat; lra|]. apply (Rmult_le_reg_r u); [lra|]. replace (1 / u * u) with 1 by (field; lra). lra. }
    destruct (facts_at z lo hi) as (d & H1 & H2 & H3 & H4 & H5); try reflexivity; unfold lo, hi in *; try lra.
    exists d. split; [exact H1|]. split; [lra|]. auto.
  Qed.
  Lemma products : 1 <= Cmod (zeta (RtoC z) 1 * (D1 (RtoC z) 1 - D3 (RtoC z) 1))%C /\ 1 / 10 <= Cmod (psi (RtoC z) 1 * (D1 (RtoC z) 1 - D3 (RtoC z) 1))%C /\ 1 / 10 <= Cmod (D1 (RtoC z) 1 - D3 (RtoC z) 1)%C.
  Proof.
    destruct at_z as (d & E & Hd & Q & Ep & Ez). pose proof inv_z as W0. destruct (arg_facts 1 15 (RtoC z) 1 ltac:(lia) Q) as (_ & Np & Nz & W).
    assert (C1 : Cmod Ci = 1) by (unfold Cmod; simpl; replace (0 * (0 * 1) + 1 * (1 * 1)) with 1 by ring; apply sqrt_1).
    assert (Q1 : (zeta (RtoC z) 1 * (D1 (RtoC z) 1 - D3 (RtoC z) 1))%C = (- (Ci / psi (RtoC z) 1))%C) by (rewrite <- W; field; exact Np).
    assert (Q2 : (psi (RtoC z) 1 * (D1 (RtoC z) 1 - D3 (RtoC z) 1))%C = (- (Ci / zeta (RtoC z) 1))%C) by (rewrite <- W; field; exact Nz).
    pose proof (proj1 (Cmod_gt_0 _) Np) as G1. pose proof (proj1 (Cmod_gt_0 _) Nz) as G2.
    assert (P1 : Cmod (psi (RtoC z) 1) <= 1).
    { rewrite Ep. pose proof (sin_bounds_lem z ltac:(lra)) as [S1 S2]. assert (z * z <= 1) by nra. assert (0 < sin z) by nra.
      rewrite Cmod_Rp by (apply Rlt_le, Rdiv_lt_0_compat; lra). apply (Rmult_le_reg_r (d + 1 / z)); [lra|]. unfold Rdiv at 1. rewrite Rmult_assoc, Rinv_l by lra. lra. }
    assert (Z1 : Cmod (zeta (RtoC z) 1) <= 10).
    { rewrite Ez. rewrite <- (sqrt_square 10) by lra. apply sqrt_le_1_alt. nra. }
    assert (R1 : 1 <= Cmod (zeta (RtoC z) 1 * (D1 (RtoC z) 1 - D3 (RtoC z) 1))%C).
    { rewrite Q1, Cmod_opp, Cmod_div, C1 by exact Np. apply (Rmult_le_reg_r (Cmod (psi (RtoC z) 1))); [lra|]. replace (1 / Cmod (psi (RtoC z) 1) * Cmod (psi (RtoC z) 1)) with 1 by (field; lra). lra. }
    assert (R2 : 1 / 10 <= Cmod (psi (RtoC z) 1 * (D1 (RtoC z) 1 - D3 (RtoC z) 1))%C).
    { rewrite Q2, Cmod_opp, Cmod_div, C1 by exact Nz. apply (Rmult_le_reg_r (Cmod (zeta (RtoC z) 1))); [lra|]. replace (1 / Cmod (zeta (RtoC z) 1) * Cmod (zeta (RtoC z) 1)) with 1 by (field; lra). lra. }
    split; [exact R1|]. split; [exact R2|]. rewrite Cmod_mult in R1. pose proof (Cmod_ge_0 (D1 (RtoC z) 1 - D3 (RtoC z) 1)%C). nra.
  Qed.
  Lemma step_z (m x : C) : (m * x)%C = RtoC z -> quiet_step 1 15 m x 1.
  Proof. intros E. unfold quiet_step. rewrite E. destruct products as (P1 & P2 & _). split; [apply (no_guard_re _ 1)|apply (no_guard_re _ (1/10))]; try lra; assumption. Qed.
End At.

Section Pair.
  (* sphere of index 3/2, layers ending at size parameters x1 < x2 *)
  Variables x1 x2 : R.
  Hypothesis H1 : 1 / 12 <= x1.
  Hypothesis H12 : x1 <= x2 <= 1 / 2.
  Notation D1 := (@pD1 R ROps 1 15).
  Notation D3 := (@pD3 R ROps 1 15).
  Notation l1 := (RtoC (3/2), RtoC x1).
  Notation l2 := (RtoC (3/2), RtoC x2).
  Notation H0 := (D1 (RtoC (3/2 * x1)) 1, D1 (RtoC (3/2 * x1)) 1).
  Lemma ratio_ok : quiet_ratio 1 15 (RtoC (3/2 * x1)) (RtoC (3/2 * x2)) (RtoC x2) 1.
  Proof.
    split; [|split].
    - apply (no_guard_re _ (1/12)); [lra|]. rewrite Cmod_Rp; lra.
    - apply (no_guard_re _ (1/10)); [lra|]. eapply Rle_trans; [|apply Cmod_ge_im]. unfold Cexp. cbn [fst snd RtoC Cmult Copp Cminus Cplus Ci].
      match goal with |- context [sin ?t] => replace t with (- (3 * x2)) by lra end.
      match goal with |- context [exp ?t * sin _] => replace t with 0 by lra end. rewrite exp_0, sin_neg.
      assert (1 / 10 <= sin (3 * x2)).
      { replace (3 * x2) with (2 * (3/2 * x2)) by lra. rewrite sin_2a. pose proof (sin_bounds_lem (3/2 * x2) ltac:(lra)) as [B _].
        assert (C0 : 1 / 2 <= cos (3/2 * x2)).
        { pose proof (cos_bound (3/2 * x2) 0 ltac:(pose proof PI2_1; lra) ltac:(pose proof PI2_1; lra)) as [Bc _]. unfold cos_approx, cos_term in Bc. simpl in Bc. nra. }
        assert (1 / 10 <= sin (3/2 * x2)) by nra. nra. }
      rewrite Rabs_left; lra.
    - intros j Hj. assert (j = 1%nat) as -> by lia. destruct (at_z (3/2 * x1) ltac:(lra)) as (d & E & B & _). rewrite E. change (1 - 1)%nat with 0%nat.
      change (D3 (RtoC (3/2 * x1)) 0) with Ci. change (INR 1) with 1. apply (no_guard_re _ 1); [lra|]. rewrite Cmod_mult. replace 1 with (1 * 1) at 1 by ring. apply Rmult_le_compat; try lra.
      + rewrite <- RtoC_mult, <- RtoC_plus, Cmod_Rp; nra.
      + eapply Rle_trans; [|apply Cmod_ge_re]. simpl. rewrite Rabs_pos_eq; lra.
  Qed.
  Lemma Z1 : (RtoC (3/2) * RtoC x1)%C = RtoC (3/2 * x1). Proof. now rewrite RtoC_mult. Qed.
  Lemma Z2 : (RtoC (3/2) * RtoC x2)%C = RtoC (3/2 * x2). Proof. now rewrite RtoC_mult. Qed.
  Lemma pair_quiet : quiet_layer 1 15 l1 l2 H0 1.
  Proof.
    unfold quiet_layer. cbn [fst snd]. rewrite Z1, Z2. destruct (at_z (3/2 * x1) ltac:(lra)) as (_ & _ & _ & Q1 & _). destruct (at_z (3/2 * x2) ltac:(lra)) as (_ & _ & _ & Q2 & _).
    split; [exact Q1|]. split; [exact Q2|]. split; [exact ratio_ok|]. destruct (products (3/2 * x1) ltac:(lra)) as (_ & _ & P).
    assert (K : forall q : C, (RtoC (3/2) * D1 (RtoC (3/2 * x1)) 1 - RtoC (3/2) * D3 (RtoC (3/2 * x1)) 1 - q * (RtoC (3/2) * D1 (RtoC (3/2 * x1)) 1 - RtoC (3/2) * D1 (RtoC (3/2 * x1)) 1))%C
      = (RtoC (3/2) * (D1 (RtoC (3/2 * x1)) 1 - D3 (RtoC (3/2 * x1)) 1))%C) by (intros q; ring).
    rewrite !K. split; (apply (no_guard_re _ (1/10)); [lra|]); rewrite Cmod_mult, Cmod_Rp by lra; lra.
  Qed.
  Lemma pair_H : @pena_layer R ROps 1 15 l1 l2 H0 1 = (D1 (RtoC (3/2 * x2)) 1, D1 (RtoC (3/2 * x2)) 1).
  Proof.
    apply eq_by_sel. intros tm. destruct (layer_H 1 15 tm l1 l2 H0 1 pair_quiet) as [Hn ->]. destruct tm; cbn [uu vv sel fst snd] in *; rewrite Z1, Z2 in *;
      match goal with |- ((?a * ?b - ?q * ?g * ?d3) / ?den)%C = _ => replace g with (RtoC 0) in * by ring end; field; intros K; apply Hn; rewrite K; ring.
  Qed.
End Pair.

(* the three-layer, two-layer and one-layer descriptions of the same sphere *)
Notation cut x := (RtoC (3/2), RtoC x).
Lemma first_H x : @pena_first R ROps 1 15 (cut x) 1 = (@pD1 R ROps 1 15 (RtoC (3/2 * x)) 1, @pD1 R ROps 1 15 (RtoC (3/2 * x)) 1).
Proof. unfold pena_first. cbn [fst snd]. toC. rewrite <- RtoC_mult. reflexivity. Qed.
Lemma two_quiet x : 1 / 12 <= x <= 1 / 2 -> quiet_stack 1 15 (cut x) [cut (1/2)] 1.
Proof.
  intros Hx. destruct ex_homog_quiet as (_ & _ & F). unfold quiet_stack. cbn [fst snd]. rewrite Z1. destruct (at_z (3/2 * x) ltac:(lra)) as (_ & _ & _ & Q & _).
  split; [exact Q|]. rewrite first_H. split; [split; [apply pair_quiet; lra|exact I]|].
  unfold pena_H in *. cbn [pena_layers last] in *. rewrite first_H in F |- *. rewrite pair_H by lra. exact F.
Qed.
Lemma three_quiet x y : 1 / 12 <= x <= y -> y <= 1 / 2 -> quiet_stack 1 15 (cut x) [cut y; cut (1/2)] 1.
Proof.
  intros Hx Hy. destruct ex_homog_quiet as (_ & _ & F). unfold quiet_stack. cbn [fst snd]. rewrite Z1. destruct (at_z (3/2 * x) ltac:(lra)) as (_ & _ & _ & Q & _).
  split; [exact Q|]. rewrite first_H. split; [split; [apply pair_quiet; lra|]|].
  - rewrite pair_H by lra. split; [apply pair_quiet; lra|exact I].
  - unfold pena_H in *. cbn [pena_layers last] in *. rewrite first_H in F |- *. rewrite !pair_H by lra. exact F.
Qed.
(* permittivity 9/4 in vacuum at wavenumber 1 *)
Definition glass : C := (RtoC (3/2 * (3/2)) * RtoC 1)%C.
Lemma glass_layer r : @layer_of R ROps 1 (RtoC 1) (r, glass) = cut r.
Proof.
  unfold layer_of, glass. cbn [fst snd]. rewrite csqrt_scale, csqrt_1 by lra. toC. apply f_equal2.
  - field. apply RtoC_neq. lra.
  - rewrite <- !RtoC_mult. f_equal. ring.
Qed.
Lemma glass_cut r : 1 / 12 <= r <= 1 / 2 -> quiet_step 1 15 (RtoC (3/2)) (RtoC r) 1.
Proof. intros Hr. apply (step_z (3/2 * r)); [lra|]. apply Z1. Qed.
