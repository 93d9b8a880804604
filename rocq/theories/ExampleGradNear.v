(** Positions at which the near fields of the two-layer particle are smooth (C87). *)
From Coq Require Import Reals ZArith Lra Lia Bool List Arith.
From Coquelicot Require Import Coquelicot.
From Verif Require Import Ops ROps Spec CLemmas CTrig ModelSpecial ModelMie QuietSpec PenaProofs StackProofs ExampleStack ExampleMaxwell ModelNear NearSpec NearField ExampleNear
  ModelGrad ModelGradNear GradSpec GradNearSpec GradOps ExampleGrad.
Import ListNotations.
Open Scope R_scope.
Arguments Cmod x%C_scope.
Arguments off z%C_scope.

Section AtZ.
  Variables (z w d1 : R).
  Hypothesis Hw : w = 1 / z.
  Hypothesis Hz : 1 / 2 <= z <= 3 / 4.
  Hypothesis HD1 : eD1 (RtoC z) 1 = RtoC d1.
  Hypothesis Hd1 : 0 <= d1 <= 2 * w.
  Hypothesis Hp0 : z <= 6/10 * (d1 + w) / (1 + w * w).
  Hypothesis Hp1 : (d1 + w) / (1 + w * w) <= 8 * sin z.
  Hypothesis Hq1 : quiet_arg 1 15 (RtoC z) 1.
  Lemma off1 : off (ezeta (RtoC z) 1 * (eD1 (RtoC z) 1 - eD3 (RtoC z) 1))%C /\ off (epsi (RtoC z) 1 * (eD1 (RtoC z) 1 - eD3 (RtoC z) 1))%C.
  Proof.
    destruct (arg_facts 1 15 (RtoC z) 1 ltac:(lia) Hq1) as (_ & Np & Nz & W).
    assert (Wb : 4 / 3 <= w <= 2) by (eapply w_b; eassumption).
    assert (Zb : Cmod (ezeta (RtoC z) 1) <= 300) by (edestruct zeta1_b as [? ?]; try eassumption; lra).
    pose proof (psi1 z w d1 Hw Hz HD1 Hd1) as P1. assert (Pb : 1/8 <= sin z / (d1 + w) * (1 + w * w) <= 6/10) by (eapply p_b; eassumption).
    set (p := sin z / (d1 + w)) in *. assert (P0 : 0 < p) by nra.
    assert (K1 : Cmod (epsi (RtoC z) 1) <= 1) by (rewrite P1, Cmod_Rp by lra; nra).
    assert (C1 : Cmod Ci = 1) by (unfold Cmod; simpl; replace (0 * (0 * 1) + 1 * (1 * 1)) with 1 by ring; apply sqrt_1).
    assert (Q1 : (ezeta (RtoC z) 1 * (eD1 (RtoC z) 1 - eD3 (RtoC z) 1))%C = (- (Ci / epsi (RtoC z) 1))%C) by (rewrite <- W; field; exact Np).
    assert (Q2 : (epsi (RtoC z) 1 * (eD1 (RtoC z) 1 - eD3 (RtoC z) 1))%C = (- (Ci / ezeta (RtoC z) 1))%C) by (rewrite <- W; field; exact Nz).
    pose proof (proj1 (Cmod_gt_0 _) Np) as G1. pose proof (proj1 (Cmod_gt_0 _) Nz) as G2. clear W.
    split.
    - rewrite Q1. apply (big_off _ 1); [lra|]. rewrite Cmod_opp, Cmod_div, C1 by exact Np.
      apply (Rmult_le_reg_r (Cmod (epsi (RtoC z) 1))); [lra|]. replace (1 / Cmod (epsi (RtoC z) 1) * Cmod (epsi (RtoC z) 1)) with 1 by (field; lra). lra.
    - rewrite Q2. apply (big_off _ (1/300)); [lra|]. rewrite Cmod_opp, Cmod_div, C1 by exact Nz.
      apply (Rmult_le_reg_r (Cmod (ezeta (RtoC z) 1))); [lra|]. replace (1 / Cmod (ezeta (RtoC z) 1) * Cmod (ezeta (RtoC z) 1)) with 1 by (field; lra). lra.
  Qed.
End AtZ.

Lemma ex_steps : smooth_steps 1 15 ex_core [ex_shell] 1.
Proof.
  destruct near_half as (d & E & B1 & B2 & B3 & Q). destruct near_34 as (c & F & C1 & C2 & C3 & Q').
  assert (W1 : 2 = 1 / (1/2)) by field. assert (W2 : 4/3 = 1 / (3/4)) by field.
  assert (Z0 : (fst ex_core * snd ex_core)%C = RtoC (1/2)) by (cbn; rewrite <- RtoC_mult; f_equal; lra).
  assert (Zp : (fst ex_shell * snd ex_core)%C = RtoC (3/8)) by (cbn; rewrite <- RtoC_mult; f_equal; lra).
  assert (Zc : (fst ex_shell * snd ex_shell)%C = RtoC (3/4)) by (cbn; rewrite <- RtoC_mult; f_equal; lra).
  assert (Z1 : (RtoC 1 * snd ex_shell)%C = RtoC (1/2)) by (cbn; rewrite <- RtoC_mult; f_equal; lra).
  cbn [smooth_steps]. unfold smooth_step. rewrite Z0, Zp, Zc, Z1.
  split; (split; [cbn [fst ex_shell]; apply RtoC_neq; lra|]; split; [apply smooth_real; lra|]; split; [apply smooth_real; lra|]).
  - apply (off1 (1/2) 2 d); assumption || lra.
  - apply (off1 (3/4) (4/3) c); assumption || lra.
Qed.
Lemma tenth8 : 0 < @rtenth R ROps 8 < 1 / 1000.
Proof.
  unfold rtenth. cbn [rdiv rone rofZ ROps]. assert (P : 1000 < IZR (10 ^ Z.of_nat 8)) by (apply IZR_lt; reflexivity). split; [apply Rdiv_lt_0_compat; lra|].
  apply Rmult_lt_compat_l; [lra|]. apply Rinv_lt_contravar; lra.
Qed.
(* every distance in the core, the shell and the surroundings, up to the interfaces *)
Lemma ex_field_smooth r : 1/5 <= r <= 19/10 -> r <> 1/2 -> r <> 1 ->
  smooth_field 1 (ex_k0 (1/2)) (ex_env (1/2)) (ex_core_path (1/2)) (map (fun s => s (1/2)) [ex_shell_path]) r.
Proof.
  intros Hr N1 N2. split; [exact ex_particle_smooth|]. split; [|split].
  - intros s [<-|[<-|[]]]; cbn [ex_core_path ex_shell_path fst]; assumption.
  - intros n Hn. assert (n = 1%nat) as -> by lia. destruct ex_paths as [E1 E2]. cbn [map]. rewrite E1, E2. exact ex_steps.
  - intros li n Hli Hco Hn. assert (n = 1%nat) as -> by lia. destruct mx_sqrt as (E1 & _ & E3). pose proof tenth8 as T8.
    assert (K : forall m, index_of (ex_env (1/2)) (ex_core_path (1/2) :: map (fun s : R -> (R * C)%type => s (1/2)%R) [ex_shell_path]) li = RtoC m -> 1/10 <= 1/2 * m * r + @rtenth R ROps 8 <= 1 ->
      let rho := (RtoC (ex_k0 (1/2)) * index_of (ex_env (1/2)) (ex_core_path (1/2) :: map (fun s : R -> (R * C)%type => s (1/2)%R) [ex_shell_path]) li * RtoC r + RtoC (@rtenth R ROps 8))%C in
      rho <> RtoC 0 /\ smooth_arg 1 15 rho 1).
    { intros m Em Hm. cbv zeta. rewrite Em. unfold ex_k0. rewrite <- !RtoC_mult, <- RtoC_plus. split; [apply RtoC_neq; lra|]. now apply smooth_real. }
    cbn [length map] in Hli, Hco. unfold contains in Hco. cbn [length map nth ex_core_path ex_shell_path fst] in Hco. destruct Hco as [H1 H2].
    destruct li as [|[|[|li]]]; [| | |cbn in Hli; lia].
    + specialize (H2 ltac:(lia)). apply (K 2); [|lra]. unfold index_of. cbn [length map Nat.eqb nth ex_core_path snd].
      replace (RtoC 4) with (RtoC (2 * 2)) by (f_equal; lra). apply csqrt_real. lra.
    + specialize (H2 ltac:(lia)). apply (K (3/2)); [|lra]. unfold index_of. cbn [length map Nat.eqb nth ex_core_path ex_shell_path snd].
      replace (7/4 + 1/2, 1/2 - 1/2) with (RtoC (9/4)) by (unfold RtoC; f_equal; lra). exact E3.
    + apply (K 1); [|lra]. unfold index_of. cbn [length map Nat.eqb]. unfold ex_env. exact E1.
Qed.
