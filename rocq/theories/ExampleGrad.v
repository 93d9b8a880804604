(** A concrete smooth configuration for the differentiability theorems (C83). *)
From Coq Require Import Reals ZArith Lra Lia Bool List Arith.
From Coquelicot Require Import Coquelicot.
From Verif Require Import Ops ROps Spec CLemmas CTrig ModelSpecial ModelMie QuietSpec PenaProofs StackProofs ExampleStack ExampleMaxwell ModelGrad GradSpec.
Import ListNotations.
Open Scope R_scope.
Arguments Cmod x%C_scope.
Arguments off z%C_scope.

Lemma eps30_lt : @eps30 R ROps < 1 / 1000.
Proof.
  unfold eps30, rtenth. cbn [rdiv rone rofZ ROps]. apply Rmult_lt_compat_l; [lra|].
  apply Rinv_lt_contravar; [apply Rmult_lt_0_compat; [lra|apply IZR_lt; reflexivity]|]. apply IZR_lt. reflexivity.
Qed.
Lemma big_off (z : C) x : 1 / 1000 <= x -> x <= Cmod z -> off z.
Proof. unfold off. pose proof eps30_lt. lra. Qed.

Lemma smooth_real (z : R) : 1 / 10 <= z <= 1 -> smooth_arg 1 15 (RtoC z) 1.
Proof.
  intros Hz. assert (Hz' : 1 / 1000 <= z <= 1) by lra. pose proof (zc_guard z Hz') as Hg.
  assert (Hi1 : 1 <= / z) by (rewrite <- Rinv_1; apply Rinv_le_contravar; lra).
  assert (Hi2 : / z <= 10) by (replace 10 with (/ (1 / 10)) by lra; apply Rinv_le_contravar; lra).
  split; [|split].
  - apply (big_off _ z); [lra|]. rewrite Cmod_Rp; lra.
  - intros j Hj. destruct (D1_nonneg 1 15 z Hz' (16 - j) ltac:(lia)) as (d & Hd & E).
    replace (1 + 15 - (16 - j))%nat with j in E by lia.
    change (@pD1 R ROps 1 15 (RtoC z) j) with (gD1 (@eps30 R ROps) (1 + 15) (RtoC z) j). rewrite E.
    rewrite guard_id by exact Hg. rewrite <- RtoC_div, <- RtoC_plus by lra.
    assert (1 <= INR j) by (apply (le_INR 1); lia). assert (1 <= INR j / z) by (unfold Rdiv; nra).
    apply (big_off _ 1); [lra|]. rewrite Cmod_Rp; lra.
  - intros j Hj. assert (j = 1%nat) as -> by lia.
    change (fst (@d3_state R ROps eps30 (RtoC z) (@pD1 R ROps 1 15 (RtoC z)) 1)) with (gW (@eps30 R ROps) 16 (RtoC z) 1).
    rewrite (gW_eq (@eps30 R ROps) 16 (RtoC z) Hg 1).
    destruct (D1_1_bounds 1 15 z Hz' ltac:(lia)) as (d & E & B).
    assert (Hs : z / 2 <= sin z).
    { pose proof (sin_bounds_lem z ltac:(lra)) as [Hs _]. assert (z * z <= 1) by nra. assert (z * z * z <= z) by nra. lra. }
    apply (big_off _ (1/1000)); [lra|]. apply (real_big 1 15 z Hz' ltac:(lia) d (z / 2) E); [|exact Hs|lra].
    assert (H5 : 4 <= 5 / z - z / 3) by (unfold Rdiv; lra).
    assert (0 < 1 / (5 / z - z / 3) <= 1 / 4).
    { split; [apply Rdiv_lt_0_compat; lra|]. unfold Rdiv at 1 4. apply Rmult_le_compat_l; [lra|]. apply Rinv_le_contravar; lra. }
    unfold Rdiv in *. lra.
Qed.

Theorem ex_smooth : smooth_stack 1 15 ex_core [ex_shell] 1.
Proof.
  assert (Z0 : (fst ex_core * snd ex_core)%C = RtoC (1/2)) by (cbn; rewrite <- RtoC_mult; f_equal; lra).
  assert (Zp : (fst ex_shell * snd ex_core)%C = RtoC (3/8)) by (cbn; rewrite <- RtoC_mult; f_equal; lra).
  assert (Zc : (fst ex_shell * snd ex_shell)%C = RtoC (3/4)) by (cbn; rewrite <- RtoC_mult; f_equal; lra).
  assert (EH : @pena_first R ROps 1 15 ex_core 1 = (@pD1 R ROps 1 15 (RtoC (1/2)) 1, @pD1 R ROps 1 15 (RtoC (1/2)) 1)).
  { unfold pena_first. toC. rewrite Z0. reflexivity. }
  pose proof (smooth_real (1/2) ltac:(lra)) as Sh. pose proof (smooth_real (3/8) ltac:(lra)) as Sp. pose proof (smooth_real (3/4) ltac:(lra)) as Sc.
  destruct ex_quiet as (_ & (QL & _) & _).
  destruct ex_ratio_big as (R1 & R2 & R3).
  unfold smooth_stack. rewrite Z0. split; [exact Sh|]. split; [split; [|exact I]|].
  - unfold smooth_layer. rewrite Zp, Zc, EH. cbn [fst snd ex_core ex_shell].
    split; [exact Sp|]. split; [exact Sc|]. split.
    + split; [apply (big_off _ (1/2)); [lra|exact R1]|]. split; [apply (big_off _ (1/2)); [lra|exact R2]|].
      intros j Hj. apply (big_off _ 1); [lra|exact (R3 j Hj)].
    + split; (apply (big_off _ 4); [lra|]); apply den_big; lra.
  - unfold smooth_final. cbn [last fst snd ex_shell]. split; [apply RtoC_neq; lra|]. split; [exact Sh|].
    unfold pena_H. cbn [pena_layers].
    destruct (layer_H 1 15 true _ _ _ _ QL) as [_ Ea]. destruct (layer_H 1 15 false _ _ _ _ QL) as [_ Eb].
    cbn [sel] in Ea, Eb. cbv zeta in Ea, Eb. rewrite Ea, Eb. cbn [uu vv]. rewrite Zp, Zc, EH.
    rewrite guard_id by (apply (zc_guard (1/2)); lra).
    cbn [fst snd ex_core ex_shell]. change (1 - 1)%nat with 0%nat. split.
    + match goal with |- context [(?h / RtoC (3/2))%C] => replace (h / RtoC (3/2))%C with (RtoC (2/3) * h)%C end.
      * apply (big_off _ 1); [lra|]. apply final_big. rewrite fst_scale. apply Rmult_le_pos; [lra|]. apply H_re; lra.
      * replace (RtoC (2/3)) with (/ RtoC (3/2))%C by (rewrite <- RtoC_inv by lra; f_equal; lra).
        unfold Cdiv. ring.
    + apply (big_off _ 1); [lra|]. apply final_big. rewrite fst_scale. apply Rmult_le_pos; [lra|]. apply H_re; lra.
Qed.

(* wavenumber, core radius and shell permittivity all depend on t; at t = 1/2 the stack is (2, 1/4), (3/2, 1/2) *)
Definition ex_k0 (t : R) : R := t.
Definition ex_env (t : R) : C := RtoC 1.
Definition ex_core_path (t : R) : R * C := (t, RtoC 4).
Definition ex_shell_path (t : R) : R * C := (1, (7/4 + t, t - 1/2)).
Lemma ex_paths : @layer_of R ROps (ex_k0 (1/2)) (ex_env (1/2)) (ex_core_path (1/2)) = ex_core /\
  @layer_of R ROps (ex_k0 (1/2)) (ex_env (1/2)) (ex_shell_path (1/2)) = ex_shell.
Proof.
  destruct mx_sqrt as (E1 & _ & E3). unfold ex_k0, ex_env, ex_core_path, ex_shell_path, layer_of. cbn [fst snd].
  replace (7/4 + 1/2, 1/2 - 1/2) with (RtoC (9/4)) by (unfold RtoC; f_equal; lra).
  replace (RtoC 4) with (RtoC (2 * 2)) by (f_equal; lra). rewrite E1, E3, csqrt_real by lra. toC. unfold ex_core, ex_shell.
  split; (apply f_equal2; [rewrite <- RtoC_div by lra; f_equal; lra|rewrite <- !RtoC_mult; f_equal; lra]).
Qed.
Ltac affine := split; [cbn; lra|cbn; auto_derive; [exact I|cbn; lra]].
Lemma ex_k0_ok : carries (1/2) ex_k0 (1/2, 1). Proof. unfold ex_k0. affine. Qed.
Lemma ex_env_ok : ccarries (1/2) ex_env ((1, 0), (0, 0)). Proof. unfold ex_env. split; affine. Qed.
Lemma ex_core_ok : carries_shell (1/2) ex_core_path ((1/2, 1), ((4, 0), (0, 0))).
Proof. unfold ex_core_path. split; [affine|split; affine]. Qed.
Lemma ex_shell_ok : carries_shell (1/2) ex_shell_path ((1, 0), ((9/4, 1), (0, 1))).
Proof. unfold ex_shell_path. split; [affine|split; affine]. Qed.
Lemma ex_particle_smooth : smooth_particle 1 (ex_k0 (1/2)) (ex_env (1/2)) (ex_core_path (1/2)) (map (fun s => s (1/2)) [ex_shell_path]).
Proof.
  split; [left; cbn; lra|]. split; [left; cbn; lra|]. split; [constructor; [left; cbn; lra|constructor]|].
  intros n Hn. assert (n = 1%nat) as -> by lia. destruct ex_paths as [E1 E2].
  cbn [map]. rewrite E1, E2. exact ex_smooth.
Qed.
