(** Concrete particles for the limit of the near fields. *)
From Coq Require Import Reals ZArith Lra Lia List Arith.
From Coquelicot Require Import Coquelicot.
From Verif Require Import Ops ROps Spec StackSpec CLemmas CTrig ComplexDiff BesselSpec BesselTrue ConvergeSpec ModelSpecial ModelMie PenaProofs StackProofs
  BesselMinimal BesselLimits StackConverge ExampleTrue ModelNear NearSpec MaxwellSpec NearLimitSpec NearLimit.
Import ListNotations.
Open Scope R_scope.

Lemma e30_tiny : e30 < / 1000.
Proof. exact e30_small. Qed.
Lemma near_bound z : / 10 <= z < 1 -> e30 * Cmod (true_psi 1 (RtoC z)) < 1 /\ e30 * Cmod (true_zeta 1 (RtoC z)) < 1.
Proof.
  intros Hz. pose proof e30_tiny as E. pose proof e30_pos as E0. pose proof (ps1_b z ltac:(lra) ltac:(lra)) as [P1 P2].
  assert (W : 0 <= z ^ 2 <= 1) by (cbn [pow]; nra). replace (z ^ 4) with (z ^ 2 * z ^ 2) in P1, P2 by ring.
  assert (Hp : - 1 <= ps1 z <= 1) by nra.
  assert (Hc : Rabs (ch1 z) <= 20).
  { unfold ch1. apply Rabs_le. pose proof (SIN_bound z). pose proof (COS_bound z).
    assert (0 < / z <= 10). { split; [apply Rinv_0_lt_compat; lra|]. replace 10 with (/ / 10) by lra. apply Rinv_le_contravar; lra. }
    unfold Rdiv. nra. }
  split.
  - rewrite r_psi1 by lra. rewrite Cmod_R. assert (Rabs (ps1 z) <= 1) by (apply Rabs_le; lra). nra.
  - rewrite r_zeta1 by lra. assert (Cmod (RtoC (ps1 z) + Ci * RtoC (ch1 z))%C <= 22).
    { eapply Rle_trans; [apply Cmod_le_abs|]. cbn. apply Rle_trans with (Rabs (ps1 z) + Rabs (ch1 z)).
      - right. f_equal; f_equal; ring.
      - assert (Rabs (ps1 z) <= 1) by (apply Rabs_le; lra). lra. }
    nra.
Qed.
Lemma layered_near : regular_near e30 [(RtoC 3, RtoC (1 / 4)); (RtoC (3 / 2), RtoC (1 / 2))] 1.
Proof.
  intros i Hi. cbn in Hi. destruct i as [|[|]]; [| |lia]; unfold index_at, size_at; cbn [nth fst snd].
  - replace (RtoC 3 * RtoC (1 / 4))%C with (RtoC (3 / 4)) by (rewrite <- RtoC_mult; f_equal; lra). apply near_bound. lra.
  - replace (RtoC (3 / 2) * RtoC (1 / 2))%C with (RtoC (3 / 4)) by (rewrite <- RtoC_mult; f_equal; lra). apply near_bound. lra.
Qed.
Lemma csqrt_real (s : R) : 0 <= s -> @csqrt R ROps (RtoC (s * s)) = RtoC s.
Proof.
  intros Hs. unfold csqrt. toC. rewrite Cmod_R, Rabs_pos_eq by nra. cbn [fst snd RtoC rsqrt rdiv radd rsub ropp rltb rzero rone rtwo ROps]. unfold rsub, rtwo. cbn [radd ropp rone ROps].
  rewrite (proj2 (Rltb_false _ _)) by lra. replace ((s * s + s * s) / (1 + 1))%R with (Rsqr s) by (unfold Rsqr; field). replace ((s * s + - (s * s)) / (1 + 1))%R with 0%R by field.
  now rewrite sqrt_Rsqr, sqrt_0.
Qed.
Definition mx_core : R * C := (1 / 4, RtoC 9).
Definition mx_shell : R * C := (1 / 2, RtoC (9 / 4)).
Definition mx_point (r : R) : @point R := {| pt_r := r; pt_theta := 1; pt_phi := 1 / 2 |}.
Lemma mx_sqrt : @csqrt R ROps (RtoC 1) = RtoC 1 /\ @csqrt R ROps (RtoC 9) = RtoC 3 /\ @csqrt R ROps (RtoC (9 / 4)) = RtoC (3 / 2).
Proof.
  split; [|split].
  - replace (RtoC 1) with (RtoC (1 * 1)) at 1 by (f_equal; ring). apply csqrt_real. lra.
  - replace (RtoC 9) with (RtoC (3 * 3)) by (f_equal; ring). apply csqrt_real. lra.
  - replace (RtoC (9 / 4)) with (RtoC (3 / 2 * (3 / 2))) by (f_equal; field). apply csqrt_real. lra.
Qed.
Lemma mx_layers : @layer_of R ROps 1 (RtoC 1) mx_core = (RtoC 3, RtoC (1 / 4)) /\ @layer_of R ROps 1 (RtoC 1) mx_shell = (RtoC (3 / 2), RtoC (1 / 2)).
Proof.
  destruct mx_sqrt as (S1 & S9 & S94). unfold layer_of, mx_core, mx_shell. cbn [fst snd]. rewrite S1, S9, S94. toC.
  assert (N : RtoC 1 <> RtoC 0) by (apply RtoC_neq; lra).
  split; f_equal; (match goal with |- ?a = ?b => change (@eq C a b) end); rewrite <- ?RtoC_div, <- ?RtoC_mult by lra; f_equal; field.
Qed.
Lemma e8_small : 0 < @rtenth R ROps 8 < / 1000.
Proof.
  unfold rtenth. cbn [ROps rdiv rone rofZ]. replace (IZR (10 ^ Z.of_nat 8)) with 100000000 by reflexivity. lra.
Qed.
Lemma mx_rho (s r : R) : @rho_at R ROps 1 (RtoC s) r = RtoC (s * r + @rtenth R ROps 8).
Proof. unfold rho_at. toC. rewrite <- !RtoC_mult, <- RtoC_plus. f_equal. ring. Qed.
(* a point outside and a point in the shell *)
Lemma mx_regular r : r = 4 / 5 \/ r = 2 / 5 ->
  let core := mx_core in let shells := [mx_shell] in
  increasing (@radii R core shells) /\ below (@radii R core shells) r = (if Rlt_dec (1 / 2) r then 2 else 1)%nat /\
  let l0 := @layer_of R ROps 1 (RtoC 1) core in let rest := map (@layer_of R ROps 1 (RtoC 1)) shells in
  let li := below (@radii R core shells) r in
  let rho := @rho_at R ROps 1 (@n_medium R ROps (RtoC 1) core shells li) r in
  forall n, (1 <= n <= 1)%nat -> regular_stack e30 l0 rest n /\ regular_near e30 (l0 :: rest) n /\ regular_arg e30 rho n.
Proof.
  intros Hr core shells. destruct mx_layers as [L0 L1]. destruct mx_sqrt as (S1 & S9 & S94). pose proof e8_small as E8.
  split; [cbn; lra|].
  assert (B : below (@radii R core shells) r = (if Rlt_dec (1 / 2) r then 2 else 1)%nat).
  { unfold below, core, shells, radii. cbn [map fst mx_core mx_shell filter]. destruct Hr as [-> | ->]; repeat (destruct (Rlt_dec _ _); try lra); reflexivity. }
  split; [exact B|]. intros l0 rest li rho n Hn. assert (n = 1%nat) as -> by lia.
  unfold l0, rest, core, shells. cbn [map]. rewrite L0, L1. split; [exact layered_regular|]. split; [exact layered_near|].
  unfold rho, li. rewrite B. destruct Hr as [-> | ->]; destruct (Rlt_dec _ _); try lra; unfold n_medium, core, shells, radii; cbn [map length Nat.eqb nth snd mx_shell];
    rewrite ?S1, ?S94, mx_rho; apply real_regular; lra.
Qed.
