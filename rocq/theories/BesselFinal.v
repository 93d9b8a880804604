(** Final forms of the convergence statements (C17, C18) and Miller's algorithm:
    [sph_jn_via_rec] tends to the true j_n. *)
From Coq Require Import Reals ZArith Lra Lia Bool List Arith.
From Coquelicot Require Import Coquelicot.
From Verif Require Import Ops ROps Spec CLemmas CTrig ComplexDiff ModelSpecial ModelMie PenaProofs BesselProofs
  BesselSpec BesselTrue BesselMinimal StackSpec StackProofs ConvergeSpec BesselLimits StackConverge TorchLossless.
Import ListNotations.
Open Scope C_scope.
Arguments Cmod x%C_scope.

Theorem log_derivative_limit n_max n (z : C) : regular_from (@eps30 R ROps) z n ->
  true_psi n z <> RtoC 0 /\
  exists d, Cderive (true_psi n) z d /\
    tends (fun n_add => @D1_at R ROps eps30 (n_max + n_add) z n) (d / true_psi n z).
Proof.
  intros H. pose proof (proj1 H) as Hz.
  assert (Hnz : z <> 0) by (apply (Cmod_pos_neq e30); [apply e30_pos|exact Hz]).
  assert (Hp : true_psi n z <> 0) by (apply (regular_nz e30 z e30_le1 Hz n H); lia).
  split; [exact Hp|]. exists (true_L1 n z * true_psi n z). split; [now apply L1_derive|].
  apply (tends_val _ (true_L1 n z)); [field; exact Hp|].
  exact (tends_shift _ _ n_max (D1_tends e30 z e30_le1 Hz n H)).
Qed.
Theorem log_derivative_rate N n (z : C) : (@eps30 R ROps <= Cmod z)%R -> (1 <= n < N)%nat -> (Cmod z <= INR n)%R ->
  true_psi n z <> RtoC 0 /\
  exists d, Cderive (true_psi n) z d /\
    (Cmod (@D1_at R ROps eps30 N z n - d / true_psi n z)%C <= 2 * (Cmod z / (Cmod z + 1)) ^ (2 * (N - 1 - n)))%R.
Proof.
  intros Hz Hn Hm.
  assert (Hnz : z <> 0) by (apply (Cmod_pos_neq e30); [apply e30_pos|exact Hz]).
  assert (Hp : true_psi n z <> 0) by now apply psi_nonzero.
  split; [exact Hp|]. exists (true_L1 n z * true_psi n z). split; [now apply L1_derive|].
  replace (true_L1 n z * true_psi n z / true_psi n z) with (true_L1 n z) by (field; exact Hp).
  exact (D1_rate e30 z e30_le1 Hz N n Hn Hm).
Qed.

Theorem stack_limit tm n_max n l0 rest : (1 <= n)%nat -> regular_stack (@eps30 R ROps) l0 rest n ->
  exists a : C, tends (fun n_add => sel tm (@pena_ab R ROps n_max n_add l0 rest n)) a /\
    (exists AB0 amps, solves tm (true_rf n) (true_rf n) l0 rest AB0 amps a (RtoC 1)) /\
    (forall AB0 amps A B, solves tm (true_rf n) (true_rf n) l0 rest AB0 amps A B -> A = a * B).
Proof.
  intros Hn H. exists (sel tm (exact_ab n l0 rest)). split; [|split].
  - destruct (stack_tends n_max n Hn l0 rest H) as [A B]. destruct tm; assumption.
  - now apply exact_exists.
  - intros AB0 amps A B. now apply exact_unique.
Qed.
Theorem sphere_limit n_max n (m x : C) : (1 <= n)%nat -> regular_stack (@eps30 R ROps) (m, x) [] n ->
  tends (fun n_add => fst (@pena_ab R ROps n_max n_add (m, x) [] n)) (bh_a m x n) /\
  tends (fun n_add => snd (@pena_ab R ROps n_max n_add (m, x) [] n)) (bh_b m x n).
Proof.
  intros Hn H. destruct (stack_tends n_max n Hn (m, x) [] H) as [A B]. rewrite (exact_bh n Hn m x H) in A, B.
  split; assumption.
Qed.

(** ** Miller's algorithm *)
Lemma Cmod_Ci : Cmod Ci = 1%R.
Proof. unfold Cmod, Ci. cbn [fst snd]. replace (0 ^ 2 + 1 ^ 2)%R with 1%R by ring. apply sqrt_1. Qed.
Section Miller.
  Variable z : C.
  Hypothesis Hz : z <> 0.
  Let P n := true_psi n z.
  Let X n := true_zeta n z.
  Lemma cas n : P n * X (S n) - P (S n) * X n = - Ci.
  Proof. now apply true_casoratian. Qed.
  Lemma X_rec n : X (S (S n)) = Cn (2 * n + 3) / z * X (S n) - X n.
  Proof. apply true_zeta_rec. Qed.
  Lemma P_rec n : P (S (S n)) = Cn (2 * n + 3) / z * P (S n) - P n.
  Proof. apply true_psi_rec. Qed.
  (* the downward sequence is the combination vanishing at N *)
  Lemma jrec_cross N k : (S k <= N)%nat ->
    @jrec_at R ROps z N (N - k) * (- Ci) = - RtoC (@rtenth R ROps 25) * (P (N - k) * X N - P N * X (N - k)) /\
    @jrec_at R ROps z N (N - S k) * (- Ci) = - RtoC (@rtenth R ROps 25) * (P (N - S k) * X N - P N * X (N - S k)).
  Proof.
    induction k as [|k IH]; intros Hk.
    - rewrite Nat.sub_0_r, jrec_top. split; [ring|]. rewrite jrec_last by lia.
      pose proof (cas (N - 1)) as E. replace (S (N - 1)) with N in E by lia. rewrite E. ring.
    - destruct (IH ltac:(lia)) as [A B]. split; [exact B|].
      pose proof (jrec_recurrence z N (N - S k) ltac:(lia)) as E.
      replace (N - S k - 1)%nat with (N - S (S k))%nat in E by lia. replace (N - S k + 1)%nat with (N - k)%nat in E by lia.
      pose proof (X_rec (N - S (S k))) as EX. pose proof (P_rec (N - S (S k))) as EP.
      replace (S (S (N - S (S k)))) with (N - k)%nat in EX, EP by lia.
      replace (S (N - S (S k))) with (N - S k)%nat in EX, EP by lia.
      replace (2 * (N - S (S k)) + 3)%nat with (2 * (N - S k) + 1)%nat in EX, EP by lia.
      set (c := Cn (2 * (N - S k) + 1) / z) in *. set (w := - RtoC (@rtenth R ROps 25)) in *.
      transitivity (c * (@jrec_at R ROps z N (N - S k) * - Ci) - @jrec_at R ROps z N (N - k) * - Ci).
      { replace (@jrec_at R ROps z N (N - S (S k))) with (c * @jrec_at R ROps z N (N - S k) - @jrec_at R ROps z N (N - k)); [ring|].
        rewrite <- E. ring. }
      rewrite A, B, EX, EP. ring.
  Qed.
  Lemma jrec_closed N n : (n <= N)%nat -> (1 <= N)%nat ->
    @jrec_at R ROps z N n * (- Ci) = - RtoC (@rtenth R ROps 25) * (P n * X N - P N * X n).
  Proof.
    intros Hn HN. destruct (Nat.eq_dec n N) as [->|Hne].
    - rewrite jrec_top. ring.
    - destruct (jrec_cross N (N - n - 1) ltac:(lia)) as [_ B]. replace (N - S (N - n - 1))%nat with n in B by lia. exact B.
  Qed.
  (* beyond the turning point zeta grows *)
  Lemma X_grows : exists n0, (Cmod z <= INR n0)%R /\ (3 * Cmod z <= INR n0)%R /\ (Cmod (X n0)%C < Cmod (X (S n0))%C)%R.
  Proof.
    destruct (archimed_cor1 (/ (3 * Cmod z + 1))) as (K & HK & HKp).
    { apply Rinv_0_lt_compat. pose proof (Cmod_ge_0 z). lra. }
    assert (Hm : (0 < Cmod z)%R) by now apply Cmod_gt_0.
    assert (HK' : (3 * Cmod z <= INR K)%R).
    { assert (0 < INR K)%R by now apply lt_0_INR.
      apply Rnot_lt_le. intros HH. assert (Hlt : (INR K < 3 * Cmod z + 1)%R) by lra.
      apply Rinv_lt_contravar in Hlt; [lra|nra]. }
    assert (HKm : forall k, (Cmod z <= INR (K + k))%R) by (intros k; rewrite plus_INR; pose proof (pos_INR k); lra).
    (* otherwise X never increases, and the casoratian tends to 0 *)
    destruct (Classical_Prop.classic (exists k, (Cmod (X (K + k)%nat)%C < Cmod (X (S (K + k)))%C)%R)) as [[k Hk]|Hno].
    { exists (K + k)%nat. split; [apply HKm|]. split; [rewrite plus_INR; pose proof (pos_INR k); lra|exact Hk]. }
    exfalso.
    assert (Hdec : forall k, (Cmod (X (S (K + k)))%C <= Cmod (X (K + k)%nat)%C)%R).
    { intros k. apply Rnot_lt_le. intros H. apply Hno. now exists k. }
    assert (Hbd : forall k, (Cmod (X (K + k)%nat)%C <= Cmod (X K)%C)%R).
    { induction k as [|k IH]; [rewrite Nat.add_0_r; lra|]. replace (K + S k)%nat with (S (K + k)) by lia. eapply Rle_trans; [apply Hdec|exact IH]. }
    (* psi halves at each step *)
    assert (Hhalf : forall k, (2 * Cmod (P (S (K + k)))%C <= Cmod (P (K + k)%nat)%C)%R).
    { intros k. pose proof (psi_minimal z (S (K + k)) Hz) as M.
      assert (HH : (Cmod z <= INR (S (K + k)))%R) by (replace (S (K + k)) with (K + S k)%nat by lia; apply HKm).
      specialize (M HH).
      pose proof (down_step z (fun n => true_psi n z) Hz (fun n => true_psi_rec n z) (K + k) M) as D.
      assert (C2 : (2 <= INR (2 * (K + k) + 3) / Cmod z - 1)%R).
      { apply (coef_ge z Hz). rewrite plus_INR, mult_INR.
        change (INR 2) with 2%R. pose proof (HKm k). pose proof (pos_INR 3). rewrite plus_INR in *. pose proof (pos_INR k). lra. }
      pose proof (Cmod_ge_0 (P (S (K + k)))). eapply Rle_trans; [apply Rmult_le_compat_r; [assumption|exact C2]|exact D]. }
    assert (Hpow : forall k, (2 ^ k * Cmod (P (K + k)%nat)%C <= Cmod (P K)%C)%R).
    { induction k as [|k IH]; [rewrite Nat.add_0_r; cbn [pow]; lra|]. replace (K + S k)%nat with (S (K + k)) by lia. cbn [pow].
      eapply Rle_trans; [|exact IH]. replace (2 * 2 ^ k * Cmod (P (S (K + k))))%R with (2 ^ k * (2 * Cmod (P (S (K + k)))))%R by ring.
      apply Rmult_le_compat_l; [apply pow_le; lra|apply Hhalf]. }
    set (A := (Cmod (P K) * Cmod (X K))%R).
    assert (Hfin : forall k, (2 ^ k <= 2 * A)%R).
    { intros k. pose proof (cas (K + k)) as E. apply (f_equal Cmod) in E. rewrite Cmod_opp, Cmod_Ci in E.
      assert (T : (1 <= Cmod (P (K + k)%nat) * Cmod (X (S (K + k))) + Cmod (P (S (K + k))) * Cmod (X (K + k)%nat))%R).
      { rewrite <- E. unfold Cminus. eapply Rle_trans; [apply Cmod_triangle|]. rewrite Cmod_opp, !Cmod_mult. lra. }
      pose proof (Hbd k) as B1. pose proof (Hbd (S k)) as B2. replace (K + S k)%nat with (S (K + k)) in B2 by lia.
      pose proof (Hpow k) as Q1. pose proof (Hhalf k) as Q2.
      pose proof (Cmod_ge_0 (P (K + k)%nat)). pose proof (Cmod_ge_0 (P (S (K + k)))). pose proof (Cmod_ge_0 (X K)).
      pose proof (Cmod_ge_0 (X (K + k)%nat)). pose proof (Cmod_ge_0 (X (S (K + k)))).
      assert (T2 : (1 <= 2 * (Cmod (P (K + k)%nat) * Cmod (X K)))%R) by nra.
      assert (0 < 2 ^ k)%R by (apply pow_lt; lra).
      apply Rle_trans with (2 ^ k * (2 * (Cmod (P (K + k)%nat) * Cmod (X K))))%R; [nra|].
      unfold A. replace (2 ^ k * (2 * (Cmod (P (K + k)%nat) * Cmod (X K))))%R with (2 * ((2 ^ k * Cmod (P (K + k)%nat)) * Cmod (X K)))%R by ring.
      apply Rmult_le_compat_l; [lra|]. apply Rmult_le_compat_r; [assumption|exact Q1]. }
    destruct (Pow_x_infinity 2 ltac:(rewrite Rabs_pos_eq; lra) (2 * A + 1)) as [k Hk].
    specialize (Hk k ltac:(lia)). rewrite Rabs_pos_eq in Hk by (apply pow_le; lra). specialize (Hfin k). lra.
  Qed.
  Lemma ratio_tends : tends (fun N => P N / X N) 0 /\ ev (fun N => X N <> 0).
  Proof.
    destruct X_grows as (n0 & H1 & H2 & H3).
    pose proof (up_geom z X Hz X_rec n0 2 ltac:(lra) ltac:(lra) H1 H3) as G.
    set (c := Cmod (X (S n0))) in *. assert (Hc : (0 < c)%R) by (pose proof (Cmod_ge_0 (X n0)); lra).
    assert (HX : forall N, (S n0 <= N)%nat -> (2 ^ (N - S n0) * c <= Cmod (X N))%R).
    { intros N HN. specialize (G (N - S n0)%nat). replace (S (n0 + (N - S n0)))%nat with N in G by lia. exact G. }
    assert (HP : forall k, (Cmod (P (n0 + k)%nat) <= Cmod (P n0))%R).
    { induction k as [|k IH]; [rewrite Nat.add_0_r; lra|]. replace (n0 + S k)%nat with (S (n0 + k)) by lia.
      eapply Rle_trans; [apply psi_minimal; [exact Hz|]|exact IH]. rewrite plus_INR. pose proof (pos_INR k). lra. }
    assert (HXp : forall N, (S n0 <= N)%nat -> (0 < Cmod (X N))%R).
    { intros N HN. eapply Rlt_le_trans; [|apply HX, HN]. apply Rmult_lt_0_compat; [apply pow_lt; lra|exact Hc]. }
    split.
    - apply (tends_geom _ 0 (/ 2) (Cmod (P n0) / c) (S n0)); [lra| |].
      + apply Rdiv_le_0_compat; [apply Cmod_ge_0|exact Hc].
      + intros N HN. replace (P N / X N - 0) with (P N / X N) by ring.
        rewrite Cmod_div by (apply Cmod_gt_0, HXp, HN).
        assert (0 < 2 ^ (N - S n0))%R by (apply pow_lt; lra). rewrite pow_inv.
        replace (Cmod (P n0) / c * / 2 ^ (N - S n0))%R with (Cmod (P n0) / (2 ^ (N - S n0) * c))%R by (field; lra).
        specialize (HP (N - n0)%nat). replace (n0 + (N - n0))%nat with N in HP by lia.
        unfold Rdiv. apply Rmult_le_compat; [apply Cmod_ge_0|apply Rlt_le, Rinv_0_lt_compat, HXp, HN|exact HP|].
        apply Rinv_le_contravar; [apply Rmult_lt_0_compat; assumption|apply HX, HN].
    - exists (S n0). intros N HN. apply Cmod_gt_0, HXp, HN.
  Qed.
End Miller.

Theorem miller_limit n_max n (z : C) : (@rtenth R ROps 10 <= Cmod z)%R -> Csin z <> RtoC 0 ->
  tends (fun n_add => @sph_jn_via_rec R ROps n_max n_add z n) (true_j n z).
Proof.
  intros He Hs. assert (Hz : z <> 0) by (apply (Cmod_pos_neq e10); [apply rtenth_pos|exact He]).
  assert (H0 : true_psi 0 z = Csin z) by now apply psi0_true.
  destruct (ratio_tends z Hz) as [HT HX].
  set (t := fun N => true_psi N z / true_zeta N z) in *.
  apply (tends_ev (fun k => (true_psi n z - t (n_max + k)%nat * true_zeta n z) * (Csin z / z / (true_psi 0 z - t (n_max + k)%nat * true_zeta 0 z)))).
  - destruct HX as [M HM]. exists (M + n + 1)%nat. intros k Hk. symmetry. rewrite sph_jn_def by exact He.
    set (N := (n_max + k)%nat) in *. specialize (HM N ltac:(lia)).
    pose proof (jrec_closed z Hz N n ltac:(lia) ltac:(lia)) as A. pose proof (jrec_closed z Hz N 0 ltac:(lia) ltac:(lia)) as B.
    set (w := RtoC (@rtenth R ROps 25)) in *.
    assert (Hw : w <> 0) by (apply RtoC_neq; pose proof (rtenth_pos 25); lra).
    assert (A' : @jrec_at R ROps z N n = - Ci * w * true_zeta N z * (true_psi n z - t N * true_zeta n z)).
    { transitivity (Ci * (@jrec_at R ROps z N n * - Ci)); [transitivity (- (Ci * Ci) * @jrec_at R ROps z N n); [rewrite Ci_sqr|]; cring|].
      rewrite A. unfold t. cfield. exact HM. }
    assert (B' : @jrec_at R ROps z N 0 = - Ci * w * true_zeta N z * (true_psi 0 z - t N * true_zeta 0 z)).
    { transitivity (Ci * (@jrec_at R ROps z N 0 * - Ci)); [transitivity (- (Ci * Ci) * @jrec_at R ROps z N 0); [rewrite Ci_sqr|]; cring|].
      rewrite B. unfold t. cfield. exact HM. }
    rewrite A', B'. set (d := true_psi 0 z - t N * true_zeta 0 z). set (u := - Ci * w * true_zeta N z).
    assert (Hu : u <> 0).
    { assert (Hi : - Ci <> RtoC 0) by (intros E; apply (f_equal snd) in E; cbn in E; lra). unfold u. apply Cmult_neq_0; [apply Cmult_neq_0; [exact Hi|exact Hw]|exact HM]. }
    destruct (Ceq_dec d 0) as [Ed|Ed].
    + rewrite Ed. replace (u * 0) with (RtoC 0) by ring. unfold Cdiv. replace (/ RtoC 0) with (RtoC 0); [cring|].
      unfold Cinv, RtoC. cbn [fst snd]. f_equal; unfold Rdiv; ring.
    + cfield. repeat split; assumption.
  - pose proof (tends_shift _ _ n_max HT) as HT'.
    assert (D : tends (fun k => true_psi 0 z - t (n_max + k)%nat * true_zeta 0 z) (true_psi 0 z - 0 * true_zeta 0 z)).
    { apply tends_minus; [apply tends_const|apply tends_mult; [exact HT'|apply tends_const]]. }
    apply (tends_val _ ((true_psi n z - 0 * true_zeta n z) * (Csin z / z / (true_psi 0 z - 0 * true_zeta 0 z)))).
    { rewrite H0. unfold true_psi. field. split; [|assumption]. replace (Csin z - 0 * true_zeta 0 z) with (Csin z) by ring. assumption. }
    apply tends_mult; [apply tends_minus; [apply tends_const|apply tends_mult; [exact HT'|apply tends_const]]|].
    apply tends_div; [|apply tends_const|exact D]. rewrite H0. replace (Csin z - 0 * true_zeta 0 z) with (Csin z) by ring. exact Hs.
Qed.
