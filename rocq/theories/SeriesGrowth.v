(** Growth of psi_n and zeta_n in the order n. *)
From Coq Require Import Reals ZArith Lra Lia Bool List Arith Classical.
From Coquelicot Require Import Coquelicot.
From Verif Require Import Ops ROps Spec CLemmas CTrig ComplexDiff BesselProofs BesselSpec BesselTrue ConvergeSpec BesselMinimal StackConverge.
Open Scope R_scope.
Arguments Cmod x%C_scope.

Lemma nat_above (r : R) : exists N, forall n, (N <= n)%nat -> r <= INR n.
Proof.
  destruct (archimed_cor1 (/ (Rabs r + 1))) as (N & HN & HNp); [apply Rinv_0_lt_compat; pose proof (Rabs_pos r); lra|]. exists N. intros n Hn.
  assert (0 < INR N) by now apply lt_0_INR. pose proof (Rabs_pos r). pose proof (Rle_abs r). assert (Rabs r + 1 < INR N).
  { apply Rnot_le_lt. intros Q. apply (Rle_Rinv (INR N)) in Q; lra. }
  apply le_INR in Hn. lra.
Qed.
(* eventual contraction gives a geometric bound *)
Lemma geom_bound (u : nat -> R) (q : R) : 0 < q -> (forall n, 0 <= u n) -> (exists N, forall n, (N <= n)%nat -> u (S n) <= q * u n) ->
  exists K, 0 < K /\ forall n, u n <= K * q ^ n.
Proof.
  intros Hq Hu [N HN].
  assert (F : forall k, exists K, 0 < K /\ forall n, (n <= k)%nat -> u n <= K * q ^ n).
  { induction k as [|k [K [HK IH]]].
    - exists (u 0%nat + 1). split; [pose proof (Hu 0%nat); lra|]. intros n Hn. replace n with 0%nat by lia. cbn. lra.
    - exists (K + u (S k) / q ^ S k). assert (P : 0 < q ^ S k) by now apply pow_lt. assert (0 <= u (S k) / q ^ S k) by (apply Rdiv_le_0_compat; [apply Hu|exact P]).
      split; [lra|]. intros n Hn. assert (Pn : 0 < q ^ n) by now apply pow_lt. destruct (Nat.eq_dec n (S k)) as [->|Hne].
      + replace ((K + u (S k) / q ^ S k) * q ^ S k) with (K * q ^ S k + u (S k)) by (field; lra). pose proof (Rmult_lt_0_compat _ _ HK P). lra.
      + specialize (IH n ltac:(lia)). nra. }
  destruct (F N) as (K & HK & HB). exists K. split; [exact HK|]. intros n. destruct (Nat.le_gt_cases n N) as [H|H]; [now apply HB|].
  assert (G : forall k, u (N + k)%nat <= K * q ^ (N + k)).
  { induction k as [|k IH]; [rewrite Nat.add_0_r; now apply HB|]. replace (N + S k)%nat with (S (N + k)) by lia. eapply Rle_trans; [apply HN; lia|]. cbn [pow].
    apply Rle_trans with (q * (K * q ^ (N + k))); [apply Rmult_le_compat_l; lra|right; ring]. }
  specialize (G (n - N)%nat). now replace (N + (n - N))%nat with n in G by lia.
Qed.
Lemma pow_small (q : R) : 0 <= q < 1 -> forall eps, 0 < eps -> exists N, forall n, (N <= n)%nat -> q ^ n < eps.
Proof.
  intros Hq eps He. destruct (pow_lt_1_zero q ltac:(rewrite Rabs_pos_eq; lra) eps He) as [N HN]. exists N. intros n Hn. specialize (HN n Hn).
  rewrite Rabs_pos_eq in HN by (apply pow_le; lra). exact HN.
Qed.

Section Arg.
  Variable z : C.
  Hypothesis Hz : z <> RtoC 0.
  Notation m := (Cmod z).
  Lemma mod_pos : 0 < m. Proof. now apply Cmod_gt_0. Qed.
  (* psi_(n+1) <= q psi_n eventually *)
  Lemma psi_ratio q : 0 < q -> exists N, forall n, (N <= n)%nat -> Cmod (true_psi (S n) z) <= q * Cmod (true_psi n z).
  Proof.
    intros Hq. pose proof mod_pos as Hm. destruct (nat_above (m + (/ q + 1) * m)) as [N HN]. exists N. intros n Hn. specialize (HN n Hn).
    assert (0 < / q) by now apply Rinv_0_lt_compat.
    assert (H1 : m <= INR (S n)) by (rewrite S_INR; nra).
    pose proof (down_step z (fun k => true_psi k z) Hz (fun k => true_psi_rec k z) n (psi_minimal z (S n) Hz H1)) as D. cbv beta in D.
    assert (C1 : / q <= INR (2 * n + 3) / m - 1).
    { apply (coef_ge z Hz). rewrite plus_INR, mult_INR. change (INR 2) with 2. replace (INR 3) with 3 by (cbn; ring). nra. }
    pose proof (Cmod_ge_0 (true_psi (S n) z)) as P. assert (Q : / q * Cmod (true_psi (S n) z) <= Cmod (true_psi n z)) by nra.
    apply (Rmult_le_compat_l q) in Q; [|lra]. rewrite <- Rmult_assoc, Rinv_r, Rmult_1_l in Q by lra. exact Q.
  Qed.
  Lemma psi_geom q : 0 < q -> exists K, 0 < K /\ forall n, Cmod (true_psi n z) <= K * q ^ n.
  Proof. intros Hq. apply geom_bound; [exact Hq|intros; apply Cmod_ge_0|now apply psi_ratio]. Qed.
  Lemma cas_mod n : 1 <= Cmod (true_psi n z) * Cmod (true_zeta (S n) z) + Cmod (true_psi (S n) z) * Cmod (true_zeta n z).
  Proof.
    pose proof (true_casoratian z n Hz) as E. pose proof (f_equal Cmod E) as E1. rewrite Cmod_opp in E1. replace (Cmod Ci) with 1 in E1 by (unfold Cmod, Ci; cbn; replace (0 * (0 * 1) + 1 * (1 * 1)) with 1 by ring; symmetry; apply sqrt_1).
    rewrite <- E1, <- !Cmod_mult. unfold Cminus. eapply Rle_trans; [apply Cmod_triangle|]. rewrite Cmod_opp. lra.
  Qed.
  Lemma zeta_up : exists N, m <= INR N /\ Cmod (true_zeta N z) < Cmod (true_zeta (S N) z).
  Proof.
    destruct (nat_above m) as [N HN]. destruct (classic (exists n, (N <= n)%nat /\ Cmod (true_zeta n z) < Cmod (true_zeta (S n) z))) as [[n [H1 H2]]|H].
    - exists n. split; [now apply HN|exact H2].
    - exfalso. set (B := Cmod (true_zeta N z)).
      assert (HB : forall k, Cmod (true_zeta (N + k) z) <= B).
      { induction k as [|k IH]; [rewrite Nat.add_0_r; apply Rle_refl|]. replace (N + S k)%nat with (S (N + k)) by lia. eapply Rle_trans; [|exact IH].
        apply Rnot_lt_le. intros Q. apply H. exists (N + k)%nat. split; [lia|exact Q]. }
      assert (B0 : 0 <= B) by apply Cmod_ge_0. destruct (psi_geom (1/2) ltac:(lra)) as (K & HK & HP).
      destruct (pow_small (1/2) ltac:(lra) (/ (2 * K * B + 1))) as [M HM]; [apply Rinv_0_lt_compat; nra|].
      set (n := (N + M)%nat). specialize (HM n ltac:(unfold n; lia)). pose proof (cas_mod n) as Q. pose proof (HB M) as B1. pose proof (HB (S M)) as B2.
      replace (N + S M)%nat with (S n) in B2 by (unfold n; lia). fold n in B1. pose proof (HP n) as P1. pose proof (HP (S n)) as P2. cbn [pow] in P2.
      assert (0 < (1/2) ^ n) by (apply pow_lt; lra). set (p := (1/2) ^ n) in *.
      pose proof (Cmod_ge_0 (true_psi n z)). pose proof (Cmod_ge_0 (true_psi (S n) z)). pose proof (Cmod_ge_0 (true_zeta n z)). pose proof (Cmod_ge_0 (true_zeta (S n) z)).
      assert (X1 : Cmod (true_psi n z) * Cmod (true_zeta (S n) z) <= K * p * B) by (apply Rmult_le_compat; assumption).
      assert (X2 : Cmod (true_psi (S n) z) * Cmod (true_zeta n z) <= K * (1 / 2 * p) * B) by (apply Rmult_le_compat; assumption).
      assert (D : 0 < 2 * K * B + 1) by nra. apply (Rmult_lt_compat_l (2 * K * B + 1)) in HM; [|exact D]. rewrite Rinv_r in HM by lra.
      assert (0 <= K * p * B) by (apply Rmult_le_pos; [nra|exact B0]). nra.
  Qed.
  Lemma zeta_ratio c : exists N, forall n, (N <= n)%nat -> 0 < Cmod (true_zeta n z) /\ c * Cmod (true_zeta n z) <= Cmod (true_zeta (S n) z).
  Proof.
    pose proof mod_pos as Hm. destruct zeta_up as (N & H1 & H2). destruct (nat_above ((Rabs c + 1) * m)) as [M HM]. exists (S (N + M)). intros n Hn.
    pose proof (up_all z (fun k => true_zeta k z) Hz (fun k => true_zeta_rec k z) N H1 H2 (n - 1 - N)) as U. cbv beta in U. replace (N + (n - 1 - N))%nat with (n - 1)%nat in U by lia.
    pose proof (up_step z (fun k => true_zeta k z) Hz (fun k => true_zeta_rec k z) (n - 1) (Rlt_le _ _ U)) as D. cbv beta in D. replace (S (n - 1)) with n in U, D by lia.
    split; [pose proof (Cmod_ge_0 (true_zeta (n - 1) z)); lra|].
    assert (Cc : Rabs c <= INR (2 * (n - 1) + 3) / m - 1).
    { apply (coef_ge z Hz). specialize (HM (n - 1)%nat ltac:(lia)). rewrite plus_INR, mult_INR. change (INR 2) with 2. replace (INR 3) with 3 by (cbn; ring). pose proof (pos_INR (n - 1)). lra. }
    pose proof (Cmod_ge_0 (true_zeta n z)). pose proof (Rle_abs c). nra.
  Qed.
  (* zeta_n grows faster than any geometric sequence *)
  Lemma zeta_geom q : 0 < q -> exists K N, 0 < K /\ forall n, (N <= n)%nat -> 0 < Cmod (true_zeta n z) /\ / Cmod (true_zeta n z) <= K * q ^ n.
  Proof.
    intros Hq. destruct (zeta_ratio (/ q)) as [N HN]. set (u := fun n => if Nat.leb N n then / Cmod (true_zeta n z) else 0).
    assert (Hu : forall n, 0 <= u n). { intros n. unfold u. destruct (Nat.leb_spec N n); [|lra]. left. apply Rinv_0_lt_compat. now apply HN. }
    destruct (geom_bound u q Hq Hu) as (K & HK & HB).
    - exists N. intros n Hn. unfold u. rewrite !(proj2 (Nat.leb_le _ _)) by lia. destruct (HN n Hn) as [A B]. destruct (HN (S n) ltac:(lia)) as [A' _].
      apply (Rmult_le_reg_r (Cmod (true_zeta (S n) z))); [exact A'|]. rewrite Rinv_l by lra. apply (Rmult_le_reg_l (/ q * Cmod (true_zeta n z))); [apply Rmult_lt_0_compat; [now apply Rinv_0_lt_compat|exact A]|].
      replace (/ q * Cmod (true_zeta n z) * (q * / Cmod (true_zeta n z) * Cmod (true_zeta (S n) z))) with (Cmod (true_zeta (S n) z)) by (field; lra). lra.
    - exists K, N. split; [exact HK|]. intros n Hn. split; [now apply HN|]. specialize (HB n). unfold u in HB. rewrite (proj2 (Nat.leb_le _ _)) in HB by lia. exact HB.
  Qed.
  Lemma psi_zeta_bounded : exists K N, 0 < K /\ forall n, (N <= n)%nat -> Cmod (true_psi n z) * Cmod (true_zeta n z) <= K.
  Proof.
    destruct (zeta_ratio 2) as [N1 H1]. destruct (psi_ratio (1/2) ltac:(lra)) as [N2 H2]. exists 1, (S (N1 + N2)). split; [lra|]. intros n Hn.
    set (k := (n - 1)%nat). assert (En : n = S k) by (unfold k; lia). rewrite En. destruct (H1 k ltac:(lia)) as [A B]. pose proof (H2 k ltac:(lia)) as D.
    (* |psi_k zeta_(k+1)| (1 - 1/4) <= 1 *)
    pose proof (true_casoratian z k Hz) as E. pose proof (f_equal Cmod E) as E1. rewrite Cmod_opp in E1. replace (Cmod Ci) with 1 in E1 by (unfold Cmod, Ci; cbn; replace (0 * (0 * 1) + 1 * (1 * 1)) with 1 by ring; symmetry; apply sqrt_1).
    pose proof (Cmod_triangle (true_psi k z * true_zeta (S k) z - true_psi (S k) z * true_zeta k z)%C (true_psi (S k) z * true_zeta k z)%C) as T.
    replace (true_psi k z * true_zeta (S k) z - true_psi (S k) z * true_zeta k z + true_psi (S k) z * true_zeta k z)%C with (true_psi k z * true_zeta (S k) z)%C in T by ring.
    rewrite E1, !Cmod_mult in T.
    pose proof (Cmod_ge_0 (true_psi k z)) as P0. pose proof (Cmod_ge_0 (true_psi (S k) z)) as P1. pose proof (Cmod_ge_0 (true_zeta (S k) z)) as Z1.
    set (p := Cmod (true_psi k z)) in *. set (p1 := Cmod (true_psi (S k) z)) in *. set (c := Cmod (true_zeta k z)) in *. set (c1 := Cmod (true_zeta (S k) z)) in *.
    assert (p1 * c <= 1/2 * p * (1/2 * c1)) by (apply Rmult_le_compat; lra). assert (p1 * c1 <= 1/2 * p * c1) by (apply Rmult_le_compat_r; lra). nra.
  Qed.
End Arg.
Lemma zeta_compare (z y : C) : z <> RtoC 0 -> y <> RtoC 0 -> Cmod z < Cmod y -> exists K N, 0 < K /\ forall n, (N <= n)%nat -> Cmod (true_zeta n y) <= K * Cmod (true_zeta n z).
Proof.
  intros Hz Hy Hl. destruct (zeta_ratio z Hz 1) as [N1 H1]. destruct (zeta_ratio y Hy 1) as [N2 H2]. pose proof (mod_pos z Hz) as Mz. pose proof (mod_pos y Hy) as My.
  set (d := / Cmod z - / Cmod y). assert (Hd : 0 < d) by (unfold d; pose proof (Rinv_lt_contravar _ _ (Rmult_lt_0_compat _ _ Mz My) Hl); lra).
  destruct (nat_above (2 / d)) as [N3 H3]. set (N := S (N1 + N2 + N3)). set (K := Cmod (true_zeta N y) / Cmod (true_zeta N z) + 1).
  assert (ZN : 0 < Cmod (true_zeta N z)) by (apply H1; unfold N; lia). exists K, N.
  assert (HK : 0 < K) by (unfold K; assert (0 <= Cmod (true_zeta N y) / Cmod (true_zeta N z)) by (apply Rdiv_le_0_compat; [apply Cmod_ge_0|exact ZN]); lra). split; [exact HK|].
  assert (G : forall k, Cmod (true_zeta (N + k) y) <= K * Cmod (true_zeta (N + k) z)).
  { induction k as [|k IH].
    - rewrite Nat.add_0_r. unfold K. replace ((Cmod (true_zeta N y) / Cmod (true_zeta N z) + 1) * Cmod (true_zeta N z)) with (Cmod (true_zeta N y) + Cmod (true_zeta N z)) by (field; lra). lra.
    - replace (N + S k)%nat with (S (N + k)) by lia. set (n := (N + k)%nat) in *. assert (Hn : (1 <= n)%nat) by (unfold n, N; lia).
      destruct (H1 n ltac:(unfold n, N; lia)) as [A1 B1]. destruct (H1 (n - 1)%nat ltac:(unfold n, N; lia)) as [A0 B0]. destruct (H2 (n - 1)%nat ltac:(unfold n, N; lia)) as [A2 B2]. replace (S (n - 1)) with n in B0, B2 by lia.
      pose proof (up_step z (fun k => true_zeta k z) Hz (fun k => true_zeta_rec k z) (n - 1) ltac:(cbv beta; replace (S (n - 1)) with n by lia; lra)) as Uz. cbv beta in Uz. replace (S (n - 1)) with n in Uz by lia.
      assert (Uy : Cmod (true_zeta (S n) y) <= (INR (2 * (n - 1) + 3) / Cmod y + 1) * Cmod (true_zeta n y)).
      { replace (S n) with (S (S (n - 1))) by lia. rewrite true_zeta_rec. replace (S (n - 1)) with n by lia. unfold Cminus. eapply Rle_trans; [apply Cmod_triangle|]. rewrite Cmod_opp, Cmod_mult, Cmod_div, Cmod_R, Rabs_pos_eq by (auto using pos_INR). lra. }
      assert (R3 : INR (2 * (n - 1) + 3) / Cmod y + 1 <= INR (2 * (n - 1) + 3) / Cmod z - 1).
      { assert (2 / d <= INR (2 * (n - 1) + 3)) by (apply H3; unfold n, N; lia). apply (Rmult_le_compat_r d) in H; [|lra]. replace (2 / d * d) with 2 in H by (field; lra). unfold d in H. unfold Rdiv. lra. }
      pose proof (Cmod_ge_0 (true_zeta n y)) as Y0. assert (I : 0 <= INR (2 * (n - 1) + 3) / Cmod y) by (apply Rdiv_le_0_compat; [apply pos_INR|exact My]).
      eapply Rle_trans; [exact Uy|]. apply Rle_trans with ((INR (2 * (n - 1) + 3) / Cmod z - 1) * (K * Cmod (true_zeta n z))); [apply Rmult_le_compat; lra|]. nra. }
  intros n Hn. specialize (G (n - N)%nat). now replace (N + (n - N))%nat with n in G by lia.
Qed.
