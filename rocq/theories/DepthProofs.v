(** Explicit truncation error of pena_D1_n (C101). *)
From Coq Require Import Reals ZArith Lra Lia Bool List Arith.
From Coquelicot Require Import Coquelicot.
From Verif Require Import Ops ROps Spec CLemmas CTrig ComplexDiff ModelSpecial ModelMie PenaProofs
  BesselSpec BesselTrue BesselMinimal StackSpec ConvergeSpec BesselLimits DepthSpec.
Open Scope C_scope.
Arguments Cmod x%C_scope.

Section OneArg.
  Variables (e : R) (z : C).
  Hypothesis He : (0 < e <= 1)%R.
  Hypothesis Hz : (e <= Cmod z)%R.
  Let m := Cmod z.
  Notation D N n := (gD1 e N z n).
  Let zn := zn e z He Hz.
  Let mp : (0 < m)%R. Proof. unfold m. lra. Qed.

  (** the computed denominator is as large as the exact one *)
  Lemma d_bigger N k : (1 <= k <= N)%nat -> (m <= INR k)%R -> (m + 1 <= INR N)%R ->
    (INR (2 * k + 1) / m - 1 <= Cmod (D N k + Cn k / z)%C)%R \/ k = N.
  Proof.
    intros Hk Hm HN. destruct (Nat.eq_dec k N) as [->|Hne]; [now right|]. left. pose proof mp as Hmp. assert (Hi : (0 < / m)%R) by now apply Rinv_0_lt_compat.
    pose proof (d_big e z He Hz N (N - S k) ltac:(lia)) as B. replace (N - (N - S k))%nat with (S k) in B by lia.
    assert (Hm' : (m <= INR (S k))%R) by (rewrite S_INR; lra). specialize (B ltac:(lia) Hm' HN). fold m in B.
    rewrite (gD1_step e N z Hz k); [|lia|unfold no_guard; lra].
    set (u := D N (S k) + Cn (S k) / z) in *.
    replace (Cn (S k) / z - 1 / u + Cn k / z) with (Cn (2 * k + 1) / z - 1 / u) by (nrm; unfold Cdiv; ring).
    pose proof (Cmod_triangle (Cn (2 * k + 1) / z - 1 / u) (1 / u)) as T.
    replace (Cn (2 * k + 1) / z - 1 / u + 1 / u) with (Cn (2 * k + 1) / z) in T by ring.
    assert (Hu : u <> 0) by (apply Cmod_gt_0; lra).
    assert (Em : Cmod (Cn (2 * k + 1) / z)%C = (INR (2 * k + 1) / m)%R) by (rewrite Cmod_div, Cmod_R, Rabs_pos_eq by (apply pos_INR || apply zn); reflexivity).
    assert (Eu : Cmod (1 / u)%C = (1 / Cmod u)%R) by (rewrite Cmod_div, Cmod_1 by exact Hu; reflexivity). rewrite Em, Eu in T.
    assert (1 / Cmod u <= 1)%R; [|lra]. unfold Rdiv. rewrite Rmult_1_l, <- Rinv_1. apply Rinv_le_contravar; lra.
  Qed.
  Lemma inv_bound (k : nat) (w : R) : (m <= INR k)%R -> (INR (2 * k + 1) / m - 1 <= w)%R -> (0 < w /\ / w <= m / (INR (2 * k + 1) - m))%R.
  Proof.
    intros Hm Hw. pose proof mp. assert (E : (INR (2 * k + 1) = 2 * INR k + 1)%R) by (rewrite plus_INR, mult_INR; cbn; ring).
    assert (P : (0 < INR (2 * k + 1) - m)%R) by lra. replace (m / (INR (2 * k + 1) - m))%R with (/ (INR (2 * k + 1) / m - 1))%R by (field; lra).
    assert (Q : (0 < INR (2 * k + 1) / m - 1)%R) by (replace (INR (2 * k + 1) / m - 1)%R with ((INR (2 * k + 1) - m) / m)%R by (field; lra); now apply Rdiv_lt_0_compat).
    split; [lra|]. apply Rinv_le_contravar; lra.
  Qed.
  Lemma step N k : (1 <= k < N)%nat -> (m <= INR k)%R ->
       D N k - true_L1 k z = 1 / rr z (S k) - 1 / (D N (S k) + Cn (S k) / z)
       /\ rr z (S k) <> 0 /\ (/ Cmod (rr z (S k))%C <= m / (INR (2 * k + 3) - m))%R
       /\ D N (S k) + Cn (S k) / z <> 0 /\ (S k <> N -> (/ Cmod (D N (S k) + Cn (S k) / z)%C <= m / (INR (2 * k + 3) - m))%R).
  Proof.
    intros Hk Hm. pose proof mp as Hmp. assert (Hi : (0 < / m)%R) by now apply Rinv_0_lt_compat.
    assert (HmN : (m + 1 <= INR N)%R) by (assert (INR (S k) <= INR N)%R by (apply le_INR; lia); rewrite S_INR in *; lra).
    assert (Hmk : (m <= INR (S k))%R) by (rewrite S_INR; lra).
    pose proof (d_big e z He Hz N (N - S k) ltac:(lia)) as B. replace (N - (N - S k))%nat with (S k) in B by lia.
    specialize (B ltac:(lia) Hmk HmN). fold m in B. pose proof (r_big e z He Hz (S k) ltac:(lia) Hmk) as C0. fold m in C0.
    destruct (inv_bound (S k) _ Hmk C0) as [P Q]. replace (2 * S k + 1)%nat with (2 * k + 3)%nat in * by lia.
    assert (Hr : rr z (S k) <> 0) by (apply Cmod_gt_0; lra).
    assert (Hd : D N (S k) + Cn (S k) / z <> 0) by (apply Cmod_gt_0; lra).
    split; [|split; [exact Hr|split; [exact Q|split; [exact Hd|]]]].
    - rewrite (gD1_step e N z Hz k); [|lia|unfold no_guard; lra]. unfold true_L1.
      unfold rr in *. replace (S k - 1)%nat with k in * by lia.
      assert (true_psi k z <> 0) by (apply psi_nonzero; [apply zn|exact Hm]).
      assert (true_psi (S k) z <> 0) by (apply psi_nonzero; [apply zn|exact Hmk]).
      set (u := D N (S k) + Cn (S k) / z) in *. field. repeat split; try assumption; apply zn.
    - intros Hne. destruct (d_bigger N (S k) ltac:(lia) Hmk HmN) as [G|G]; [|contradiction].
      pose proof (proj2 (inv_bound (S k) _ Hmk G)) as R0. now replace (2 * S k + 1)%nat with (2 * k + 3)%nat in R0 by lia.
  Qed.
  Theorem D1_sharp d n : (1 <= n)%nat -> (m <= INR n)%R -> (Cmod (D (n + d + 1) n - true_L1 n z)%C <= depth_error m n d)%R.
  Proof.
    pose proof mp as Hmp. revert n. induction d as [|d IH]; intros n Hn Hm.
    - replace (n + 0 + 1)%nat with (S n) by lia. destruct (step (S n) n ltac:(lia) Hm) as (E & Hr & Br & Hd & _). rewrite E. cbn [depth_error].
      unfold Cminus. eapply Rle_trans; [apply Cmod_triangle|]. rewrite Cmod_opp, !Cmod_div, Cmod_1 by assumption.
      rewrite gD1_top. replace (0 + Cn (S n) / z) with (Cn (S n) / z) by ring. rewrite Cmod_div, Cmod_R, Rabs_pos_eq by (apply pos_INR || apply zn). fold m.
      assert (HS : (0 < INR (S n))%R) by (apply lt_0_INR; lia).
      replace (1 / (INR (S n) / m))%R with (m / INR (S n))%R by (field; split; lra).
      assert (m / (INR (2 * n + 3) - m) <= m / INR (S n))%R.
      { unfold Rdiv. apply Rmult_le_compat_l; [lra|]. assert (E2 : (INR (2 * n + 3) = 2 * INR n + 3)%R) by (rewrite plus_INR, mult_INR; cbn; ring).
        apply Rinv_le_contravar; [exact HS|]. rewrite S_INR, E2. lra. }
      unfold Rdiv in *. rewrite Rmult_1_l. lra.
    - specialize (IH (S n) ltac:(lia)). replace (S n + d + 1)%nat with (n + S d + 1)%nat in IH by lia. set (N := (n + S d + 1)%nat) in *.
      assert (Hmk : (m <= INR (S n))%R) by (rewrite S_INR; lra). specialize (IH Hmk). cbn [depth_error].
      destruct (step N n ltac:(unfold N; lia) Hm) as (E & Hr & Br & Hd & Bd). specialize (Bd ltac:(unfold N; lia)). rewrite E.
      assert (Hps : true_psi (S n) z <> 0) by (apply psi_nonzero; [apply zn|exact Hmk]).
      destruct (psi_id e z He Hz (S n) Hps) as [Er|?]; [|discriminate].
      set (u := D N (S n) + Cn (S n) / z) in *.
      replace (1 / rr z (S n) - 1 / u) with ((/ rr z (S n) * / u) * (u - rr z (S n))) by (field; auto).
      replace (u - rr z (S n)) with (D N (S n) - true_L1 (S n) z) by (rewrite <- Er; unfold u; ring).
      rewrite !Cmod_mult, !Cmod_inv by assumption.
      assert (0 < / Cmod (rr z (S n))%C)%R by (apply Rinv_0_lt_compat, Cmod_gt_0, Hr).
      assert (0 < / Cmod u)%R by (apply Rinv_0_lt_compat, Cmod_gt_0, Hd).
      set (t := (m / (INR (2 * n + 3) - m))%R) in *. apply Rmult_le_compat; [nra|apply Cmod_ge_0| |exact IH]. cbn [pow]. nra.
  Qed.
End OneArg.
