(** Rapidly decreasing sequences and their sums. *)
From Coq Require Import Reals ZArith Lra Lia Bool List Arith.
From Coquelicot Require Import Coquelicot.
From Verif Require Import Ops ROps Spec CLemmas CTrig ComplexDiff ModelSpecial ModelMie ConvergeSpec PlaneExp SeriesSpec SeriesGrowth.
Import ListNotations.
Open Scope R_scope.
Arguments Cmod x%C_scope.

Definition rapid (u : nat -> R) : Prop := forall q, 0 < q -> exists K, 0 < K /\ forall n, (1 <= n)%nat -> u n <= K * q ^ n.
(* at most exponential *)
Definition tame (v : nat -> R) : Prop := exists K D, 0 < K /\ 0 < D /\ forall n, (1 <= n)%nat -> 0 <= v n <= K * D ^ n.

Lemma ev_all (u : nat -> R) q K N : 0 < q -> 0 < K -> (forall n, (N <= n)%nat -> u n <= K * q ^ n) -> exists K', 0 < K' /\ forall n, u n <= K' * q ^ n.
Proof.
  intros Hq HK. revert K HK. induction N as [|N IH]; intros K HK H; [exists K; split; [exact HK|intros n; apply H; lia]|].
  assert (P : 0 < q ^ N) by now apply pow_lt. apply (IH (K + Rabs (u N) / q ^ N)); [assert (0 <= Rabs (u N) / q ^ N) by (apply Rdiv_le_0_compat; [apply Rabs_pos|exact P]); lra|].
  intros n Hn. assert (Pn : 0 < q ^ n) by now apply pow_lt. assert (0 <= Rabs (u N) / q ^ N) by (apply Rdiv_le_0_compat; [apply Rabs_pos|exact P]). destruct (Nat.eq_dec n N) as [->|Hne].
  - replace ((K + Rabs (u N) / q ^ N) * q ^ N) with (K * q ^ N + Rabs (u N)) by (field; lra). pose proof (Rle_abs (u N)). nra.
  - specialize (H n ltac:(lia)). nra.
Qed.
Lemma rapid_ev (u : nat -> R) : (forall q, 0 < q -> exists K N, 0 < K /\ forall n, (N <= n)%nat -> u n <= K * q ^ n) -> rapid u.
Proof. intros H q Hq. destruct (H q Hq) as (K & N & HK & HN). destruct (ev_all u q K N Hq HK HN) as (K' & HK' & HB). exists K'. split; [exact HK'|]. intros n _. apply HB. Qed.
Lemma rapid_le (u v : nat -> R) N : rapid v -> (forall n, (N <= n)%nat -> u n <= v n) -> rapid u.
Proof. intros Hv H. apply rapid_ev. intros q Hq. destruct (Hv q Hq) as (K & HK & HB). exists K, (S N). split; [exact HK|]. intros n Hn. eapply Rle_trans; [apply H; lia|apply HB; lia]. Qed.
Lemma rapid_plus u v : rapid u -> rapid v -> rapid (fun n => u n + v n).
Proof. intros Hu Hv q Hq. destruct (Hu q Hq) as (K1 & H1 & B1). destruct (Hv q Hq) as (K2 & H2 & B2). exists (K1 + K2). split; [lra|]. intros n Hn. specialize (B1 n Hn). specialize (B2 n Hn). lra. Qed.
Lemma rapid_mult u v : (forall n, (1 <= n)%nat -> 0 <= u n) -> rapid u -> tame v -> rapid (fun n => u n * v n).
Proof.
  intros U Hu (K & D & HK & HD & HB) q Hq. destruct (Hu (q / D) ltac:(apply Rdiv_lt_0_compat; lra)) as (K1 & H1 & B1). exists (K1 * K). split; [now apply Rmult_lt_0_compat|]. intros n Hn.
  specialize (B1 n Hn). destruct (HB n Hn) as [V0 V1]. specialize (U n Hn).
  apply Rle_trans with (K1 * (q / D) ^ n * (K * D ^ n)); [apply Rmult_le_compat; lra|]. right. unfold Rdiv. rewrite Rpow_mult_distr, pow_inv. field. apply pow_nonzero. lra.
Qed.
Lemma tame_const c : 0 <= c -> tame (fun _ => c).
Proof. intros H. exists (c + 1), 1. split; [lra|]. split; [lra|]. intros n _. rewrite pow1. lra. Qed.
Lemma INR_pow2 n : INR n <= 2 ^ n.
Proof. induction n as [|n IH]; [cbn; lra|]. rewrite S_INR. cbn [pow]. assert (1 <= 2 ^ n) by (apply pow_R1_Rle; lra). lra. Qed.
Lemma tame_INR : tame INR.
Proof. exists 1, 2. split; [lra|]. split; [lra|]. intros n _. pose proof (INR_pow2 n). pose proof (pos_INR n). lra. Qed.
Lemma tame_plus u v : tame u -> tame v -> tame (fun n => u n + v n).
Proof.
  intros (K1 & D1 & H1 & E1 & B1) (K2 & D2 & H2 & E2 & B2). exists (K1 + K2), (D1 + D2). split; [lra|]. split; [lra|]. intros n Hn. specialize (B1 n Hn). specialize (B2 n Hn).
  assert (P1 : D1 ^ n <= (D1 + D2) ^ n) by (apply pow_incr; lra). assert (P2 : D2 ^ n <= (D1 + D2) ^ n) by (apply pow_incr; lra). nra.
Qed.
Lemma tame_mult u v : tame u -> tame v -> tame (fun n => u n * v n).
Proof.
  intros (K1 & D1 & H1 & E1 & B1) (K2 & D2 & H2 & E2 & B2). exists (K1 * K2), (D1 * D2). split; [now apply Rmult_lt_0_compat|]. split; [now apply Rmult_lt_0_compat|]. intros n Hn. specialize (B1 n Hn). specialize (B2 n Hn).
  rewrite Rpow_mult_distr. split; [apply Rmult_le_pos; lra|]. replace (K1 * K2 * (D1 ^ n * D2 ^ n)) with (K1 * D1 ^ n * (K2 * D2 ^ n)) by ring. apply Rmult_le_compat; lra.
Qed.
Lemma rapid_scal c u : 0 <= c -> (forall n, (1 <= n)%nat -> 0 <= u n) -> rapid u -> rapid (fun n => c * u n).
Proof. intros Hc U Hu. apply (rapid_le _ (fun n => u n * c) 0); [apply rapid_mult; [exact U|exact Hu|now apply tame_const]|]. intros n _. right. ring. Qed.
Lemma rapid_ext u v : (forall n, u n = v n) -> rapid u -> rapid v.
Proof. intros H Hu. apply (rapid_le v u 0 Hu). intros n _. right. symmetry. apply H. Qed.

(** ** sums of a family dominated by a rapid sequence *)
Section Family.
  Context {I : Type}.
  Variables (f : I -> nat -> C) (u : nat -> R).
  Hypothesis Hu : rapid u.
  Hypothesis Hf : forall i n, (1 <= n)%nat -> Cmod (f i n) <= u n.
  Lemma block i q K N k : 0 < q < 1 -> 0 < K -> (forall n, (1 <= n)%nat -> u n <= K * q ^ n) -> Cmod (csum1 (f i) (N + k) - csum1 (f i) N)%C <= K / (1 - q) * q ^ N * (1 - q ^ k).
  Proof.
    intros Hq HK HB. induction k as [|k IH]; [rewrite Nat.add_0_r; cbn [pow]; replace (csum1 (f i) N - csum1 (f i) N)%C with (RtoC 0) by ring; rewrite Cmod_0; lra|].
    replace (N + S k)%nat with (S (N + k)) by lia. cbn [csum1].
    replace (csum1 (f i) (N + k) + f i (S (N + k)) - csum1 (f i) N)%C with ((csum1 (f i) (N + k) - csum1 (f i) N) + f i (S (N + k)))%C by ring.
    eapply Rle_trans; [apply Cmod_triangle|]. pose proof (Hf i (S (N + k)) ltac:(lia)) as Q1. pose proof (HB (S (N + k)) ltac:(lia)) as Q2. cbn [pow] in Q2. rewrite pow_add in Q2. cbn [pow].
    apply Rle_trans with (K / (1 - q) * q ^ N * (1 - q ^ k) + K * (q * (q ^ N * q ^ k))); [lra|].
    assert (P : 0 < q ^ N * q ^ k) by (apply Rmult_lt_0_compat; apply pow_lt; lra).
    replace (K / (1 - q) * q ^ N * (1 - q * q ^ k)) with (K / (1 - q) * q ^ N * (1 - q ^ k) + K * (q ^ N * q ^ k)) by (field; lra).
    apply Rplus_le_compat_l. apply Rmult_le_compat_l; [lra|]. nra.
  Qed.
  Lemma block' i q K N k : 0 < q < 1 -> 0 < K -> (forall n, (1 <= n)%nat -> u n <= K * q ^ n) -> Cmod (csum1 (f i) (N + k) - csum1 (f i) N)%C <= K / (1 - q) * q ^ N.
  Proof.
    intros Hq HK HB. eapply Rle_trans; [now apply (block i q K)|]. assert (0 < K / (1 - q)) by (apply Rdiv_lt_0_compat; lra). assert (0 < q ^ N) by (apply pow_lt; lra). assert (0 < q ^ k) by (apply pow_lt; lra).
    assert (0 < K / (1 - q) * q ^ N) by (apply Rmult_lt_0_compat; assumption). nra.
  Qed.
  Definition total_sum (i : I) : C := (real (Lim_seq (fun N => fst (csum1 (f i) N))), real (Lim_seq (fun N => snd (csum1 (f i) N)))).
  Lemma part_lim (pr : C -> R) i : (forall c d : C, pr (c - d)%C = pr c - pr d) -> (forall c, Rabs (pr c) <= Cmod c) -> is_lim_seq (fun N => pr (csum1 (f i) N)) (real (Lim_seq (fun N => pr (csum1 (f i) N)))).
  Proof.
    intros L B. apply Lim_seq_correct'. apply ex_lim_seq_cauchy_corr. intros eps. destruct (Hu (1/2) ltac:(lra)) as (K & HK & HB).
    destruct (pow_small (1/2) ltac:(lra) (pos eps / (4 * K))) as [N HN]; [apply Rdiv_lt_0_compat; [apply cond_pos|lra]|]. exists N.
    assert (G : forall n, (N <= n)%nat -> Rabs (pr (csum1 (f i) n) - pr (csum1 (f i) N)) < eps / 2).
    { intros n Hn. rewrite <- L. eapply Rle_lt_trans; [apply B|]. pose proof (block' i (1/2) K N (n - N) ltac:(lra) HK HB) as Q. replace (N + (n - N))%nat with n in Q by lia. eapply Rle_lt_trans; [exact Q|].
      specialize (HN N (le_n _)). replace (K / (1 - 1 / 2)) with (2 * K) by field. apply (Rmult_lt_compat_l (2 * K)) in HN; [|lra]. replace (2 * K * (pos eps / (4 * K))) with (pos eps / 2) in HN by (field; lra). exact HN. }
    intros n k Hn Hk. pose proof (G n Hn) as A1. pose proof (G k Hk) as A2. rewrite Rabs_minus_sym in A2.
    replace (pr (csum1 (f i) n) - pr (csum1 (f i) k)) with ((pr (csum1 (f i) n) - pr (csum1 (f i) N)) + (pr (csum1 (f i) N) - pr (csum1 (f i) k))) by ring.
    eapply Rle_lt_trans; [apply Rabs_triang|]. lra.
  Qed.
  Lemma part_bound (pr : C -> R) i q K N l : (forall c d : C, pr (c - d)%C = pr c - pr d) -> (forall c, Rabs (pr c) <= Cmod c) -> is_lim_seq (fun N => pr (csum1 (f i) N)) l -> 
    0 < q < 1 -> 0 < K -> (forall n, (1 <= n)%nat -> u n <= K * q ^ n) -> Rabs (pr (csum1 (f i) N) - real l) <= K / (1 - q) * q ^ N.
  Proof.
    intros L B Hl Hq HK HB. destruct l as [l| |]; cbn [real].
    - apply (is_lim_seq_incr_n _ N) in Hl.
      assert (Q : is_lim_seq (fun k => Rabs (pr (csum1 (f i) (k + N)) - pr (csum1 (f i) N))) (Rabs (l - pr (csum1 (f i) N)))).
      { apply (is_lim_seq_abs _ (Finite (l - pr (csum1 (f i) N)))). apply is_lim_seq_minus'; [exact Hl|apply is_lim_seq_const]. }
      rewrite Rabs_minus_sym. apply (is_lim_seq_le (fun k => Rabs (pr (csum1 (f i) (k + N)) - pr (csum1 (f i) N))) (fun _ => K / (1 - q) * q ^ N) (Rabs (l - pr (csum1 (f i) N))) (K / (1 - q) * q ^ N)); [|exact Q|apply is_lim_seq_const].
      intros k. rewrite <- L. eapply Rle_trans; [apply B|]. rewrite Nat.add_comm. now apply block'.
    - exfalso. pose proof (part_lim pr i L B) as P. apply is_lim_seq_unique in Hl. apply is_lim_seq_unique in P. rewrite Hl in P. discriminate.
    - exfalso. pose proof (part_lim pr i L B) as P. apply is_lim_seq_unique in Hl. apply is_lim_seq_unique in P. rewrite Hl in P. discriminate.
  Qed.
  Theorem family_sum : exists S : I -> C, fast_all (fun i N => csum1 (f i) N) S.
  Proof.
    exists total_sum. intros q Hq. destruct (Hu q (proj1 Hq)) as (K & HK & HB). assert (K1 : 0 < K / (1 - q)) by (apply Rdiv_lt_0_compat; lra). exists (2 * (K / (1 - q))). split; [lra|]. intros i N.
    pose proof (part_bound fst i q K N _ ltac:(intros; reflexivity) fst_le (part_lim fst i ltac:(intros; reflexivity) fst_le) Hq HK HB) as A1.
    pose proof (part_bound snd i q K N _ ltac:(intros; reflexivity) snd_le (part_lim snd i ltac:(intros; reflexivity) snd_le) Hq HK HB) as A2. cbn [real] in A1, A2.
    set (d := (csum1 (f i) N - total_sum i)%C). assert (E1 : Rabs (fst d) <= K / (1 - q) * q ^ N) by exact A1. assert (E2 : Rabs (snd d) <= K / (1 - q) * q ^ N) by exact A2. clear A1 A2.
    eapply Rle_trans; [apply Cmod_le_abs|]. lra.
  Qed.
End Family.
