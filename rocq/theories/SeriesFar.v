(** Convergence of the far-field series (C86). *)
From Coq Require Import Reals ZArith Lra Lia Bool List Arith.
From Coquelicot Require Import Coquelicot.
From Verif Require Import Ops ROps Spec StackSpec CLemmas CTrig ComplexDiff BesselSpec ConvergeSpec ModelSpecial ModelMie AngularProofs FarFieldProofs StackProofs BesselLimits StackConverge PlaneExp
  ModelNear NearSpec MaxwellSpec NearLimitSpec NearLimit PassiveSpec PassiveStack PassiveCode SeriesSpec SeriesGrowth SeriesSum SeriesDecay.
Import ListNotations.
Open Scope R_scope.
Arguments Cmod x%C_scope.

Lemma weight_tame : tame (fun n => 2 * INR n + 1).
Proof. apply tame_plus; [apply (tame_mult (fun _ => 2) INR)|apply tame_const; lra]; [apply tame_const; lra|apply tame_INR]. Qed.
Lemma nn_tame : tame nn.
Proof. apply (tame_mult INR (fun n => INR n + 1)); [apply tame_INR|]. apply tame_plus; [apply tame_INR|apply tame_const; lra]. Qed.

Section Far.
  Variables (a b : nat -> C).
  Hypothesis Ha : rapid (fun n => Cmod (a n)). Hypothesis Hb : rapid (fun n => Cmod (b n)).
  Let s n := Cmod (a n) + Cmod (b n).
  Lemma s_ge n : 0 <= s n. Proof. unfold s. pose proof (Cmod_ge_0 (a n)). pose proof (Cmod_ge_0 (b n)). lra. Qed.
  Lemma s_rapid : rapid s. Proof. now apply rapid_plus. Qed.
  Lemma sum_fast (g : nat -> R) u : rapid u -> (forall n, (1 <= n)%nat -> Rabs (g n) <= u n) -> exists l, fast_to (sum1 g) l.
  Proof.
    intros Hu Hg. destruct (family_sum (fun (_ : unit) n => RtoC (g n)) u Hu) as (S & HS); [intros _ n Hn; rewrite Cmod_R; now apply Hg|]. exists (fst (S tt)). intros q Hq. destruct (HS q Hq) as (K & HK & HB).
    exists K. split; [exact HK|]. intros N. eapply Rle_trans; [|apply (HB tt N)]. eapply Rle_trans; [|apply fst_le]. right. f_equal. change (sum1 g N - fst (S tt) = fst (csum1 (fun n => RtoC (g n)) N) - fst (S tt)). rewrite fst_csum1. reflexivity.
  Qed.
  Lemma fast_ext u v l : (forall N, u N = v N) -> fast_to u l -> fast_to v l.
  Proof. intros E H q Hq. destruct (H q Hq) as (K & HK & HB). exists K. split; [exact HK|]. intros N. rewrite <- E. apply HB. Qed.
  Variable k : R.
  Hypothesis Hk : k <> 0.
  Notation c0 := (2 * PI / (k * k)).
  Lemma c0_pos : 0 < c0. Proof. apply Rdiv_lt_0_compat; [pose proof PI_RGT_0; lra|nra]. Qed.
  Lemma ext_sum N : @cs_ext R ROps N (RtoC k) a b = sum1 (fun n => c0 * (2 * INR n + 1) * (fst (a n) + fst (b n))) N.
  Proof.
    rewrite cs_ext_sum, <- sum1_plus. apply sum1_ext. intros n _. rewrite !cs_ext_mp_real by exact Hk. cbn [coef]. ring.
  Qed.
  Lemma sca_sum N : @cs_sca R ROps N (RtoC k) a b = sum1 (fun n => c0 * (2 * INR n + 1) * ((Cmod (a n))² + (Cmod (b n))²)) N.
  Proof.
    rewrite cs_sca_sum, <- sum1_plus. apply sum1_ext. intros n _. rewrite !cs_sca_mp_real by exact Hk. cbn [coef]. ring.
  Qed.
  Lemma cw_rapid v : (forall n, 0 <= v n) -> rapid v -> rapid (fun n => v n * (c0 * (2 * INR n + 1))).
  Proof. intros V0 V. apply rapid_mult; [intros; apply V0|exact V|]. apply (tame_mult (fun _ => c0)); [apply tame_const; apply Rlt_le, c0_pos|apply weight_tame]. Qed.
  Lemma ext_fast : exists Q, fast_to (fun N => @cs_ext R ROps N (RtoC k) a b) Q.
  Proof.
    destruct (sum_fast (fun n => c0 * (2 * INR n + 1) * (fst (a n) + fst (b n))) (fun n => s n * (c0 * (2 * INR n + 1)))) as (l & Hl); [apply cw_rapid; [apply s_ge|apply s_rapid]| |].
    - intros n Hn. rewrite Rabs_mult, Rabs_pos_eq, Rmult_comm by (pose proof c0_pos; pose proof (pos_INR n); nra). apply Rmult_le_compat_r; [pose proof c0_pos; pose proof (pos_INR n); nra|].
      eapply Rle_trans; [apply Rabs_triang|]. unfold s. pose proof (fst_le (a n)). pose proof (fst_le (b n)). lra.
    - exists l. eapply fast_ext; [|exact Hl]. intros N. symmetry. apply ext_sum.
  Qed.
  Lemma sca_fast : (forall n, (1 <= n)%nat -> Cmod (a n) <= 1 /\ Cmod (b n) <= 1) -> exists Q, fast_to (fun N => @cs_sca R ROps N (RtoC k) a b) Q.
  Proof.
    intros H1. destruct (sum_fast (fun n => c0 * (2 * INR n + 1) * ((Cmod (a n))² + (Cmod (b n))²)) (fun n => s n * (c0 * (2 * INR n + 1)))) as (l & Hl); [apply cw_rapid; [apply s_ge|apply s_rapid]| |].
    - intros n Hn. rewrite Rabs_mult, Rabs_pos_eq, Rmult_comm by (pose proof c0_pos; pose proof (pos_INR n); nra). apply Rmult_le_compat_r; [pose proof c0_pos; pose proof (pos_INR n); nra|].
      destruct (H1 n Hn) as [A1 B1]. pose proof (Cmod_ge_0 (a n)). pose proof (Cmod_ge_0 (b n)). unfold Rsqr. rewrite Rabs_pos_eq by nra. unfold s. nra.
    - exists l. eapply fast_ext; [|exact Hl]. intros N. symmetry. apply sca_sum.
  Qed.
  Lemma angw n : (1 <= n)%nat -> @ang_w R ROps n = RtoC ((2 * INR n + 1) / nn n).
  Proof. intros Hn. unfold ang_w. rewrite !rofn_R. change (@cofr R ROps) with RtoC. f_equal. cbn [rdiv ROps]. unfold nn. rewrite plus_INR, !mult_INR, plus_INR. cbn [INR]. reflexivity. Qed.
  Lemma amp_fast : exists T1 T2 : R -> C, fast_all (fun th N => @S1 R ROps N a b th) T1 /\ fast_all (fun th N => @S2 R ROps N a b th) T2.
  Proof.
    set (u := fun n => s n * (2 * INR n + 1)). assert (Hu : rapid u) by (apply rapid_mult; [intros; apply s_ge|apply s_rapid|apply weight_tame]).
    assert (G : forall (p t c d : C) n, (1 <= n)%nat -> Cmod p <= nn n -> Cmod t <= nn n -> Cmod c + Cmod d <= s n -> Cmod (@ang_w R ROps n * (c * p + d * t))%C <= u n).
    { intros p t c d n Hn P T CD. rewrite angw by exact Hn. assert (N0 : 0 < nn n) by (pose proof (nn_ge n); assert (1 <= INR n) by (change 1 with (INR 1); now apply le_INR); lra). pose proof (pos_INR n) as I0.
      rewrite Cmod_mult, Cmod_R, Rabs_pos_eq by (apply Rdiv_le_0_compat; lra). pose proof (Cmod_triangle (c * p)%C (d * t)%C) as Q. rewrite !Cmod_mult in Q. pose proof (Cmod_ge_0 c). pose proof (Cmod_ge_0 d). pose proof (Cmod_ge_0 p). pose proof (Cmod_ge_0 t).
      assert (Q1 : Cmod (c * p + d * t)%C <= s n * nn n) by nra. apply Rle_trans with ((2 * INR n + 1) / nn n * (s n * nn n)); [apply Rmult_le_compat_l; [apply Rdiv_le_0_compat; lra|exact Q1]|]. unfold u. right. field. lra. }
    assert (A : forall th n, (1 <= n)%nat -> Cmod (RtoC (@pi_n R ROps (cos th) n)) <= nn n /\ Cmod (RtoC (@tau_n R ROps (cos th) n)) <= nn n).
    { intros th n Hn. rewrite !Cmod_R. pose proof (pi_bound (cos th) n (COS_bound th)) as P. pose proof (tau_bound (cos th) n (COS_bound th)) as T. pose proof (nn_ge n). pose proof (pos_INR n). unfold nn in *. split; lra. }
    destruct (family_sum (fun th n => (@ang_w R ROps n * (a n * RtoC (@pi_n R ROps (cos th) n) + b n * RtoC (@tau_n R ROps (cos th) n)))%C) u Hu) as (T1 & H1).
    { intros th n Hn. destruct (A th n Hn). apply G; try assumption. unfold s. lra. }
    destruct (family_sum (fun th n => (@ang_w R ROps n * (a n * RtoC (@tau_n R ROps (cos th) n) + b n * RtoC (@pi_n R ROps (cos th) n)))%C) u Hu) as (T2 & H2).
    { intros th n Hn. destruct (A th n Hn). apply G; try assumption. unfold s. lra. }
    exists T1, T2. split; intros q Hq; [destruct (H1 q Hq) as (K & HK & HB)|destruct (H2 q Hq) as (K & HK & HB)]; exists K; (split; [exact HK|]); intros th N; (eapply Rle_trans; [|apply (HB th N)]); right; f_equal; f_equal; unfold S1, S2, orders, mu; cbn [rcos ROps]; rewrite csum_seq; reflexivity.
  Qed.
End Far.

Lemma fast_le (u v : nat -> R) l l' : fast_to u l -> fast_to v l' -> (forall N, u N <= v N) -> l <= l'.
Proof.
  intros Hu Hv H. apply Rnot_lt_le. intros Q. destruct (Hu (1/2) ltac:(lra)) as (K1 & HK1 & B1). destruct (Hv (1/2) ltac:(lra)) as (K2 & HK2 & B2).
  destruct (pow_small (1/2) ltac:(lra) ((l - l') / (K1 + K2))) as [N HN]; [apply Rdiv_lt_0_compat; lra|]. specialize (HN N (le_n _)). specialize (B1 N). specialize (B2 N). specialize (H N).
  apply (Rmult_lt_compat_l (K1 + K2)) in HN; [|lra]. replace ((K1 + K2) * ((l - l') / (K1 + K2))) with (l - l') in HN by (field; lra). apply Rabs_le_between in B1. apply Rabs_le_between in B2. lra.
Qed.
Lemma fast_minus (u v : nat -> R) l l' : fast_to u l -> fast_to v l' -> fast_to (fun N => u N - v N) (l - l').
Proof.
  intros Hu Hv q Hq. destruct (Hu q Hq) as (K1 & H1 & B1). destruct (Hv q Hq) as (K2 & H2 & B2). exists (K1 + K2). split; [lra|]. intros N. specialize (B1 N). specialize (B2 N).
  replace (u N - v N - (l - l')) with ((u N - l) + - (v N - l')) by ring. eapply Rle_trans; [apply Rabs_triang|]. rewrite Rabs_Ropp. lra.
Qed.

Section Stack.
  Variables (l0 : C * C) (rest : list (C * C)) (As : nat -> list (@amps R)).
  Hypothesis Hp : passive_stack (l0 :: rest).
  Hypothesis HN : no_lossless_metal (l0 :: rest).
  Hypothesis HS : all_orders l0 rest As.
  Notation A n := (nth (S (length rest)) (As n) amp0).
  Lemma a_rapid : rapid (fun n => Cmod (na (A n))).
  Proof. intros q Hq. destruct (decay_tm l0 rest q Hp HN Hq) as (K & HK & HB). exists K. split; [exact HK|]. intros n Hn. apply HB; [exact Hn|now apply HS]. Qed.
  Lemma b_rapid : rapid (fun n => Cmod (nb (A n))).
  Proof. intros q Hq. destruct (decay_te l0 rest q Hp Hq) as (K & HK & HB). exists K. split; [exact HK|]. intros n Hn. apply HB; [exact Hn|now apply HS]. Qed.
  Theorem cross_sections_converge (k : R) : k <> 0 -> let a n := na (A n) in let b n := nb (A n) in
    exists Ce Cs, fast_to (fun N => @cs_ext R ROps N (RtoC k) a b) Ce /\ fast_to (fun N => @cs_sca R ROps N (RtoC k) a b) Cs /\ fast_to (fun N => @cs_abs R ROps N (RtoC k) a b) (Ce - Cs) /\ 0 <= Cs <= Ce.
  Proof.
    intros Hk a b. destruct (ext_fast a b a_rapid b_rapid k Hk) as (Ce & He).
    destruct (sca_fast a b a_rapid b_rapid k Hk) as (Cs & Hs). { intros n Hn. split; [exact (coef_le1 l0 rest Hp true n (As n) Hn (HS n Hn))|exact (coef_le1 l0 rest Hp false n (As n) Hn (HS n Hn))]. }
    exists Ce, Cs. split; [exact He|]. split; [exact Hs|]. split.
    - eapply fast_ext; [|apply (fast_minus _ _ _ _ He Hs)]. intros N. cbv beta. pose proof (cs_balance N (RtoC k) a b). lra.
    - split.
      + apply (fast_le (fun _ => 0) _ 0 Cs) in Hs; [exact Hs| |intros N; now apply cs_sca_nonneg]. intros q Hq. exists 1. split; [lra|]. intros N. rewrite Rminus_0_r, Rabs_R0. pose proof (pow_lt q N (proj1 Hq)). lra.
      + apply (fast_le _ _ Cs Ce Hs He). intros N. rewrite (sca_sum a b k Hk), (ext_sum a b k Hk). apply sum1_le. intros n Hn. destruct (passive_bounds n l0 rest (As n) ltac:(lia) Hp (HS n ltac:(lia))) as [P1 P2]. cbv zeta in P1, P2. fold (a n) in P1. fold (b n) in P2.
        apply Rmult_le_compat_l; [pose proof (c0_pos k Hk); pose proof (pos_INR n); nra|]. lra.
  Qed.
  Theorem amplitudes_converge : let a n := na (A n) in let b n := nb (A n) in
    exists T1 T2 : R -> C, fast_all (fun th N => @S1 R ROps N a b th) T1 /\ fast_all (fun th N => @S2 R ROps N a b th) T2.
  Proof. exact (amp_fast _ _ a_rapid b_rapid). Qed.
End Stack.
