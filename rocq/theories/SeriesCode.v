(** The code's far-field results against the converged multipole series (C86). *)
From Coq Require Import Reals ZArith Lra Lia Bool List Arith.
From Coquelicot Require Import Coquelicot.
From Verif Require Import Ops ROps Spec StackSpec CLemmas CTrig ComplexDiff BesselSpec ConvergeSpec ModelSpecial ModelMie AngularProofs FarFieldProofs StackProofs BesselLimits StackConverge PlaneExp
  ModelNear NearSpec MaxwellSpec NearLimitSpec NearLimit PassiveSpec PassiveStack PassiveCode SeriesSpec SeriesGrowth SeriesSum SeriesDecay SeriesFar.
Import ListNotations.
Open Scope R_scope.
Arguments Cmod x%C_scope.

Lemma code_coefficients n_max n l0 rest As : (1 <= n)%nat -> near_solution n l0 rest As -> regular_stack (@eps30 R ROps) l0 rest n ->
  tends (fun n_add => fst (@pena_ab R ROps n_max n_add l0 rest n)) (na (nth (S (length rest)) As amp0)) /\ tends (fun n_add => snd (@pena_ab R ROps n_max n_add l0 rest n)) (nb (nth (S (length rest)) As amp0)).
Proof.
  intros Hn (K1 & (K2 & K2') & (K3 & K3') & K4) Hs. set (ab := exact_ab n l0 rest).
  assert (G : forall tm, fst (pair_of tm (nth (S (length rest)) As amp0)) = sel tm ab).
  { intros tm. destruct (interfaces_of tm n rest l0 As K1 (K4 tm)) as (ABs & G1 & G2).
    assert (Sv : solves tm (true_rf n) (true_rf n) l0 rest (pair_of tm (nth 0 As amp0)) ABs (fst (pair_of tm (nth (S (length rest)) As amp0))) (RtoC 1)).
    { split; [destruct tm; assumption|]. split; [exact G1|]. destruct (pair_of tm (nth (S (length rest)) As amp0)) as [p q] eqn:Ep.
      replace q with (RtoC 1) in G2; [exact G2|]. destruct tm; cbn in Ep; injection Ep as _ <-; symmetry; assumption. }
    apply (exact_unique n Hn tm l0 rest) in Sv; [|exact Hs]. rewrite Sv. fold ab. ring. }
  destruct (stack_tends n_max n Hn l0 rest Hs) as [Ta Tb]. pose proof (G true) as Gt. pose proof (G false) as Ge. cbn [pair_of fst sel] in Gt, Ge. rewrite Gt, Ge. split; assumption.
Qed.

Lemma fst_minus (c d : C) : fst (c - d)%C = fst c - fst d. Proof. reflexivity. Qed.
Lemma Rabs_sum1 f n : Rabs (sum1 f n) <= sum1 (fun i => Rabs (f i)) n.
Proof. induction n as [|n IH]; cbn [sum1]; [rewrite Rabs_R0; lra|]. eapply Rle_trans; [apply Rabs_triang|]. lra. Qed.
Lemma sum1_term_le f n i : (forall j, (1 <= j <= n)%nat -> 0 <= f j) -> (1 <= i <= n)%nat -> f i <= sum1 f n.
Proof.
  induction n as [|n IH]; intros H Hi; [lia|]. cbn [sum1]. destruct (Nat.eq_dec i (S n)) as [->|Hne].
  - pose proof (sum1_nonneg f n (fun j Hj => H j ltac:(lia))). lra.
  - specialize (IH (fun j Hj => H j ltac:(lia)) ltac:(lia)). pose proof (H (S n) ltac:(lia)). lra.
Qed.
Lemma csum1_dist f g n : Cmod (csum1 f n - csum1 g n)%C <= sum1 (fun i => Cmod (f i - g i)%C) n.
Proof. eapply Rle_trans; [|apply Cmod_csum1]. right. f_equal. unfold Cminus. rewrite csum1_plus, csum1_opp. reflexivity. Qed.

Definition vanishes (u : nat -> R) : Prop := forall eps, 0 < eps -> exists M, forall N, (M <= N)%nat -> Rabs (u N) < eps.
Lemma vanishes_plus u v : vanishes u -> vanishes v -> vanishes (fun N => u N + v N).
Proof.
  intros Hu Hv eps He. destruct (Hu (eps/2) ltac:(lra)) as [M1 H1]. destruct (Hv (eps/2) ltac:(lra)) as [M2 H2]. exists (M1 + M2)%nat. intros N HN. specialize (H1 N ltac:(lia)). specialize (H2 N ltac:(lia)). eapply Rle_lt_trans; [apply Rabs_triang|]. lra.
Qed.
Lemma vanishes_scal c u : vanishes u -> vanishes (fun N => c * u N).
Proof.
  intros H eps He. pose proof (Rabs_pos c) as C0. destruct (H (eps / (Rabs c + 1)) ltac:(apply Rdiv_lt_0_compat; lra)) as [M HM]. exists M. intros N HN. specialize (HM N HN). rewrite Rabs_mult.
  apply (Rmult_lt_compat_l (Rabs c + 1)) in HM; [|lra]. replace ((Rabs c + 1) * (eps / (Rabs c + 1))) with eps in HM by (field; lra). pose proof (Rabs_pos (u N)). nra.
Qed.
Lemma vanishes_le u v : vanishes v -> (forall N, Rabs (u N) <= Rabs (v N)) -> vanishes u.
Proof. intros H L eps He. destruct (H eps He) as [M HM]. exists M. intros N HN. eapply Rle_lt_trans; [apply L|now apply HM]. Qed.
Lemma vanishes_sum (f : nat -> nat -> R) n_max : (forall n, (1 <= n <= n_max)%nat -> vanishes (f n)) -> vanishes (fun N => sum1 (fun n => f n N) n_max).
Proof.
  induction n_max as [|k IH]; intros H; [intros eps He; exists 0%nat; intros; cbn; rewrite Rabs_R0; exact He|]. cbn [sum1]. apply vanishes_plus; [apply IH; intros n Hn; apply H; lia|apply H; lia].
Qed.
Lemma tends_vanish (u : nat -> C) (a : C) : tends u a -> vanishes (fun N => Cmod (u N - a)%C).
Proof. intros H eps He. destruct (H eps He) as [M HM]. exists M. intros N HN. rewrite Rabs_pos_eq by apply Cmod_ge_0. now apply HM. Qed.

Section Code.
  Variables (l0 : C * C) (rest : list (C * C)) (As : nat -> list (@amps R)).
  Hypothesis Hp : passive_stack (l0 :: rest).
  Hypothesis HN : no_lossless_metal (l0 :: rest).
  Hypothesis HS : all_orders l0 rest As.
  Notation A n := (nth (S (length rest)) (As n) amp0).
  Notation a := (fun n => na (A n)). Notation b := (fun n => nb (A n)).
  Notation ca n_max n_add := (fun n => fst (@pena_ab R ROps n_max n_add l0 rest n)). Notation cb n_max n_add := (fun n => snd (@pena_ab R ROps n_max n_add l0 rest n)).
  Section Trunc.
    Variable n_max : nat.
    Hypothesis Hr : forall n, (1 <= n <= n_max)%nat -> regular_stack (@eps30 R ROps) l0 rest n.
    (* distance of the code's coefficients, weighted *)
    Definition dist (n_add : nat) : R := sum1 (fun n => (2 * INR n + 1) * (Cmod (ca n_max n_add n - a n)%C + Cmod (cb n_max n_add n - b n)%C)) n_max.
    Lemma dist_vanishes : vanishes dist.
    Proof.
      unfold dist. apply vanishes_sum. intros n Hn. destruct (code_coefficients n_max n l0 rest (As n) (proj1 Hn) (HS n (proj1 Hn)) (Hr n Hn)) as [Ta Tb]. apply vanishes_scal. apply vanishes_plus; now apply tends_vanish.
    Qed.
    Lemma dist_small eps : 0 < eps -> exists M, forall n_add, (M <= n_add)%nat -> dist n_add < eps.
    Proof. intros He. destruct (dist_vanishes eps He) as [M HM]. exists M. intros N HN'. specialize (HM N HN'). eapply Rle_lt_trans; [apply Rle_abs|exact HM]. Qed.
    Variable k : R.
    Hypothesis Hk : k <> 0.
    Notation c0 := (2 * PI / (k * k)).
    Lemma ext_near n_add : Rabs (@cs_ext R ROps n_max (RtoC k) (ca n_max n_add) (cb n_max n_add) - @cs_ext R ROps n_max (RtoC k) a b) <= c0 * dist n_add.
    Proof.
      rewrite !(ext_sum _ _ k Hk). unfold dist. rewrite <- sum1_minus, <- sum1_scal. eapply Rle_trans; [apply Rabs_sum1|]. apply sum1_le. intros n Hn. cbv beta. pose proof (c0_pos k Hk) as P. pose proof (pos_INR n) as I.
      set (u := fst (pena_ab n_max n_add l0 rest n)). set (v := snd (pena_ab n_max n_add l0 rest n)). clearbody u v. replace (c0 * (2 * INR n + 1) * (fst u + fst v) - c0 * (2 * INR n + 1) * (fst (na (A n)) + fst (nb (A n)))) with (c0 * (2 * INR n + 1) * (fst (u - na (A n))%C + fst (v - nb (A n))%C)) by (rewrite !fst_minus; ring).
      rewrite Rabs_mult, Rabs_pos_eq by nra. rewrite Rmult_assoc. apply Rmult_le_compat_l; [lra|]. apply Rmult_le_compat_l; [lra|]. eapply Rle_trans; [apply Rabs_triang|]. apply Rplus_le_compat; apply fst_le.
    Qed.
    Lemma sq_near (u v : C) : Cmod v <= 1 -> Rabs ((Cmod u)² - (Cmod v)²) <= Cmod (u - v)%C * (Cmod (u - v)%C + 2).
    Proof.
      intros H. pose proof (Cmod_triangle (u - v)%C v) as T1. replace (u - v + v)%C with u in T1 by ring. pose proof (Cmod_triangle (v - u)%C u) as T2. replace (v - u + u)%C with v in T2 by ring.
      replace (Cmod (v - u)%C) with (Cmod (u - v)%C) in T2 by (rewrite <- Cmod_opp; f_equal; ring). pose proof (Cmod_ge_0 u). pose proof (Cmod_ge_0 v). pose proof (Cmod_ge_0 (u - v)%C). unfold Rsqr.
      replace (Cmod u * Cmod u - Cmod v * Cmod v) with ((Cmod u - Cmod v) * (Cmod u + Cmod v)) by ring. rewrite Rabs_mult, (Rabs_pos_eq (Cmod u + Cmod v)) by lra. apply Rmult_le_compat; [apply Rabs_pos|lra|apply Rabs_le; lra|lra].
    Qed.
    Lemma sca_near n_add : dist n_add <= 1 -> Rabs (@cs_sca R ROps n_max (RtoC k) (ca n_max n_add) (cb n_max n_add) - @cs_sca R ROps n_max (RtoC k) a b) <= c0 * 3 * dist n_add.
    Proof.
      intros D1. rewrite !(sca_sum _ _ k Hk). unfold dist in *. rewrite <- sum1_minus, <- sum1_scal. eapply Rle_trans; [apply Rabs_sum1|]. apply sum1_le. intros n Hn. cbv beta. pose proof (c0_pos k Hk) as P. pose proof (pos_INR n) as I.
      assert (T : (2 * INR n + 1) * (Cmod (ca n_max n_add n - a n)%C + Cmod (cb n_max n_add n - b n)%C) <= 1).
      { eapply Rle_trans; [|exact D1]. apply (sum1_term_le (fun n => (2 * INR n + 1) * (Cmod (ca n_max n_add n - a n)%C + Cmod (cb n_max n_add n - b n)%C))); [|exact Hn]. intros j _. apply Rmult_le_pos; [pose proof (pos_INR j); lra|]. pose proof (Cmod_ge_0 (ca n_max n_add j - a j)%C). pose proof (Cmod_ge_0 (cb n_max n_add j - b j)%C). lra. }
      cbv beta in T. set (u := fst (pena_ab n_max n_add l0 rest n)) in *. set (v := snd (pena_ab n_max n_add l0 rest n)) in *. clearbody u v. set (u' := na (A n)) in *. set (v' := nb (A n)) in *.
      assert (U1 : Cmod u' <= 1) by exact (coef_le1 l0 rest Hp true n (As n) (proj1 Hn) (HS n (proj1 Hn))). assert (V1 : Cmod v' <= 1) by exact (coef_le1 l0 rest Hp false n (As n) (proj1 Hn) (HS n (proj1 Hn))).
      pose proof (sq_near u u' U1) as Q1. pose proof (sq_near v v' V1) as Q2. pose proof (Cmod_ge_0 (u - u')%C) as Z1. pose proof (Cmod_ge_0 (v - v')%C) as Z2. set (d := Cmod (u - u')%C) in *. set (e := Cmod (v - v')%C) in *.
      assert (L1 : d <= 1) by nra. assert (L2 : e <= 1) by nra.
      replace (c0 * (2 * INR n + 1) * ((Cmod u)² + (Cmod v)²) - c0 * (2 * INR n + 1) * ((Cmod u')² + (Cmod v')²)) with (c0 * (2 * INR n + 1) * (((Cmod u)² - (Cmod u')²) + ((Cmod v)² - (Cmod v')²))) by ring.
      rewrite Rabs_mult, Rabs_pos_eq by nra. replace (c0 * 3 * ((2 * INR n + 1) * (d + e))) with (c0 * (2 * INR n + 1) * (3 * (d + e))) by ring. apply Rmult_le_compat_l; [nra|]. eapply Rle_trans; [apply Rabs_triang|]. nra.
    Qed.
    Lemma amp_near n_add th : Cmod (@S1 R ROps n_max (ca n_max n_add) (cb n_max n_add) th - @S1 R ROps n_max a b th)%C <= dist n_add /\ Cmod (@S2 R ROps n_max (ca n_max n_add) (cb n_max n_add) th - @S2 R ROps n_max a b th)%C <= dist n_add.
    Proof.
      assert (A : forall n, (1 <= n)%nat -> Cmod (RtoC (@pi_n R ROps (cos th) n)) <= nn n /\ Cmod (RtoC (@tau_n R ROps (cos th) n)) <= nn n).
      { intros n Hn. rewrite !Cmod_R. pose proof (pi_bound (cos th) n (COS_bound th)) as P. pose proof (tau_bound (cos th) n (COS_bound th)) as T. pose proof (nn_ge n). pose proof (pos_INR n). unfold nn in *. split; lra. }
      assert (G : forall (p t c d c' d' : C) n, (1 <= n)%nat -> Cmod p <= nn n -> Cmod t <= nn n -> Cmod (@ang_w R ROps n * (c * p + d * t) - @ang_w R ROps n * (c' * p + d' * t))%C <= (2 * INR n + 1) * (Cmod (c - c')%C + Cmod (d - d')%C)).
      { intros p t c d c' d' n Hn P T. rewrite angw by exact Hn. assert (N0 : 0 < nn n) by (pose proof (nn_ge n); assert (1 <= INR n) by (change 1 with (INR 1); now apply le_INR); lra). pose proof (pos_INR n) as I0. set (W := (2 * INR n + 1) / nn n).
        replace (RtoC W * (c * p + d * t) - RtoC W * (c' * p + d' * t))%C with (RtoC W * ((c - c') * p + (d - d') * t))%C by ring. assert (W0 : 0 <= W) by (apply Rdiv_le_0_compat; lra).
        rewrite Cmod_mult, Cmod_R, Rabs_pos_eq by exact W0. pose proof (Cmod_triangle ((c - c') * p)%C ((d - d') * t)%C) as Q. rewrite !Cmod_mult in Q. pose proof (Cmod_ge_0 (c - c')%C). pose proof (Cmod_ge_0 (d - d')%C). pose proof (Cmod_ge_0 p). pose proof (Cmod_ge_0 t).
        assert (Q1 : Cmod ((c - c') * p + (d - d') * t)%C <= (Cmod (c - c')%C + Cmod (d - d')%C) * nn n) by nra. apply Rle_trans with (W * ((Cmod (c - c')%C + Cmod (d - d')%C) * nn n)); [apply Rmult_le_compat_l; assumption|]. unfold W. right. field. lra. }
      unfold S1, S2, orders, mu. cbn [rcos ROps]. rewrite !csum_seq. unfold dist.
      split; (eapply Rle_trans; [apply csum1_dist|]); apply sum1_le; intros n Hn; destruct (A n (proj1 Hn)) as [P T]; [exact (G _ _ _ _ _ _ n (proj1 Hn) P T)|exact (G _ _ _ _ _ _ n (proj1 Hn) T P)].
    Qed.
  End Trunc.
  Theorem code_far_field (k : R) : k <> 0 -> exists Ce Cs (T1 T2 : R -> C), 0 <= Cs <= Ce /\ Ce = 4 * PI / (k * k) * fst (T1 0) /\
    forall q, 0 < q < 1 -> exists K, 0 < K /\ forall n_max, (forall n, (1 <= n <= n_max)%nat -> regular_stack (@eps30 R ROps) l0 rest n) ->
    forall eps, 0 < eps -> exists M, forall n_add, (M <= n_add)%nat -> let ca := ca n_max n_add in let cb := cb n_max n_add in
      Rabs (@cs_ext R ROps n_max (RtoC k) ca cb - Ce) < K * q ^ n_max + eps /\ Rabs (@cs_sca R ROps n_max (RtoC k) ca cb - Cs) < K * q ^ n_max + eps /\
      Rabs (@cs_abs R ROps n_max (RtoC k) ca cb - (Ce - Cs)) < K * q ^ n_max + eps /\
      forall th, Cmod (@S1 R ROps n_max ca cb th - T1 th)%C < K * q ^ n_max + eps /\ Cmod (@S2 R ROps n_max ca cb th - T2 th)%C < K * q ^ n_max + eps.
  Proof.
    intros Hk. destruct (cross_sections_converge l0 rest As Hp HN HS k Hk) as (Ce & Cs & He & Hsc & Hab & Hle). destruct (amplitudes_converge l0 rest As Hp HN HS) as (T1 & T2 & H1 & H2). cbv zeta in He, Hsc, Hab, H1, H2.
    exists Ce, Cs, T1, T2. split; [exact Hle|]. pose proof (c0_pos k Hk) as P. split.
    - assert (F : fast_to (fun N => @cs_ext R ROps N (RtoC k) a b) (4 * PI / (k * k) * fst (T1 0))).
      { intros q Hq. destruct (H1 q Hq) as (K & HK & HB). exists (4 * PI / (k * k) * K). assert (P2 : 0 < 4 * PI / (k * k)) by (replace (4 * PI / (k * k)) with (2 * (2 * PI / (k * k))) by (field; exact Hk); lra). split; [now apply Rmult_lt_0_compat|].
        intros N. rewrite optical_theorem by exact Hk. rewrite <- Rmult_minus_distr_l, Rabs_mult, Rabs_pos_eq, Rmult_assoc by lra. apply Rmult_le_compat_l; [lra|]. eapply Rle_trans; [|apply (HB 0 N)]. eapply Rle_trans; [|apply fst_le]. right. reflexivity. }
      apply Rle_antisym; [apply (fast_le _ _ _ _ He F)|apply (fast_le _ _ _ _ F He)]; intros; apply Rle_refl.
    - intros q Hq. destruct (He q Hq) as (K1 & HK1 & B1). destruct (Hsc q Hq) as (K2 & HK2 & B2). destruct (H1 q Hq) as (K3 & HK3 & B3). destruct (H2 q Hq) as (K4 & HK4 & B4).
      set (K := K1 + K2 + K3 + K4). exists K. split; [unfold K; lra|]. intros n_max Hr eps Heps. destruct (dist_small n_max Hr (Rmin 1 (eps / (6 * 2 * PI / (k * k) + 1)))) as [M HM].
      { apply Rmin_glb_lt; [lra|]. apply Rdiv_lt_0_compat; [exact Heps|]. replace (6 * 2 * PI / (k * k)) with (6 * (2 * PI / (k * k))) by (field; exact Hk). lra. }
      exists M. intros n_add Hn ca' cb'. specialize (HM n_add Hn). set (c := 2 * PI / (k * k)) in *. replace (6 * 2 * PI / (k * k)) with (6 * c) in HM by (unfold c; field; exact Hk). 
      assert (D0 : 0 <= dist n_max n_add). { unfold dist. apply sum1_nonneg. intros j _. apply Rmult_le_pos; [pose proof (pos_INR j); lra|]. pose proof (Cmod_ge_0 (ca n_max n_add j - a j)%C). pose proof (Cmod_ge_0 (cb n_max n_add j - b j)%C). lra. }
      set (D := dist n_max n_add) in *. assert (D1 : D <= 1) by (left; eapply Rlt_le_trans; [exact HM|apply Rmin_l]).
      assert (D2 : (6 * c + 1) * D < eps). { assert (Q : D < eps / (6 * c + 1)) by (eapply Rlt_le_trans; [exact HM|apply Rmin_r]). apply (Rmult_lt_compat_l (6 * c + 1)) in Q; [|lra]. replace ((6 * c + 1) * (eps / (6 * c + 1))) with eps in Q by (field; lra). exact Q. }
      assert (CD : 0 <= c * D) by (apply Rmult_le_pos; lra).
      pose proof (ext_near n_max k Hk n_add) as E1. pose proof (sca_near n_max k Hk n_add D1) as E2. fold c D in E1, E2. specialize (B1 n_max). specialize (B2 n_max). cbv beta in B1, B2.
      pose proof (cs_balance n_max (RtoC k) (ca n_max n_add) (cb n_max n_add)) as Bal. fold ca' cb' in E1, E2, Bal |- *.
      assert (PN : 0 < q ^ n_max) by (apply pow_lt; lra). set (p := q ^ n_max) in *. assert (KE : K * p = K1 * p + K2 * p + K3 * p + K4 * p) by (unfold K; ring).
      assert (Z1 : 0 < K1 * p) by now apply Rmult_lt_0_compat. assert (Z2 : 0 < K2 * p) by now apply Rmult_lt_0_compat. assert (Z3 : 0 < K3 * p) by now apply Rmult_lt_0_compat. assert (Z4 : 0 < K4 * p) by now apply Rmult_lt_0_compat.
      apply Rabs_le_between in E1. apply Rabs_le_between in E2. apply Rabs_le_between in B1. apply Rabs_le_between in B2.
      split; [apply Rabs_lt_between; lra|]. split; [apply Rabs_lt_between; lra|]. split; [apply Rabs_lt_between; lra|].
      intros th. destruct (amp_near n_max n_add th) as [A1 A2]. fold D ca' cb' in A1, A2. specialize (B3 th n_max). specialize (B4 th n_max). cbv beta in B3, B4. split.
      + replace (S1 n_max ca' cb' th - T1 th)%C with ((S1 n_max ca' cb' th - S1 n_max a b th) + (S1 n_max a b th - T1 th))%C by ring. eapply Rle_lt_trans; [apply Cmod_triangle|]. fold p in B3. lra.
      + replace (S2 n_max ca' cb' th - T2 th)%C with ((S2 n_max ca' cb' th - S2 n_max a b th) + (S2 n_max a b th - T2 th))%C by ring. eapply Rle_lt_trans; [apply Cmod_triangle|]. fold p in B4. lra.
  Qed.
End Code.
