(** Decay of the scattering coefficients and of the fields with the order (C86). *)
From Coq Require Import Reals ZArith Lra Lia Bool List Arith.
From Coquelicot Require Import Coquelicot.
From Verif Require Import Ops ROps Spec StackSpec CLemmas CTrig ComplexDiff BesselSpec BesselTrue ConvergeSpec BesselMinimal ModelSpecial ModelMie AngularIntegral
  ExampleStack TorchConverge ModelNear NearSpec MaxwellSpec MaxwellProofs NearLimitSpec PlaneExp PassiveSpec Passive PassiveStack SeriesSpec SeriesGrowth SeriesFlux.
Import ListNotations.
Open Scope R_scope.
Arguments nsq c%C_scope.

(** ** finitely many conditions at once *)
Lemma fin_small (k : nat) (Q : nat -> R -> Prop) : (forall i, (i <= k)%nat -> exists b, 0 < b /\ forall b', 0 < b' <= b -> Q i b') ->
  exists b, 0 < b /\ forall i b', (i <= k)%nat -> 0 < b' <= b -> Q i b'.
Proof.
  induction k as [|k IH]; intros H.
  - destruct (H 0%nat (le_n _)) as (b & Hb & HQ). exists b. split; [exact Hb|]. intros i b' Hi Hb'. replace i with 0%nat by lia. now apply HQ.
  - destruct IH as (b & Hb & HQ); [intros i Hi; apply H; lia|]. destruct (H (S k) (le_n _)) as (c & Hc & HQ'). exists (Rmin b c). split; [now apply Rmin_glb_lt|].
    intros i b' Hi Hb'. pose proof (Rmin_l b c). pose proof (Rmin_r b c). destruct (Nat.eq_dec i (S k)) as [->|Hne]; [apply HQ'; lra|apply HQ; [lia|lra]].
Qed.
Lemma fin_large (k : nat) (Q : nat -> R -> Prop) : (forall i, (i <= k)%nat -> exists b, 0 < b /\ forall b', b <= b' -> Q i b') ->
  exists b, 0 < b /\ forall i b', (i <= k)%nat -> b <= b' -> Q i b'.
Proof.
  induction k as [|k IH]; intros H.
  - destruct (H 0%nat (le_n _)) as (b & Hb & HQ). exists b. split; [exact Hb|]. intros i b' Hi Hb'. replace i with 0%nat by lia. now apply HQ.
  - destruct IH as (b & Hb & HQ); [intros i Hi; apply H; lia|]. destruct (H (S k) (le_n _)) as (c & Hc & HQ'). exists (Rmax b c). pose proof (Rmax_l b c). pose proof (Rmax_r b c). split; [lra|].
    intros i b' Hi Hb'. destruct (Nat.eq_dec i (S k)) as [->|Hne]; [apply HQ'; lra|apply HQ; [lia|lra]].
Qed.
Lemma fin_ev (k : nat) (Q : nat -> nat -> Prop) : (forall i, (i <= k)%nat -> exists N, forall n, (N <= n)%nat -> Q i n) ->
  exists N, forall i n, (i <= k)%nat -> (N <= n)%nat -> Q i n.
Proof.
  induction k as [|k IH]; intros H.
  - destruct (H 0%nat (le_n _)) as (b & HQ). exists b. intros i b' Hi Hb'. replace i with 0%nat by lia. now apply HQ.
  - destruct IH as (b & HQ); [intros i Hi; apply H; lia|]. destruct (H (S k) (le_n _)) as (c & HQ'). exists (b + c)%nat.
    intros i b' Hi Hb'. destruct (Nat.eq_dec i (S k)) as [->|Hne]; [apply HQ'; lia|apply HQ; lia].
Qed.

(** ** rates *)
Definition nn (n : nat) : R := INR n * (INR n + 1).
Lemma nn_ge n : INR n <= nn n. Proof. unfold nn. pose proof (pos_INR n). nra. Qed.
Lemma NN_real n : NN n = RtoC (nn n). Proof. unfold NN, nn. now rewrite RtoC_mult, RtoC_plus. Qed.
Lemma nsq_pos (c : C) : c <> RtoC 0 -> 0 < nsq c.
Proof. intros H. rewrite nsq_mod. pose proof (proj1 (Cmod_gt_0 c) H). nra. Qed.
Lemma arate_tm n w (m : C) y : m <> RtoC 0 -> 0 < y -> arate n w true m y = nn n / (y * y) * (fst (w * Cconj (m * m))%C / nsq (m * m)) - fst w.
Proof.
  intros Hm Hy. assert (H0 : (m * m)%C <> RtoC 0) by now apply Cmult_neq_0. pose proof (nsq_pos _ H0) as P.
  unfold arate, urate. rewrite NN_real.
  replace (RtoC (nn n) / (m * RtoC y * (m * RtoC y)) - RtoC 1)%C with (RtoC (nn n / (y * y)) * (Cconj (m * m) * RtoC (/ nsq (m * m))) - RtoC 1)%C.
  - set (e := (m * m)%C) in *. set (r := nn n / (y * y)). destruct w as [w1 w2], e as [e1 e2]. cbn. unfold Rdiv. ring.
  - assert (Hy' : RtoC y <> RtoC 0) by (intros Q; injection Q; lra). assert (Q : (m * m * (Cconj (m * m) * RtoC (/ nsq (m * m))) = RtoC 1)%C).
    { set (e := (m * m)%C) in *. replace (e * (Cconj e * RtoC (/ nsq e)))%C with (RtoC (nsq e) * RtoC (/ nsq e))%C by (destruct e as [e1 e2]; unfold nsq; apply C_eq; cbn; ring). rewrite <- RtoC_mult, Rinv_r by lra. reflexivity. }
    replace (Cconj (m * m) * RtoC (/ nsq (m * m)))%C with (/ (m * m))%C.
    + rewrite RtoC_div, RtoC_mult by nra. field. auto.
    + transitivity (/ (m * m) * (m * m * (Cconj (m * m) * RtoC (/ nsq (m * m)))))%C; [rewrite Q; ring|field; exact Hm].
Qed.
Lemma arate_te n w (m : C) y : 0 < y -> snd w = 0 -> arate n w false m y = fst w * (nn n / (y * y) - fst (m * m)%C).
Proof.
  intros Hy Hw. unfold arate, urate. rewrite NN_real. replace (RtoC (nn n) / (RtoC y * RtoC y))%C with (RtoC (nn n / (y * y))) by (rewrite RtoC_div, RtoC_mult by nra; reflexivity).
  destruct w as [w1 w2]. cbn in Hw. subst w2. destruct m as [a b]. cbn. ring.
Qed.
Lemma urate_bound n tm (m : C) y s : m <> RtoC 0 -> 0 < s <= y -> Cmod (urate n tm m y) <= nn n * (/ (s * s)) * (if tm then / Cmod (m * m)%C else 1) + (if tm then 1 else Cmod (m * m)%C).
Proof.
  intros Hm Hs. assert (Hy' : RtoC y <> RtoC 0) by (intros Q; injection Q; lra). pose proof (nn_ge n) as G. pose proof (pos_INR n) as G0.
  assert (Y : nn n / (y * y) <= nn n * / (s * s)). { unfold Rdiv. apply Rmult_le_compat_l; [lra|]. apply Rinv_le_contravar; nra. }
  assert (Y0 : 0 <= nn n / (y * y)) by (apply Rdiv_le_0_compat; nra).
  unfold urate, Cminus. rewrite NN_real. destruct tm; (eapply Rle_trans; [apply Cmod_triangle|]); rewrite Cmod_opp.
  - apply Rplus_le_compat; [|rewrite Cmod_1; lra]. replace (RtoC (nn n) / (m * RtoC y * (m * RtoC y)))%C with (RtoC (nn n / (y * y)) * / (m * m))%C by (rewrite RtoC_div, RtoC_mult by nra; field; auto).
    assert (H0 : (m * m)%C <> RtoC 0) by now apply Cmult_neq_0. rewrite Cmod_mult, Cmod_inv, Cmod_R, Rabs_pos_eq by assumption. apply Rmult_le_compat_r; [left; apply Rinv_0_lt_compat; now apply Cmod_gt_0|exact Y].
  - apply Rplus_le_compat; [|lra]. rewrite <- RtoC_mult, <- RtoC_div by nra. rewrite Cmod_R, Rabs_pos_eq by exact Y0. lra.
Qed.

Section Stack.
  Variables (l0 : C * C) (rest : list (C * C)).
  Hypothesis Hp : passive_stack (l0 :: rest).
  Notation L := (length rest).
  Notation m i := (index_at (l0 :: rest) i). Notation x i := (fst (size_at (l0 :: rest) i)).
  Notation X := (x L).
  Lemma X_pos : 0 < X. Proof. apply (x_pos 1 (le_n 1) l0 rest Hp). lia. Qed.
  Lemma m_nz i : m i <> RtoC 0. Proof. apply (m_pass l0 rest Hp). Qed.
  (* a weight for the electric modes *)
  Lemma weight : no_lossless_metal (l0 :: rest) -> exists w : C, 0 < fst w /\ forall i, (i <= L)%nat -> 0 < fst (w * Cconj (m i * m i))%C.
  Proof.
    intros HN. destruct (fin_small L (fun i d => 0 < fst ((d, 1) * Cconj (m i * m i))%C)) as (d & Hd & HQ).
    - intros i Hi. destruct (Hp i ltac:(cbn; lia)) as (_ & I & _). set (e := (m i * m i)%C) in *. specialize (HN i ltac:(cbn; lia)). cbv zeta in HN. fold e in HN.
      destruct (Req_dec (snd e) 0) as [Z|Z].
      + exists 1. split; [lra|]. intros b' Hb'. specialize (HN Z). destruct e as [e1 e2]. cbn in *. nra.
      + exists (snd e / (Rabs (fst e) + 1)). pose proof (Rabs_pos (fst e)) as A. split; [apply Rdiv_lt_0_compat; lra|]. intros b' [B1 B2].
        assert (B3 : b' * (Rabs (fst e) + 1) <= snd e). { apply (Rmult_le_compat_r (Rabs (fst e) + 1)) in B2; [|lra]. replace (snd e / (Rabs (fst e) + 1) * (Rabs (fst e) + 1)) with (snd e) in B2 by (field; lra). exact B2. }
        pose proof (Rle_abs (- fst e)) as A1. rewrite Rabs_Ropp in A1. destruct e as [e1 e2]. cbn in *. nra.
    - exists (d, 1). split; [exact Hd|]. intros i Hi. apply (HQ i d Hi). lra.
  Qed.
  (* admissible weights of a polarisation *)
  Definition good (tm : bool) (w : C) : Prop := 0 < fst w /\ if tm then forall i, (i <= L)%nat -> 0 < fst (w * Cconj (m i * m i))%C else snd w = 0.
  Lemma good_te : good false (RtoC 1). Proof. split; cbn; [lra|reflexivity]. Qed.
  Lemma rates tm w : good tm w -> exists b N, 0 < b /\ forall n i, (N <= n)%nat -> (i <= L)%nat -> b <= brate w tm (m i) /\ forall y, 0 < y <= X -> b <= arate n w tm (m i) y.
  Proof.
    intros [Hw HG]. pose proof X_pos as HX.
    assert (Y : forall n y c, 0 < y <= X -> 0 <= c -> INR n / (X * X) * c <= nn n / (y * y) * c).
    { intros n y c Hy Hc. apply Rmult_le_compat_r; [exact Hc|]. pose proof (nn_ge n) as G. pose proof (pos_INR n) as G0. unfold Rdiv. apply Rmult_le_compat; [exact G0|left; apply Rinv_0_lt_compat; nra|exact G|]. apply Rinv_le_contravar; nra. }
    destruct tm.
    - destruct (fin_small L (fun i b => b <= fst (w * Cconj (m i * m i))%C)) as (b & Hb & HB); [intros i Hi; exists (fst (w * Cconj (m i * m i))%C); split; [now apply HG|intros; lra]|].
      destruct (fin_ev L (fun i n => forall y, 0 < y <= X -> b <= arate n w true (m i) y)) as (N & HN).
      + intros i Hi. set (g := fst (w * Cconj (m i * m i))%C / nsq (m i * m i)). pose proof (m_nz i) as Hm. assert (H0 : (m i * m i)%C <> RtoC 0) by now apply Cmult_neq_0.
        assert (Hg : 0 < g) by (apply Rdiv_lt_0_compat; [now apply HG|now apply nsq_pos]). destruct (nat_above ((b + fst w) * (X * X) / g)) as [N HN]. exists N. intros n Hn y Hy. specialize (HN n Hn).
        rewrite arate_tm by (exact Hm || lra). fold g. specialize (Y n y g Hy (Rlt_le _ _ Hg)).
        apply (Rmult_le_compat_r (g / (X * X))) in HN; [|apply Rlt_le; apply Rdiv_lt_0_compat; nra]. replace ((b + fst w) * (X * X) / g * (g / (X * X))) with (b + fst w) in HN by (field; lra).
        replace (INR n * (g / (X * X))) with (INR n / (X * X) * g) in HN by (unfold Rdiv; ring). lra.
      + exists b, N. split; [exact Hb|]. intros n i Hn Hi. split; [apply HB; [exact Hi|lra]|now apply HN].
    - destruct (fin_ev L (fun i n => forall y, 0 < y <= X -> fst w <= arate n w false (m i) y)) as (N & HN).
      + intros i Hi. destruct (nat_above ((1 + fst (m i * m i)%C) * (X * X))) as [N HN]. exists N. intros n Hn y Hy. specialize (HN n Hn). rewrite arate_te by (exact HG || lra).
        specialize (Y n y 1 Hy ltac:(lra)). rewrite !Rmult_1_r in Y. assert (1 + fst (m i * m i)%C <= INR n / (X * X)).
        { apply (Rmult_le_reg_r (X * X)); [nra|]. replace (INR n / (X * X) * (X * X)) with (INR n) by (field; lra). exact HN. }
        nra.
      + exists (fst w), N. split; [exact Hw|]. intros n i Hn Hi. split; [|now apply HN]. unfold brate, vrate. destruct w as [w1 w2]. cbn in *. lra.
  Qed.

  (** ** the surface *)
  (* |zeta_n F| <= 1 and |zeta_n F'| = O(n) at the surface, |a_n| = O(1 / |zeta_n|^2) *)
  Lemma exterior tm w : 0 < fst w -> exists N, forall n (a : C), (N <= n)%nat -> 0 <= rflux w (state n tm (RtoC 1) (a, RtoC 1) X) ->
    0 < Cmod (true_zeta n (RtoC X)) /\ Cmod (snd (state n tm (RtoC 1) (a, RtoC 1) X)) * Cmod (true_zeta n (RtoC X)) <= 1 /\
    Cmod (fst (state n tm (RtoC 1) (a, RtoC 1) X)) * Cmod (true_zeta n (RtoC X)) <= INR n / X + 2 /\
    Cmod a * Cmod (true_zeta n (RtoC X)) <= Cmod (true_psi n (RtoC X)) + Cmod (snd (state n tm (RtoC 1) (a, RtoC 1) X)).
  Proof.
    intros Hw. pose proof X_pos as HX. set (z := RtoC X). assert (Hz : z <> RtoC 0) by (intros Q; injection Q; lra).
    destruct (zeta_ratio z Hz 2) as [N1 H1]. destruct (nat_above (2 * Cmod w * X / fst w)) as [N2 H2]. exists (S (N1 + N2)). intros n a Hn HR.
    assert (Hn1 : (1 <= n)%nat) by lia. destruct (H1 n ltac:(lia)) as [Z0 _]. destruct (H1 (n - 1)%nat ltac:(lia)) as [Z1 Z2]. replace (S (n - 1)) with n in Z2 by lia. specialize (H2 n ltac:(lia)).
    assert (Zn : true_zeta n z <> RtoC 0) by now apply Cmod_gt_0.
    assert (E : state n tm (RtoC 1) (a, RtoC 1) X = ((true_dpsi n z - a * true_dzeta n z)%C, (true_psi n z - a * true_zeta n z)%C)).
    { unfold state, Fld, dFld. cbn [fst snd true_rf rf_psi rf_zeta rf_dpsi rf_dzeta]. replace (RtoC 1 * RtoC X)%C with z by (unfold z; ring). destruct tm; f_equal; field; intros Q; injection Q; lra. }
    rewrite E in HR |- *. cbn [fst snd]. clear E. set (F := (true_psi n z - a * true_zeta n z)%C) in *. set (P := (true_dpsi n z - a * true_dzeta n z)%C) in *.
    set (t := (true_zeta (n - 1) z / true_zeta n z)%C). assert (Ht : Cmod t <= 1 / 2) by (unfold t; rewrite Cmod_div by exact Zn; apply (Rmult_le_reg_r (Cmod (true_zeta n z))); [exact Z0|]; unfold Rdiv; rewrite Rmult_assoc, Rinv_l by lra; lra).
    assert (EP : P = ((t - RtoC (INR n / X)) * F - Ci / true_zeta n z)%C).
    { pose proof (wr n Hn1 z Hz) as W. assert (D : true_dzeta n z = ((t - RtoC (INR n / X)) * true_zeta n z)%C). { unfold true_dzeta, t. rewrite RtoC_div by lra. fold z. field. auto. }
      assert (Q : (P * true_zeta n z = F * true_dzeta n z - Ci)%C) by (rewrite <- W; unfold P, F; ring).
      transitivity (P * true_zeta n z / true_zeta n z)%C; [field; exact Zn|]. rewrite Q, D. field. exact Zn. }
    assert (F1 : Cmod F * Cmod (true_zeta n z) <= 1).
    { unfold rflux in HR. cbn [fst snd] in HR. rewrite EP in HR.
      assert (E2 : fst (w * (((t - RtoC (INR n / X)) * F - Ci / true_zeta n z) * Cconj F))%C = fst (w * t)%C * nsq F - INR n / X * fst w * nsq F - fst (w * (Ci / true_zeta n z * Cconj F))%C).
      { generalize (Ci / true_zeta n z)%C. intros c. unfold nsq. destruct w as [w1 w2], t as [t1 t2], F as [f1 f2], c as [c1 c2]. cbn. ring. }
      rewrite E2 in HR. rewrite nsq_mod in HR.
      assert (B1 : fst (w * t)%C <= Cmod w * (1/2)). { pose proof (PlaneExp.fst_le (w * t)%C) as Q. rewrite Cmod_mult in Q. pose proof (Rle_abs (fst (w * t)%C)). pose proof (Cmod_ge_0 w). nra. }
      assert (B2 : - fst (w * (Ci / true_zeta n z * Cconj F))%C <= Cmod w * (Cmod F / Cmod (true_zeta n z))).
      { pose proof (PlaneExp.fst_le (w * (Ci / true_zeta n z * Cconj F))%C) as Q. pose proof (Rle_abs (- fst (w * (Ci / true_zeta n z * Cconj F))%C)) as Q1. rewrite Rabs_Ropp in Q1. rewrite !Cmod_mult, Cmod_div in Q by exact Zn.
        replace (Cmod (Cconj F)) with (Cmod F) in Q by (unfold Cmod, Cconj; f_equal; cbn; ring). replace (Cmod Ci) with 1 in Q by (unfold Cmod, Ci; cbn; replace (0 * (0 * 1) + 1 * (1 * 1)) with 1 by ring; symmetry; apply sqrt_1).
        replace (1 / Cmod (true_zeta n z) * Cmod F) with (Cmod F / Cmod (true_zeta n z)) in Q by (unfold Rdiv; ring). lra. }
      assert (B3 : 2 * Cmod w <= INR n / X * fst w). { apply (Rmult_le_compat_r (fst w / X)) in H2; [|apply Rlt_le, Rdiv_lt_0_compat; lra]. replace (2 * Cmod w * X / fst w * (fst w / X)) with (2 * Cmod w) in H2 by (field; lra). replace (INR n / X * fst w) with (INR n * (fst w / X)) by (unfold Rdiv; ring). exact H2. }
      assert (W0 : 0 < Cmod w) by (apply Cmod_gt_0; intros Q; rewrite Q in Hw; cbn in Hw; lra).
      pose proof (Cmod_ge_0 F) as F0. set (f := Cmod F) in *. set (c := Cmod (true_zeta n z)) in *.
      assert (FF : 0 <= f * f) by nra.
      assert (K1 : Cmod w * (f * f) <= Cmod w * (f / c)) by nra.
      apply Rmult_le_reg_l in K1; [|exact W0]. apply (Rmult_le_compat_r c) in K1; [|lra]. replace (f / c * c) with f in K1 by (field; lra).
      destruct (Req_dec f 0) as [->|Hf]; [lra|]. assert (0 < f) by lra. apply (Rmult_le_reg_l f); [assumption|]. lra. }
    split; [exact Z0|]. split; [exact F1|]. split.
    - rewrite EP. set (c := Cmod (true_zeta n z)) in *.
      assert (T : Cmod ((t - RtoC (INR n / X)) * F - Ci / true_zeta n z)%C <= (1/2 + INR n / X) * Cmod F + 1 / c).
      { unfold Cminus at 1. eapply Rle_trans; [apply Cmod_triangle|]. rewrite Cmod_opp, Cmod_mult, Cmod_div by exact Zn. replace (Cmod Ci) with 1 by (unfold Cmod, Ci; cbn; replace (0 * (0 * 1) + 1 * (1 * 1)) with 1 by ring; symmetry; apply sqrt_1).
        apply Rplus_le_compat; [|apply Rle_refl]. apply Rmult_le_compat_r; [apply Cmod_ge_0|]. unfold Cminus. eapply Rle_trans; [apply Cmod_triangle|]. rewrite Cmod_opp, Cmod_R, Rabs_pos_eq by (apply Rdiv_le_0_compat; [apply pos_INR|lra]). lra. }
      apply (Rmult_le_compat_r c) in T; [|lra]. eapply Rle_trans; [exact T|]. assert (I : 0 <= INR n / X) by (apply Rdiv_le_0_compat; [apply pos_INR|lra]).
      replace (((1 / 2 + INR n / X) * Cmod F + 1 / c) * c) with ((1 / 2 + INR n / X) * (Cmod F * c) + 1) by (field; lra). nra.
    - rewrite <- Cmod_mult. replace (a * true_zeta n z)%C with (true_psi n z + - F)%C by (unfold F; ring). eapply Rle_trans; [apply Cmod_triangle|]. rewrite Cmod_opp. lra.
  Qed.

  (** ** coefficients *)
  Lemma surface_flux tm w : good tm w -> exists N, forall n As, (N <= n)%nat -> (1 <= n)%nat -> near_solution n l0 rest As -> 0 <= rflux w (state n tm (RtoC 1) (pair_of tm (nth (S L) As amp0)) X).
  Proof.
    intros HG. destruct (rates tm w HG) as (b & N & Hb & HR). exists N. intros n As HN Hn HS. destruct (sol_matched n Hn l0 rest Hp As tm HS) as (HM & H0 & _).
    apply (rflux_surface n Hn l0 rest w tm Hp) with (P := fun i => pair_of tm (nth i As amp0)); [| |exact HM|exact H0].
    - intros i y Hi Hy. destruct (HR n i HN Hi) as [_ Q]. specialize (Q y Hy). lra.
    - intros i Hi. destruct (HR n i HN Hi) as [Q _]. lra.
  Qed.
  Lemma coef_bound tm w : good tm w -> exists K N, 0 < K /\ forall n As, (N <= n)%nat -> near_solution n l0 rest As ->
    0 < Cmod (true_zeta n (RtoC X)) /\ Cmod (fst (pair_of tm (nth (S L) As amp0))) * (Cmod (true_zeta n (RtoC X)) * Cmod (true_zeta n (RtoC X))) <= K.
  Proof.
    intros HG. pose proof X_pos as HX. assert (Hz : RtoC X <> RtoC 0) by (intros Q; injection Q; lra).
    destruct (surface_flux tm w HG) as [N1 H1]. destruct (exterior tm w (proj1 HG)) as [N2 H2]. destruct (psi_zeta_bounded (RtoC X) Hz) as (K & N3 & HK & H3).
    exists (K + 1), (S (N1 + N2 + N3)). split; [lra|]. intros n As Hn HS. specialize (H1 n As ltac:(lia) ltac:(lia) HS). destruct (sol_matched n ltac:(lia) l0 rest Hp As tm HS) as (_ & _ & E1).
    destruct (pair_of tm (nth (S L) As amp0)) as [a b] eqn:EP. cbn [fst snd] in *. subst b. destruct (H2 n a ltac:(lia) H1) as (Z0 & F1 & _ & A1). specialize (H3 n ltac:(lia)).
    split; [exact Z0|]. set (F := Cmod (snd (state n tm (RtoC 1) (a, RtoC 1) X))) in *. set (c := Cmod (true_zeta n (RtoC X))) in *. nra.
  Qed.
  Lemma coef_le1 tm n As : (1 <= n)%nat -> near_solution n l0 rest As -> Cmod (fst (pair_of tm (nth (S L) As amp0))) <= 1.
  Proof.
    intros Hn HS. destruct (passive_bounds n l0 rest As Hn Hp HS) as [B1 B2]. cbv zeta in B1, B2.
    assert (G : forall c : C, (Cmod c)² <= fst c -> Cmod c <= 1). { intros c Q. pose proof (PlaneExp.fst_le c) as Q1. pose proof (Rle_abs (fst c)). pose proof (Cmod_ge_0 c). unfold Rsqr in Q. nra. }
    destruct tm; apply G; assumption.
  Qed.
  Lemma coef_geom tm w q : good tm w -> 0 < q -> exists K, 0 < K /\ forall n As, (1 <= n)%nat -> near_solution n l0 rest As -> Cmod (fst (pair_of tm (nth (S L) As amp0))) <= K * q ^ n.
  Proof.
    intros HG Hq. pose proof X_pos as HX. assert (Hz : RtoC X <> RtoC 0) by (intros Q; injection Q; lra).
    destruct (coef_bound tm w HG) as (K1 & N1 & HK1 & H1). destruct (zeta_geom (RtoC X) Hz (Rmin q 1)) as (K2 & N2 & HK2 & H2); [apply Rmin_glb_lt; lra|].
    set (N := (N1 + N2)%nat). assert (Sm : exists k, 0 < k /\ forall n, (n <= N)%nat -> k <= q ^ n).
    { destruct (fin_small N (fun i b => b <= q ^ i)) as (b & Hb & HB); [intros i _; exists (q ^ i); split; [now apply pow_lt|intros; lra]|]. exists b. split; [exact Hb|]. intros n Hn. apply HB; [exact Hn|lra]. }
    destruct Sm as (k & Hk & HS). exists (/ k + K1 * (K2 * K2)). assert (0 < / k) by now apply Rinv_0_lt_compat. assert (KK : 0 < K1 * (K2 * K2)) by (apply Rmult_lt_0_compat; [exact HK1|nra]). split; [lra|].
    intros n As Hn HSol. assert (P : 0 < q ^ n) by now apply pow_lt. destruct (Nat.le_gt_cases n N) as [Hle|Hgt].
    - eapply Rle_trans; [exact (coef_le1 tm n As Hn HSol)|]. specialize (HS n Hle). assert (1 <= / k * q ^ n). { apply (Rmult_le_reg_l k); [exact Hk|]. rewrite <- Rmult_assoc, Rinv_r, Rmult_1_l by lra. lra. } nra.
    - destruct (H1 n As ltac:(unfold N in Hgt; lia) HSol) as [Z0 B]. destruct (H2 n ltac:(unfold N in Hgt; lia)) as [_ G]. set (c := Cmod (true_zeta n (RtoC X))) in *. set (A := Cmod (fst (pair_of tm (nth (S L) As amp0)))) in *.
      assert (C0 : 0 < / c) by now apply Rinv_0_lt_compat. set (r := Rmin q 1) in *. assert (Hr : 0 < r <= 1) by (unfold r; split; [apply Rmin_glb_lt; lra|apply Rmin_r]).
      assert (R1 : 0 < r ^ n) by (apply pow_lt; lra). assert (R2 : r ^ n <= 1) by (rewrite <- (pow1 n); apply pow_incr; lra). assert (R3 : r ^ n <= q ^ n) by (apply pow_incr; split; [lra|apply Rmin_l]).
      assert (A1 : A <= K1 * (/ c * / c)). { apply (Rmult_le_reg_r (c * c)); [nra|]. replace (K1 * (/ c * / c) * (c * c)) with K1 by (field; lra). exact B. }
      assert (A2 : / c * / c <= K2 * r ^ n * (K2 * r ^ n)) by (apply Rmult_le_compat; lra).
      assert (A3 : K2 * r ^ n * (K2 * r ^ n) <= K2 * K2 * q ^ n). { replace (K2 * r ^ n * (K2 * r ^ n)) with (K2 * K2 * (r ^ n * r ^ n)) by ring. apply Rmult_le_compat_l; [nra|]. nra. }
      assert (A4 : K1 * (/ c * / c) <= K1 * (K2 * K2 * q ^ n)) by (apply Rmult_le_compat_l; lra). assert (0 < / k * q ^ n) by now apply Rmult_lt_0_compat. lra.
  Qed.
End Stack.

Theorem decay_te l0 rest q : passive_stack (l0 :: rest) -> 0 < q -> exists K, 0 < K /\ forall n As, (1 <= n)%nat -> near_solution n l0 rest As ->
  Cmod (nb (nth (S (length rest)) As amp0)) <= K * q ^ n.
Proof. intros Hp Hq. exact (coef_geom l0 rest Hp false (RtoC 1) q (good_te l0 rest) Hq). Qed.
Theorem decay_tm l0 rest q : passive_stack (l0 :: rest) -> no_lossless_metal (l0 :: rest) -> 0 < q -> exists K, 0 < K /\ forall n As, (1 <= n)%nat -> near_solution n l0 rest As ->
  Cmod (na (nth (S (length rest)) As amp0)) <= K * q ^ n.
Proof. intros Hp HN Hq. destruct (weight l0 rest Hp HN) as (w & W1 & W2). exact (coef_geom l0 rest Hp true w q (conj W1 W2) Hq). Qed.
