(** Decay of the fields inside the particle and at its surface with the order (C86). *)
From Coq Require Import Reals ZArith Lra Lia Bool List Arith.
From Coquelicot Require Import Coquelicot.
From Verif Require Import Ops ROps Spec StackSpec CLemmas CTrig ComplexDiff BesselSpec BesselTrue ConvergeSpec BesselMinimal ModelSpecial ModelMie AngularIntegral
  ExampleStack TorchConverge ModelNear NearSpec MaxwellSpec MaxwellProofs NearLimitSpec PlaneExp PassiveSpec Passive PassiveStack SeriesSpec SeriesGrowth SeriesFlux SeriesDecay SeriesSum SeriesFar.
Import ListNotations.
Open Scope R_scope.
Arguments nsq c%C_scope.
Arguments Cmod x%C_scope.

Lemma Cmod_Ci : Cmod Ci = 1.
Proof. unfold Cmod, Ci. cbn. replace (0 * (0 * 1) + 1 * (1 * 1)) with 1 by ring. apply sqrt_1. Qed.
Lemma le_of_nsq (c : C) t : 0 <= t -> nsq c <= t * t -> Cmod c <= t.
Proof. intros Ht H. rewrite nsq_mod in H. pose proof (Cmod_ge_0 c). nra. Qed.
(* 1 / |zeta_n| is rapid *)
Lemma inv_zeta_rapid (z : C) : z <> RtoC 0 -> rapid (fun n => / Cmod (true_zeta n z)).
Proof. intros Hz. apply rapid_ev. intros q Hq. destruct (zeta_geom z Hz q Hq) as (K & N & HK & HN). exists K, N. split; [exact HK|]. intros n Hn. apply (HN n Hn). Qed.
Lemma psi_rapid (z : C) : z <> RtoC 0 -> rapid (fun n => Cmod (true_psi n z)).
Proof. intros Hz q Hq. destruct (psi_geom z Hz q Hq) as (K & HK & HB). exists K. split; [exact HK|]. intros n _. apply HB. Qed.
(* sequences n >= N bounded by a tame multiple of 1 / |zeta_n| *)
Lemma over_zeta (z : C) (u D : nat -> R) N : z <> RtoC 0 -> tame D -> (forall n, (N <= n)%nat -> u n * Cmod (true_zeta n z) <= D n) -> rapid u.
Proof.
  intros Hz HD H. destruct (zeta_ratio z Hz 1) as [M HM].
  apply (rapid_le u (fun n => Rabs (/ Cmod (true_zeta n z)) * D n) (S (N + M))).
  - apply rapid_mult; [intros; apply Rabs_pos| |exact HD]. apply (rapid_le _ (fun n => / Cmod (true_zeta n z)) M); [now apply inv_zeta_rapid|]. intros n Hn. right. apply Rabs_pos_eq. left. apply Rinv_0_lt_compat. now apply HM.
  - intros n Hn. destruct (HM n ltac:(lia)) as [Z _]. specialize (H n ltac:(lia)). rewrite Rabs_pos_eq by (left; now apply Rinv_0_lt_compat). apply (Rmult_le_reg_r (Cmod (true_zeta n z))); [exact Z|].
    replace (/ Cmod (true_zeta n z) * D n * Cmod (true_zeta n z)) with (D n) by (field; lra). exact H.
Qed.

Section Stack.
  Variables (l0 : C * C) (rest : list (C * C)) (As : nat -> list (@amps R)).
  Hypothesis Hp : passive_stack (l0 :: rest).
  Hypothesis HS : all_orders l0 rest As.
  Notation L := (length rest).
  Notation m i := (index_at (l0 :: rest) i). Notation x i := (fst (size_at (l0 :: rest) i)).
  Notation X := (x L).
  Notation P tm n i := (pair_of tm (nth i (As n) amp0)).
  Notation zX n := (Cmod (true_zeta n (RtoC X))).
  Lemma zX_nz : RtoC X <> RtoC 0. Proof. intros Q. injection Q. pose proof (X_pos l0 rest Hp). lra. Qed.
  (* total rates grow like n^2 at most *)
  Lemma rates_above tm s : 0 < s -> exists c, 0 < c /\ forall n j y, (j <= L)%nat -> s <= y -> Cmod (urate n tm (m j) y) + Cmod (vrate tm (m j)) <= c * (nn n + 1).
  Proof.
    intros Hs. destruct (fin_large L (fun j c => forall n y, s <= y -> Cmod (urate n tm (m j) y) + Cmod (vrate tm (m j)) <= c * (nn n + 1))) as (c & Hc & HB).
    - intros j Hj. set (a := / (s * s) * (if tm then / Cmod (m j * m j) else 1)). set (b := (if tm then 1 else Cmod (m j * m j)) + Cmod (vrate tm (m j))).
      pose proof (m_nz l0 rest Hp j) as Hm. assert (Hm2 : 0 < Cmod (m j * m j)) by (apply Cmod_gt_0; now apply Cmult_neq_0).
      assert (Ha : 0 < a) by (unfold a; apply Rmult_lt_0_compat; [apply Rinv_0_lt_compat; nra|destruct tm; [now apply Rinv_0_lt_compat|lra]]).
      assert (Hb : 0 < b) by (unfold b; pose proof (Cmod_ge_0 (vrate tm (m j))); destruct tm; lra).
      exists (a + b). split; [lra|]. intros c Hc n y Hy. pose proof (urate_bound n tm (m j) y s Hm ltac:(lra)) as U. pose proof (nn_ge n) as G. pose proof (pos_INR n) as G0.
      apply Rle_trans with ((a + b) * (nn n + 1)); [|apply Rmult_le_compat_r; lra].
      apply Rle_trans with (nn n * a + b); [|nra]. unfold a, b. lra.
    - exists c. split; [exact Hc|]. intros n j y Hj Hy. apply (HB j c Hj); [lra|exact Hy].
  Qed.
  (* the continuous field quantities at a point of layer i *)
  Lemma state_rapid tm w i s : good l0 rest tm w -> (i <= L)%nat -> 0 < s <= x i -> match i with O => 0 | S j => x j end <= s ->
    rapid (fun n => Cmod (fst (state n tm (m i) (P tm n i) s))) /\ rapid (fun n => Cmod (snd (state n tm (m i) (P tm n i) s))).
  Proof.
    intros HG Hi Hs Hl. pose proof (X_pos l0 rest Hp) as HX. destruct (rates l0 rest Hp tm w HG) as (b & N1 & Hb & HR). destruct (rates_above tm s ltac:(lra)) as (c & Hc & HC).
    destruct (surface_flux l0 rest Hp tm w HG) as [N2 H2]. destruct (exterior l0 rest Hp tm w (proj1 HG)) as [N3 H3].
    set (kap := fun n => c / b * (nn n + 1)). set (D := fun n => kap n * Cmod w + (INR n / X + 2) + 1).
    assert (K0 : forall n, 0 <= kap n). { intros n. unfold kap. pose proof (nn_ge n). pose proof (pos_INR n). apply Rmult_le_pos; [apply Rlt_le, Rdiv_lt_0_compat; lra|lra]. }
    assert (TD : tame D).
    { assert (T1 : tame kap) by (unfold kap; apply tame_mult; [apply tame_const; apply Rlt_le, Rdiv_lt_0_compat; lra|apply tame_plus; [apply nn_tame|apply tame_const; lra]]).
      unfold D. apply tame_plus; [|apply tame_const; lra]. apply tame_plus; [apply tame_mult; [exact T1|apply tame_const, Cmod_ge_0]|]. apply tame_plus; [|apply tame_const; lra].
      unfold Rdiv. apply tame_mult; [apply tame_INR|apply tame_const; left; now apply Rinv_0_lt_compat]. }
    assert (B : forall n, (S (N1 + N2 + N3) <= n)%nat -> total (state n tm (m i) (P tm n i) s) * (zX n * zX n) <= D n * D n /\ 0 < zX n).
    { intros n Hn. assert (Hn1 : (1 <= n)%nat) by lia. destruct (sol_matched n Hn1 l0 rest Hp (As n) tm (HS n Hn1)) as (HM & H0 & E1).
      assert (RA : forall j y, (j <= L)%nat -> 0 < y <= X -> 0 <= arate n w tm (m j) y) by (intros j y Hj Hy; destruct (HR n j ltac:(lia) Hj) as [_ Q]; specialize (Q y Hy); lra).
      assert (RB : forall j, (j <= L)%nat -> 0 <= brate w tm (m j)) by (intros j Hj; destruct (HR n j ltac:(lia) Hj) as [Q _]; lra).
      pose proof (total_inside n Hn1 l0 rest w tm Hp RA RB (fun j => P tm n j) (kap n) i s HM H0 (K0 n) Hi Hs Hl) as T. cbv beta in T.
      assert (T' : forall j y, (j <= L)%nat -> s <= y <= X -> Cmod (urate n tm (m j) y) + Cmod (vrate tm (m j)) <= kap n * arate n w tm (m j) y /\ Cmod (urate n tm (m j) y) + Cmod (vrate tm (m j)) <= kap n * brate w tm (m j)).
      { intros j y Hj Hy. specialize (HC n j y Hj (proj1 Hy)). destruct (HR n j ltac:(lia) Hj) as [Q1 Q2]. specialize (Q2 y ltac:(lra)).
        assert (E : c * (nn n + 1) = kap n * b) by (unfold kap; field; lra). rewrite E in HC. specialize (K0 n). split; nra. }
      specialize (T T'). clear T'. rewrite (m_last n Hn1 l0 rest) in T. pose proof (H2 n (As n) ltac:(lia) Hn1 (HS n Hn1)) as F0.
      destruct (P tm n (S L)) as [a a1] eqn:EP. cbn [fst snd] in E1. subst a1. destruct (H3 n a ltac:(lia) F0) as (Z0 & Y1 & Y2 & _).
      split; [|exact Z0]. set (u := fst (state n tm (RtoC 1) (a, RtoC 1) X)) in *. set (v := snd (state n tm (RtoC 1) (a, RtoC 1) X)) in *. set (z := zX n) in *.
      pose proof (rflux_bound w (state n tm (RtoC 1) (a, RtoC 1) X)) as RF. fold u v in RF. pose proof (Rle_abs (rflux w (state n tm (RtoC 1) (a, RtoC 1) X))) as RF'.
      assert (ET : total (state n tm (RtoC 1) (a, RtoC 1) X) = Cmod u * Cmod u + Cmod v * Cmod v) by (unfold total; fold u v; now rewrite !nsq_mod). rewrite ET in T.
      set (fl := rflux w (state n tm (RtoC 1) (a, RtoC 1) X)) in *. pose proof (Cmod_ge_0 u) as U0. pose proof (Cmod_ge_0 v) as V0. pose proof (Cmod_ge_0 w) as W0. specialize (K0 n). set (k := kap n) in *.
      set (B2 := INR n / X + 2) in *. assert (HB2 : 0 <= INR n / X) by (apply Rdiv_le_0_compat; [apply pos_INR|lra]).
      assert (UZ : 0 <= Cmod u * z) by (apply Rmult_le_pos; lra). assert (VZ : 0 <= Cmod v * z) by (apply Rmult_le_pos; lra).
      assert (S1 : k * fl <= k * Cmod w * (Cmod u * Cmod v)) by (rewrite Rmult_assoc; apply Rmult_le_compat_l; [exact K0|lra]).
      assert (S2 : total (state n tm (m i) (P tm n i) s) <= k * Cmod w * (Cmod u * Cmod v) + (Cmod u * Cmod u + Cmod v * Cmod v)) by lra.
      apply Rle_trans with ((k * Cmod w * (Cmod u * Cmod v) + (Cmod u * Cmod u + Cmod v * Cmod v)) * (z * z)); [apply Rmult_le_compat_r; [nra|exact S2]|].
      replace ((k * Cmod w * (Cmod u * Cmod v) + (Cmod u * Cmod u + Cmod v * Cmod v)) * (z * z)) with (k * Cmod w * ((Cmod u * z) * (Cmod v * z)) + ((Cmod u * z) * (Cmod u * z) + (Cmod v * z) * (Cmod v * z))) by ring.
      unfold D. fold k B2. set (p := Cmod u * z) in *. set (q := Cmod v * z) in *. assert (KW : 0 <= k * Cmod w) by (apply Rmult_le_pos; lra). set (kw := k * Cmod w) in *.
      assert (2 <= B2) by (unfold B2; lra). assert (p * q <= B2 * 1) by (apply Rmult_le_compat; lra). assert (p * p <= B2 * B2) by (apply Rmult_le_compat; lra). assert (q * q <= 1 * 1) by (apply Rmult_le_compat; lra).
      assert (kw * (p * q) <= kw * B2) by (apply Rmult_le_compat_l; lra). nra. }
    assert (DP : forall n, 0 <= D n). { intros n. unfold D. pose proof (K0 n). pose proof (Cmod_ge_0 w). assert (0 <= INR n / X) by (apply Rdiv_le_0_compat; [apply pos_INR|lra]). assert (0 <= kap n * Cmod w) by now apply Rmult_le_pos. lra. }
    split; (apply (over_zeta (RtoC X) _ D (S (N1 + N2 + N3)) zX_nz TD)); intros n Hn; destruct (B n Hn) as [B1 Z0]; pose proof (DP n) as D0; unfold total in B1; rewrite !nsq_mod in B1.
    - set (u := Cmod (fst (state n tm (m i) (P tm n i) s))) in *. set (v := Cmod (snd (state n tm (m i) (P tm n i) s))) in *. assert (U0 : 0 <= u) by apply Cmod_ge_0. assert (V0 : 0 <= v) by apply Cmod_ge_0. assert (0 <= u * zX n) by (apply Rmult_le_pos; lra). assert (0 <= v * zX n) by (apply Rmult_le_pos; lra). nra.
    - set (u := Cmod (fst (state n tm (m i) (P tm n i) s))) in *. set (v := Cmod (snd (state n tm (m i) (P tm n i) s))) in *. assert (U0 : 0 <= u) by apply Cmod_ge_0. assert (V0 : 0 <= v) by apply Cmod_ge_0. assert (0 <= u * zX n) by (apply Rmult_le_pos; lra). assert (0 <= v * zX n) by (apply Rmult_le_pos; lra). nra.
  Qed.
End Stack.
