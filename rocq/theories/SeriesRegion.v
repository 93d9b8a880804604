(** Decay of the fields in every region of a passive particle (C86). *)
From Coq Require Import Reals ZArith Lra Lia Bool List Arith.
From Coquelicot Require Import Coquelicot.
From Verif Require Import Ops ROps Spec StackSpec CLemmas CTrig ComplexDiff BesselProofs BesselSpec BesselTrue ConvergeSpec BesselMinimal ModelSpecial ModelMie AngularIntegral
  ExampleStack TorchConverge StackConverge ModelNear NearSpec MaxwellSpec MaxwellProofs NearLimitSpec PlaneExp PassiveSpec Passive PassiveStack SeriesSpec SeriesGrowth SeriesFlux SeriesDecay SeriesSum SeriesFar SeriesInside SeriesAmp.
Import ListNotations.
Open Scope R_scope.
Arguments Cmod x%C_scope.

(* both field quantities of both polarisations *)
Definition decays (A : nat -> @amps R) (rho : C) : Prop :=
  forall tm, rapid (fun n => Cmod (Fld (true_rf n) (pair_of tm (A n)) rho)) /\ rapid (fun n => Cmod (dFld (true_rf n) (pair_of tm (A n)) rho)).
Definition scattered (A : @amps R) : @amps R := {| na := na A; nb := nb A; nc := RtoC 0; nd := RtoC 0 |}.

Lemma rapid_sub (u v : nat -> C) : rapid (fun n => Cmod (u n)) -> rapid (fun n => Cmod (v n)) -> rapid (fun n => Cmod (u n - v n)%C).
Proof. intros Hu Hv. apply (rapid_le _ (fun n => Cmod (u n) + Cmod (v n)) 0); [now apply rapid_plus|]. intros n _. unfold Cminus. eapply Rle_trans; [apply Cmod_triangle|]. rewrite Cmod_opp. lra. Qed.
Lemma rapid_cscal (c : C) (u : nat -> C) : rapid (fun n => Cmod (u n)) -> rapid (fun n => Cmod (c * u n)%C).
Proof. intros Hu. apply (rapid_ext (fun n => Cmod c * Cmod (u n))); [intros; now rewrite Cmod_mult|]. apply rapid_scal; [apply Cmod_ge_0|intros; apply Cmod_ge_0|exact Hu]. Qed.
Lemma rapid_eq (u v : nat -> C) : (forall n, (1 <= n)%nat -> u n = v n) -> rapid (fun n => Cmod (u n)) -> rapid (fun n => Cmod (v n)).
Proof. intros H Hu. apply (rapid_le _ (fun n => Cmod (u n)) 1 Hu). intros n Hn. rewrite H by exact Hn. lra. Qed.
Lemma dpsi_rapid (z : C) : z <> RtoC 0 -> rapid (fun n => Cmod (true_dpsi n z)).
Proof.
  intros Hz. assert (P : rapid (fun n => Cmod (true_psi (n - 1) z))).
  { intros q Hq. destruct (psi_geom z Hz q Hq) as (K & HK & HB). exists (K / q). split; [now apply Rdiv_lt_0_compat|]. intros n Hn. eapply Rle_trans; [apply HB|]. replace n with (S (n - 1)) at 2 by lia. cbn [pow]. right. field. lra. }
  apply (rapid_le _ (fun n => Cmod (true_psi (n - 1) z) + Cmod (true_psi n z) * (1 + INR n / Cmod z)) 0).
  - apply rapid_plus; [exact P|]. apply rapid_mult; [intros; apply Cmod_ge_0|now apply psi_rapid|now apply slope_tame].
  - intros n _. pose proof (dpsi_mod n z Hz). pose proof (Cmod_ge_0 (true_psi n z)). pose proof (ratio_pos n z Hz). nra.
Qed.

Section Stack.
  Variables (l0 : C * C) (rest : list (C * C)) (As : nat -> list (@amps R)).
  Hypothesis Hp : passive_stack (l0 :: rest).
  Hypothesis HN : no_lossless_metal (l0 :: rest).
  Hypothesis HS : all_orders l0 rest As.
  Notation L := (length rest).
  Notation m i := (index_at (l0 :: rest) i). Notation x i := (fst (size_at (l0 :: rest) i)).
  Notation X := (x L).
  Notation P tm n i := (pair_of tm (nth i (As n) amp0)).
  Notation zX n := (Cmod (true_zeta n (RtoC X))).
  Lemma good_ex tm : exists w, good l0 rest tm w.
  Proof. destruct tm; [destruct (weight l0 rest Hp HN) as (w & W1 & W2); exists w; split; assumption|exists (RtoC 1); apply good_te]. Qed.
  Lemma ix_nz i : m i <> RtoC 0. Proof. apply (m_nz l0 rest Hp). Qed.
  Lemma sz i : (i <= L)%nat -> 0 < x i /\ size_at (l0 :: rest) i = RtoC (x i).
  Proof. intros Hi. split; [now apply (x_pos 1 (le_n 1) l0 rest Hp)|now apply (x_real 1 (le_n 1) l0 rest Hp)]. Qed.
  Definition wq (tm : bool) (i : nat) (s : R) (n : nat) : C := if tm then snd (state n tm (m i) (P tm n i) s) else (m i * snd (state n tm (m i) (P tm n i) s))%C.
  Definition dq (tm : bool) (i : nat) (s : R) (n : nat) : C := if tm then (m i * fst (state n tm (m i) (P tm n i) s))%C else fst (state n tm (m i) (P tm n i) s).
  Lemma wd_rapid tm i s : (i <= L)%nat -> 0 < s <= x i -> match i with O => 0 | S j => x j end <= s -> rapid (fun n => Cmod (wq tm i s n)) /\ rapid (fun n => Cmod (dq tm i s n)).
  Proof.
    intros Hi Hs Hl. destruct (good_ex tm) as [w HG]. destruct (state_rapid l0 rest As Hp HS tm w i s HG Hi Hs Hl) as [R1 R2]. unfold wq, dq. destruct tm; split; first [assumption|now apply rapid_cscal].
  Qed.
  (* at a real multiple of the index *)
  Lemma inside_point i s : (i <= L)%nat -> 0 < s <= x i -> match i with O => 0 | S j => x j end <= s -> decays (fun n => nth i (As n) amp0) (m i * RtoC s)%C.
  Proof.
    intros Hi Hs Hl tm. destruct (wd_rapid tm i s Hi Hs Hl) as [R1 R2]. pose proof (ix_nz i) as Hm.
    split; [apply (rapid_eq (wq tm i s)); [|exact R1]|apply (rapid_eq (dq tm i s)); [|exact R2]]; intros n _; unfold wq, dq, Passive.state; destruct tm; cbn [fst snd]; try reflexivity; field; exact Hm.
  Qed.
  Lemma amp_out tm i n s : (1 <= n)%nat -> (i <= S L)%nat -> 0 < s -> P tm n i = solve n tm (m i) s (state n tm (m i) (P tm n i) s).
  Proof. intros Hn Hi Hs. symmetry. apply state_solve; [exact Hn|apply ix_nz|exact Hs]. Qed.
  Lemma zb i s : 0 < s -> (m i * RtoC s)%C <> RtoC 0. Proof. intros Hs. apply mx_nz; [apply ix_nz|exact Hs]. Qed.
  (* regular part in the layers, irregular part above their inner boundary *)
  Lemma reg_part tm i rho : (i <= L)%nat -> rho <> RtoC 0 -> Cmod rho < Cmod (m i * size_at (l0 :: rest) i) ->
    rapid (fun n => Cmod (snd (P tm n i) * true_psi n rho)%C) /\ rapid (fun n => Cmod (snd (P tm n i) * true_dpsi n rho)%C).
  Proof.
    intros Hi Hr Hl. destruct (sz i Hi) as [X0 E]. rewrite E in Hl. assert (Ho : match i with O => 0 | S j => x j end <= x i) by (destruct i; [lra|now apply (x_mono 1 (le_n 1) l0 rest Hp)]).
    destruct (wd_rapid tm i (x i) Hi ltac:(lra) Ho) as [R1 R2]. destruct (regular_decay _ _ _ rho (zb i _ X0) Hr Hl R1 R2) as [D1 D2]. cbv zeta in D1, D2.
    assert (EB : forall n, (1 <= n)%nat -> snd (P tm n i) = ((wq tm i (x i) n * true_dzeta n (m i * RtoC (x i)) - dq tm i (x i) n * true_zeta n (m i * RtoC (x i))) / Ci)%C).
    { intros n Hn. rewrite (amp_out tm i n (x i) Hn ltac:(lia) X0) at 1. unfold solve, wq, dq. cbn [snd]. reflexivity. }
    split; [refine (rapid_eq _ _ _ D1)|refine (rapid_eq _ _ _ D2)]; intros n Hn; cbv beta; rewrite (EB n Hn); reflexivity.
  Qed.
  Lemma irr_part tm j rho : (S j <= L)%nat -> rho <> RtoC 0 -> Cmod (m (S j) * size_at (l0 :: rest) j) < Cmod rho ->
    rapid (fun n => Cmod (fst (P tm n (S j)) * true_zeta n rho)%C) /\ rapid (fun n => Cmod (fst (P tm n (S j)) * true_dzeta n rho)%C).
  Proof.
    intros Hi Hr Hl. destruct (sz j ltac:(lia)) as [X0 E]. rewrite E in Hl. pose proof (x_mono 1 (le_n 1) l0 rest Hp j Hi) as Ho.
    destruct (wd_rapid tm (S j) (x j) Hi ltac:(lra) (Rle_refl _)) as [R1 R2]. destruct (irregular_decay _ _ _ rho (zb (S j) _ X0) Hr Hl R1 R2) as [D1 D2]. cbv zeta in D1, D2.
    assert (EB : forall n, (1 <= n)%nat -> fst (P tm n (S j)) = ((wq tm (S j) (x j) n * true_dpsi n (m (S j) * RtoC (x j)) - dq tm (S j) (x j) n * true_psi n (m (S j) * RtoC (x j))) / Ci)%C).
    { intros n Hn. rewrite (amp_out tm (S j) n (x j) Hn ltac:(lia) X0) at 1. unfold solve, wq, dq. cbn [fst]. reflexivity. }
    split; [refine (rapid_eq _ _ _ D1)|refine (rapid_eq _ _ _ D2)]; intros n Hn; cbv beta; rewrite (EB n Hn); reflexivity.
  Qed.
  Lemma inside_annulus i rho : (i <= L)%nat -> rho <> RtoC 0 -> match i with O => True | S j => Cmod (m i * size_at (l0 :: rest) j) < Cmod rho end -> Cmod rho < Cmod (m i * size_at (l0 :: rest) i) ->
    decays (fun n => nth i (As n) amp0) rho.
  Proof.
    intros Hi Hr Hlo Hhi tm. destruct (reg_part tm i rho Hi Hr Hhi) as [R1 R2]. unfold Fld, dFld. cbn [true_rf rf_psi rf_zeta rf_dpsi rf_dzeta].
    destruct i as [|j].
    - assert (Z : forall n, (1 <= n)%nat -> fst (P tm n 0%nat) = RtoC 0) by (intros n Hn; destruct (sol_matched n Hn l0 rest Hp (As n) tm (HS n Hn)) as (_ & H0 & _); exact H0).
      split; [refine (rapid_eq _ _ _ R1)|refine (rapid_eq _ _ _ R2)]; intros n Hn; cbv beta; rewrite (Z n Hn); ring.
    - destruct (irr_part tm j rho Hi Hr Hlo) as [Q1 Q2]. split; [exact (rapid_sub _ _ R1 Q1)|exact (rapid_sub _ _ R2 Q2)].
  Qed.
  (* outside *)
  Lemma outside_zeta rho : rho <> RtoC 0 -> rho = RtoC X \/ X < Cmod rho -> exists K N, 0 < K /\ forall n, (N <= n)%nat -> Cmod (true_zeta n rho) <= K * zX n /\ Cmod (true_zeta (n - 1) rho) <= K * zX n.
  Proof.
    intros Hr H. pose proof (zX_nz l0 rest Hp) as HX. pose proof (X_pos l0 rest Hp) as XP. destruct (zeta_ratio (RtoC X) HX 1) as [M HM].
    assert (G : exists K N, 0 < K /\ forall n, (N <= n)%nat -> Cmod (true_zeta n rho) <= K * zX n).
    { destruct H as [->|H]; [exists 1, 0%nat; split; [lra|intros; lra]|]. apply zeta_compare; [exact HX|exact Hr|]. now rewrite Cmod_R, Rabs_pos_eq by lra. }
    destruct G as (K & N & HK & HB). exists K, (S (N + M)). split; [exact HK|]. intros n Hn. split; [apply HB; lia|]. eapply Rle_trans; [apply HB; lia|]. apply Rmult_le_compat_l; [lra|]. destruct (HM (n - 1)%nat ltac:(lia)) as [_ Q]. replace (S (n - 1)) with n in Q by lia. lra.
  Qed.
  Lemma outside_irr tm rho : rho <> RtoC 0 -> rho = RtoC X \/ X < Cmod rho ->
    rapid (fun n => Cmod (fst (P tm n (S L)) * true_zeta n rho)%C) /\ rapid (fun n => Cmod (fst (P tm n (S L)) * true_dzeta n rho)%C).
  Proof.
    intros Hr H. destruct (good_ex tm) as [w HG]. destruct (coef_bound l0 rest Hp tm w HG) as (K & N & HK & HB). destruct (outside_zeta rho Hr H) as (K1 & N1 & HK1 & H1). pose proof (zX_nz l0 rest Hp) as HX.
    set (D := fun n => K * K1 * (1 + INR n / Cmod rho)). assert (TD : tame D) by (unfold D; apply tame_mult; [apply tame_const; nra|now apply slope_tame]).
    assert (G : forall n f, (S (N + N1) <= n)%nat -> Cmod f <= K1 * (1 + INR n / Cmod rho) * zX n -> Cmod (fst (P tm n (S L)) * f)%C * zX n <= D n).
    { intros n f Hn Hf. destruct (HB n (As n) ltac:(lia) (HS n ltac:(lia))) as [Z0 B]. rewrite Cmod_mult. set (a := Cmod (fst (P tm n (S L)))) in *. assert (A0 : 0 <= a) by apply Cmod_ge_0. unfold D. pose proof (ratio_pos n rho Hr) as R1. set (t := 1 + INR n / Cmod rho) in *.
      apply Rle_trans with (a * (K1 * t * zX n) * zX n); [apply Rmult_le_compat_r; [lra|]; apply Rmult_le_compat_l; [exact A0|exact Hf]|].
      replace (a * (K1 * t * zX n) * zX n) with (K1 * t * (a * (zX n * zX n))) by ring. replace (K * K1 * t) with (K1 * t * K) by ring. apply Rmult_le_compat_l; [|exact B]. unfold t. nra. }
    split; apply (over_zeta (RtoC X) _ D (S (N + N1)) HX TD); intros n Hn; apply (G n _ Hn); destruct (H1 n ltac:(lia)) as [Q1 Q2]; pose proof (ratio_pos n rho Hr) as R1.
    - assert (0 <= K1 * zX n) by (apply Rmult_le_pos; [lra|apply Cmod_ge_0]). nra.
    - pose proof (dzeta_mod n rho Hr) as Dz. eapply Rle_trans; [exact Dz|]. apply (Rmult_le_compat_l (INR n / Cmod rho)) in Q1; [|exact R1]. lra.
  Qed.
  Lemma outside_scattered rho : rho <> RtoC 0 -> rho = RtoC X \/ X < Cmod rho -> decays (fun n => scattered (nth (S L) (As n) amp0)) rho.
  Proof.
    intros Hr H tm. destruct (outside_irr tm rho Hr H) as [R1 R2]. unfold Fld, dFld. cbn [true_rf rf_psi rf_zeta rf_dpsi rf_dzeta].
    split; [apply (rapid_ext (fun n => Cmod (fst (P tm n (S L)) * true_zeta n rho)%C)); [|exact R1]|apply (rapid_ext (fun n => Cmod (fst (P tm n (S L)) * true_dzeta n rho)%C)); [|exact R2]];
      intros n; rewrite <- Cmod_opp; f_equal; destruct tm; cbn [pair_of scattered na nb nc nd fst snd]; ring.
  Qed.
  Lemma outside_total rho : rho <> RtoC 0 -> rho = RtoC X \/ X < Cmod rho -> decays (fun n => nth (S L) (As n) amp0) rho.
  Proof.
    intros Hr H tm. destruct (outside_irr tm rho Hr H) as [R1 R2]. unfold Fld, dFld. cbn [true_rf rf_psi rf_zeta rf_dpsi rf_dzeta].
    assert (Z : forall n, (1 <= n)%nat -> snd (P tm n (S L)) = RtoC 1) by (intros n Hn; destruct (sol_matched n Hn l0 rest Hp (As n) tm (HS n Hn)) as (_ & _ & H1); exact H1).
    split; [refine (rapid_eq _ _ _ (rapid_sub _ _ (psi_rapid rho Hr) R1))|refine (rapid_eq _ _ _ (rapid_sub _ _ (dpsi_rapid rho Hr) R2))]; intros n Hn; cbv beta; rewrite (Z n Hn); ring.
  Qed.
  Lemma arg_out rho : in_layer (l0 :: rest) (S L) rho -> rho <> RtoC 0 /\ (rho = RtoC X \/ X < Cmod rho).
  Proof.
    destruct (sz L (le_n _)) as [X0 E]. intros [(s & Hs & -> & H1 & _)|(H0 & H1 & _)]; rewrite (m_last 1 (le_n 1) l0 rest) in *.
    - replace (RtoC 1 * RtoC s)%C with (RtoC s) by ring. split; [intros Q; injection Q; lra|]. rewrite Cmod_R, Rabs_pos_eq by lra. destruct H1 as [H1| ->]; [right; exact H1|left; reflexivity].
    - split; [exact H0|]. right. rewrite E in H1. replace (RtoC 1 * RtoC X)%C with (RtoC X) in H1 by ring. now rewrite Cmod_R, Rabs_pos_eq in H1 by lra.
  Qed.
  Theorem region_decays i rho : (i <= S L)%nat -> in_layer (l0 :: rest) i rho -> decays (fun n => nth i (As n) amp0) rho /\ rho <> RtoC 0.
  Proof.
    intros Hi H. destruct (Nat.eq_dec i (S L)) as [->|Hne]; [destruct (arg_out rho H) as [H0 H1]; split; [now apply outside_total|exact H0]|]. assert (HiL : (i <= L)%nat) by lia. destruct H as [(s & Hs & -> & H1 & H2)|(H0 & H1 & H2)].
    - specialize (H2 ltac:(cbn; lia)). split; [|now apply zb]. apply inside_point; [exact HiL|lra|destruct i; [lra|exact H1]].
    - specialize (H2 ltac:(cbn; lia)). split; [|exact H0]. now apply inside_annulus.
  Qed.
End Stack.
