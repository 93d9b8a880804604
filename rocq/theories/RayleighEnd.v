(** Small layered particles: amplitudes, solvability and the code's coefficients. *)
From Coq Require Import Reals ZArith Lra Lia Bool List Arith.
From Coquelicot Require Import Coquelicot.
From Verif Require Import Ops ROps Spec StackSpec CLemmas CTrig ComplexDiff BesselProofs BesselSpec BesselTrue ConvergeSpec BesselMinimal ModelSpecial ModelMie FarFieldProofs PenaProofs StackProofs BesselLimits StackConverge
  ModelNear NearSpec MaxwellSpec NearLimitSpec NearLimit PassiveSpec PassiveStack RayleighSpec RayleighBase RayleighRadial RayleighStack.
Import ListNotations.
Open Scope R_scope.

Theorem rayleigh_amplitudes n l0 rest P i : (1 <= n)%nat -> nonzero_stack (l0 :: rest) -> static_solution n l0 rest P -> (i <= S (length rest))%nat ->
  exists K d, 0 < d /\ forall t As, 0 < t < d -> near_solution n (scaled t l0) (map (scaled t) rest) As ->
    let A := nth i As amp0 in let m := index_at (l0 :: rest) i in
    Cmod (na A - RtoC (t ^ (2 * n + 1)) * (leading n * snd (P i) * (m * m * Cpow_n m n)))%C <= K * t ^ (2 * n + 3) /\ Cmod (nd A - fst (P i) * m / Cpow_n m n)%C <= K * t ^ 2 /\
    Cmod (nb A) <= K * t ^ (2 * n + 3) /\ Cmod (nc A - / Cpow_n m n)%C <= K * t ^ 2.
Proof.
  intros Hn Hst HP Hi. destruct (static_grow n Hn l0 rest Hst P HP) as [G1 G2]. destruct (te_grow n Hn l0 rest Hst) as [E1 E2].
  destruct (amps_close n Hn l0 rest Hst true _ G1 G2 i Hi) as (K1 & d1 & [HK1 Hd1] & H1). destruct (amps_close n Hn l0 rest Hst false _ E1 E2 i Hi) as (K2 & d2 & [HK2 Hd2] & H2).
  exists (K1 + K2), (Rmin d1 d2). split; [apply Rmin_glb_lt; lra|]. intros t As Ht HS A m. pose proof (Rmin_l d1 d2). pose proof (Rmin_r d1 d2).
  destruct (H1 t As ltac:(lra) HS) as [A1 A2]. destruct (H2 t As ltac:(lra) HS) as [B1 B2]. cbn [pair_of fst snd static_amp] in *. fold A in A1, A2, B1, B2. fold m in A1, A2, B2.
  assert (Q1 : 0 <= t ^ (2 * n + 3)) by (apply pow_le; lra). assert (Q2 : 0 <= t ^ 2) by (apply pow_le; lra). replace (nb A - RtoC (t ^ (2 * n + 1)) * RtoC 0)%C with (nb A) in B1 by ring.
  repeat split; (eapply Rle_trans; [eassumption|]; apply Rmult_le_compat_r; lra).
Qed.
Theorem rayleigh_coefficients n l0 rest P : (1 <= n)%nat -> nonzero_stack (l0 :: rest) -> static_solution n l0 rest P ->
  exists K d, 0 < d /\ forall t As, 0 < t < d -> near_solution n (scaled t l0) (map (scaled t) rest) As ->
    let A := nth (S (length rest)) As amp0 in
    Cmod (na A - RtoC (t ^ (2 * n + 1)) * (leading n * induced rest P))%C <= K * t ^ (2 * n + 3) /\ Cmod (nb A) <= K * t ^ (2 * n + 3).
Proof.
  intros Hn Hst HP. destruct (rayleigh_amplitudes n l0 rest P (S (length rest)) Hn Hst HP (le_n _)) as (K & d & Hd & H). exists K, d. split; [exact Hd|]. intros t As Ht HS A. destruct (H t As Ht HS) as (A1 & _ & A2 & _).
  fold A in A1, A2. split; [|exact A2]. rewrite (last_index n Hn l0 rest) in A1. rewrite cpow_R, pow1 in A1. unfold induced. replace (leading n * snd (P (S (length rest))) * (RtoC 1 * RtoC 1 * RtoC 1))%C with (leading n * snd (P (S (length rest))))%C in A1 by ring. exact A1.
Qed.

(** the exact problem of a small particle is uniquely solvable *)
Section Solvable.
  Variable n : nat.
  Hypothesis Hn : (1 <= n)%nat.
  Variables (l0 : C * C) (rest : list (C * C)).
  Hypothesis Hst : nonzero_stack (l0 :: rest).
  Variable t : R.
  Hypothesis Ht : 0 < t.
  Hypothesis Hg : forall tm, snd (grow_t n l0 rest tm t (S (length rest))) <> RtoC 0.
  Notation L := (length rest).
  Notation g tm := (grow_t n l0 rest tm t).
  Definition unshrink (v : C * C) : C * C := (Cpow_n (RtoC t) (2 * n + 1) * fst v, snd v)%C.
  Lemma shrink_un v : shrink n t (unshrink v) = v.
  Proof. destruct v as [a b]. unfold shrink, unshrink. cbn [fst snd]. apply (f_equal2 pair); [field; now apply tp_nz|reflexivity]. Qed.
  Lemma shrink_inj v w : shrink n t v = shrink n t w -> v = w.
  Proof.
    destruct v as [a b], w as [a' b']. unfold shrink. cbn [fst snd]. intros E. pose proof (f_equal fst E) as E1. pose proof (f_equal snd E) as E2. cbn [fst snd] in E1, E2. subst b'. f_equal.
    pose proof (tp_nz t (2 * n + 1) Ht) as T. transitivity (a / Cpow_n (RtoC t) (2 * n + 1) * Cpow_n (RtoC t) (2 * n + 1))%C; [field; exact T|rewrite E1; field; exact T].
  Qed.
  Definition rsol (i : nat) : @amps R :=
    let p := unshrink (cscale (/ snd (g true (S L)))%C (g true i)) in let e := unshrink (cscale (/ snd (g false (S L)))%C (g false i)) in
    {| na := fst p; nb := fst e; nc := snd e; nd := snd p |}.
  Lemma rsol_pair tm i : pair_of tm (rsol i) = unshrink (cscale (/ snd (g tm (S L)))%C (g tm i)). Proof. destruct tm; reflexivity. Qed.
  Lemma rsol_solution : near_solution n (scaled t l0) (map (scaled t) rest) (map rsol (seq 0 (S (S L)))).
  Proof.
    unfold near_solution. rewrite !map_length, !seq_length. split; [reflexivity|]. rewrite !nth_tab by lia.
    split; [split; [change (fst (pair_of true (rsol 0)) = RtoC 0)|change (fst (pair_of false (rsol 0)) = RtoC 0)]; rewrite rsol_pair; unfold unshrink, cscale; cbn [fst snd grow_t qgrow]; ring|]. split.
    - split; [change (snd (pair_of false (rsol (S L))) = RtoC 1)|change (snd (pair_of true (rsol (S L))) = RtoC 1)]; rewrite rsol_pair; unfold unshrink, cscale; cbn [snd]; field; apply Hg.
    - intros tm i Hi. rewrite !nth_tab by lia. rewrite scaled_size, !scaled_nth. apply (iface_shrink n Hn); [exact Ht|now apply rm_nz|now apply rm_nz|now apply (rx_nz n Hn)|]. rewrite !rsol_pair, !shrink_un.
      apply (qmatched_scale tm L (fun i => index_at (l0 :: rest) i) (fun i => quad_t n (index_at (l0 :: rest) i * size_at (l0 :: rest) i)%C t) (fun i => quad_t n (index_at (l0 :: rest) (S i) * size_at (l0 :: rest) i)%C t)); [intros j; now apply rm_nz| |exact Hi].
      apply qgrow_matched; [intros j; now apply rm_nz|]. intros j Hj. apply quad_wr; [exact Hn|now apply (cout_nz n Hn)|exact Ht].
  Qed.
  Lemma rsol_unique As : near_solution n (scaled t l0) (map (scaled t) rest) As -> As = map rsol (seq 0 (S (S L))).
  Proof.
    intros HS. pose proof (proj1 HS) as HL. rewrite map_length in HL. apply (nth_ext _ _ amp0 amp0); [now rewrite map_length, seq_length|]. intros i Hi. rewrite HL in Hi. rewrite nth_tab by exact Hi.
    assert (X : forall tm, pair_of tm (nth i As amp0) = pair_of tm (rsol i)).
    { intros tm. apply shrink_inj. rewrite rsol_pair, shrink_un. apply (exact_grow n Hn l0 rest Hst t As tm Ht HS). lia. }
    pose proof (X true) as X1. pose proof (X false) as X2. unfold pair_of in X1, X2. destruct (nth i As amp0) as [a b c d], (rsol i) as [a' b' c' d']. cbn [na nb nc nd] in *.
    pose proof (f_equal fst X1) as E1. pose proof (f_equal snd X1) as E2. pose proof (f_equal fst X2) as E3. pose proof (f_equal snd X2) as E4. cbn [fst snd] in *. now subst.
  Qed.
End Solvable.
Theorem rayleigh_solvable n l0 rest P : (1 <= n)%nat -> nonzero_stack (l0 :: rest) -> static_solution n l0 rest P ->
  exists d, 0 < d /\ forall t, 0 < t < d -> exists As, near_solution n (scaled t l0) (map (scaled t) rest) As /\ forall As', near_solution n (scaled t l0) (map (scaled t) rest) As' -> As' = As.
Proof.
  intros Hn Hst HP. destruct (static_grow n Hn l0 rest Hst P HP) as [G1 _]. destruct (te_grow n Hn l0 rest Hst) as [E1 _].
  destruct (grows_close n Hn l0 rest Hst true (S (length rest)) (le_n _)) as [_ C1]. destruct (grows_close n Hn l0 rest Hst false (S (length rest)) (le_n _)) as [_ C2].
  destruct (cl_away _ _ G1 C1) as (d1 & Hd1 & A1). destruct (cl_away _ _ E1 C2) as (d2 & Hd2 & A2). exists (Rmin d1 d2). split; [apply Rmin_glb_lt; lra|]. intros t Ht. pose proof (Rmin_l d1 d2). pose proof (Rmin_r d1 d2).
  specialize (A1 t ltac:(lra)). specialize (A2 t ltac:(lra)). cbv beta in A1, A2.
  assert (Hg : forall tm, snd (grow_t n l0 rest tm t (S (length rest))) <> RtoC 0).
  { intros [|] E; [rewrite E in A1; apply Cmod_gt_0 in G1|rewrite E in A2; apply Cmod_gt_0 in E1]; rewrite Cmod_0 in *; lra. }
  exists (map (rsol n l0 rest t) (seq 0 (S (S (length rest))))). split; [apply rsol_solution; (assumption || lra)|]. intros As' H'. apply rsol_unique; (assumption || lra).
Qed.

(** the code's coefficients *)
Lemma code_is_exact n_max n l0 rest As : (1 <= n)%nat -> regular_stack (@eps30 R ROps) l0 rest n -> near_solution n l0 rest As ->
  let A := nth (S (length rest)) As amp0 in
  tends (fun n_add => fst (@pena_ab R ROps n_max n_add l0 rest n)) (na A) /\ tends (fun n_add => snd (@pena_ab R ROps n_max n_add l0 rest n)) (nb A).
Proof.
  intros Hn Hs (K1 & (K2 & K2') & (K3 & K3') & K4) A. set (ab := exact_ab n l0 rest).
  assert (G : forall tm, fst (pair_of tm (nth (S (length rest)) As amp0)) = sel tm ab).
  { intros tm. destruct (interfaces_of tm n rest l0 As K1 (K4 tm)) as (ABs & G1 & G2).
    assert (Sv : solves tm (true_rf n) (true_rf n) l0 rest (pair_of tm (nth 0 As amp0)) ABs (fst (pair_of tm (nth (S (length rest)) As amp0))) (RtoC 1)).
    { split; [destruct tm; assumption|]. split; [exact G1|]. destruct (pair_of tm (nth (S (length rest)) As amp0)) as [p q] eqn:Ep.
      replace q with (RtoC 1) in G2; [exact G2|]. destruct tm; cbn in Ep; injection Ep as _ <-; symmetry; assumption. }
    apply (exact_unique n Hn tm l0 rest) in Sv; [|exact Hs]. rewrite Sv. fold ab. ring. }
  destruct (stack_tends n_max n Hn l0 rest Hs) as [Ta Tb]. pose proof (G true) as Gt. pose proof (G false) as Ge. cbn [pair_of fst sel] in Gt, Ge. unfold A. rewrite Gt, Ge. split; assumption.
Qed.
