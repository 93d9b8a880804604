(** Passive layered particles: the exact boundary-value problem has exactly one solution, and it does not emit. *)
From Coq Require Import Reals ZArith Lra Lia Bool List Arith.
From Coquelicot Require Import Coquelicot.
From Verif Require Import Ops ROps Spec StackSpec CLemmas CTrig ComplexDiff BesselSpec BesselTrue ConvergeSpec BesselMinimal ModelSpecial ModelMie AngularIntegral
  ExampleStack TorchConverge ModelNear NearSpec MaxwellSpec MaxwellProofs NearLimitSpec PlaneExp FarZone PassiveSpec Passive.
Import ListNotations.
Open Scope C_scope.

Section Order.
  Variable n : nat.
  Hypothesis Hn : (1 <= n)%nat.
  Notation rf := (true_rf n).
  Notation state := (state n).
  Lemma wr z : z <> RtoC 0 -> true_psi n z * true_dzeta n z - true_dpsi n z * true_zeta n z = Ci.
  Proof.
    intros Hz. rewrite zeta_split, dzeta_split. transitivity (Ci * (true_psi n z * tdchi n z - true_dpsi n z * tchi n z)); [ring|]. rewrite (true_wronskian n z Hn Hz). ring.
  Qed.
  Lemma Ci_nz : Ci <> RtoC 0. Proof. intros E. injection E. lra. Qed.
  Lemma flux_ext tm A B x : (0 < x)%R -> flux (state tm (RtoC 1) (A, B) x) = ((Cmod A)² - dot A B)%R.
  Proof.
    intros Hx. assert (E : flux (state tm (RtoC 1) (A, B) x) = snd (dFld rf (A, B) (RtoC x) * Cconj (Fld rf (A, B) (RtoC x)))).
    { unfold flux, Passive.state. replace (RtoC 1 * RtoC x) with (RtoC x) by ring. destruct tm; cbn [fst snd]; f_equal; f_equal; [field|f_equal; field]; intros Q; injection Q; lra. }
    rewrite E. clear E. unfold Fld, dFld. cbn [fst snd true_rf rf_psi rf_zeta rf_dpsi rf_dzeta]. rewrite zeta_split, dzeta_split.
    assert (Hz : RtoC x <> RtoC 0) by (intros Q; injection Q; lra).
    pose proof (true_wronskian n (RtoC x) Hn Hz) as W. pose proof (realc_true_psi n x) as R1. pose proof (realc_true_dpsi n x) as R2. pose proof (realc_tchi n x) as R3. pose proof (realc_tdchi n x) as R4.
    rewrite (realc_eq _ R1), (realc_eq _ R2), (realc_eq _ R3), (realc_eq _ R4) in W |- *. clear R1 R2 R3 R4.
    revert W. generalize (fst (true_psi n (RtoC x))) (fst (true_dpsi n (RtoC x))) (fst (tchi n (RtoC x))) (fst (tdchi n (RtoC x))). intros p p' c c' W.
    rewrite <- !RtoC_mult, <- RtoC_minus in W. injection W as W. unfold Rsqr. rewrite Cmod_sqr. destruct A as [a1 a2], B as [d1 d2]. unfold dot. cbn.
    transitivity (((a1 * a1 + a2 * a2) - (a1 * d1 + a2 * d2)) * (p * c' - p' * c))%R; [ring|rewrite W; ring].
  Qed.
  (* the amplitudes of a region from the continuous quantities *)
  Definition solve (tm : bool) (m : C) (x : R) (s : C * C) : C * C :=
    let z := m * RtoC x in let d := if tm then m * fst s else fst s in let w := if tm then snd s else m * snd s in
    ((w * true_dpsi n z - d * true_psi n z) / Ci, (w * true_dzeta n z - d * true_zeta n z) / Ci).
  Lemma solve_state tm m x s : m <> RtoC 0 -> (0 < x)%R -> state tm m (solve tm m x s) x = s.
  Proof.
    intros Hm Hx. pose proof (wr _ (mx_nz m x Hm Hx)) as W. pose proof Ci_nz as HC. destruct s as [u v]. unfold Passive.state, solve, Fld, dFld. cbn [fst snd true_rf rf_psi rf_zeta rf_dpsi rf_dzeta].
    revert W. generalize (true_psi n (m * RtoC x)) (true_dpsi n (m * RtoC x)) (true_zeta n (m * RtoC x)) (true_dzeta n (m * RtoC x)). intros p p' c c' W.
    assert (X : forall d w : C, (w * c' - d * c) / Ci * p - (w * p' - d * p) / Ci * c = w /\ (w * c' - d * c) / Ci * p' - (w * p' - d * p) / Ci * c' = d).
    { intros d w. split; [transitivity (w * (p * c' - p' * c) / Ci)|transitivity (d * (p * c' - p' * c) / Ci)]; [field; exact HC|rewrite W; field; exact HC|field; exact HC|rewrite W; field; exact HC]. }
    destruct tm; cbn [fst snd]; [destruct (X (m * u) v) as [-> ->]|destruct (X u (m * v)) as [-> ->]]; f_equal; field; exact Hm.
  Qed.
  Lemma state_solve tm m x AB : m <> RtoC 0 -> (0 < x)%R -> solve tm m x (state tm m AB x) = AB.
  Proof.
    intros Hm Hx. pose proof (wr _ (mx_nz m x Hm Hx)) as W. pose proof Ci_nz as HC. destruct AB as [a b]. unfold Passive.state, solve, Fld, dFld. cbn [fst snd true_rf rf_psi rf_zeta rf_dpsi rf_dzeta].
    revert W. generalize (true_psi n (m * RtoC x)) (true_dpsi n (m * RtoC x)) (true_zeta n (m * RtoC x)) (true_dzeta n (m * RtoC x)). intros p p' c c' W.
    destruct tm; cbn [fst snd]; f_equal;
      [transitivity (a * (p * c' - p' * c) / Ci)|transitivity (b * (p * c' - p' * c) / Ci)|transitivity (a * (p * c' - p' * c) / Ci)|transitivity (b * (p * c' - p' * c) / Ci)];
      try (field; solve [repeat split; assumption]); rewrite W; field; exact HC.
  Qed.
  Definition cscale (c : C) (AB : C * C) : C * C := (c * fst AB, c * snd AB).
  Lemma state_scale tm m c AB x : m <> RtoC 0 -> state tm m (cscale c AB) x = cscale c (state tm m AB x).
  Proof. intros Hm. unfold Passive.state, cscale, Fld, dFld. destruct tm; cbn [fst snd]; f_equal; field; exact Hm. Qed.
  Lemma solve_scale tm m c s x : solve tm m x (cscale c s) = cscale c (solve tm m x s).
  Proof. unfold solve, cscale. pose proof Ci_nz. destruct tm; cbn [fst snd]; f_equal; field; assumption. Qed.

  Section Stack.
    Variables (l0 : C * C) (rest : list (C * C)).
    Hypothesis Hp : passive_stack (l0 :: rest).
    Notation L := (length rest).
    Notation m i := (index_at (l0 :: rest) i). Notation xc i := (size_at (l0 :: rest) i). Notation x i := (fst (size_at (l0 :: rest) i)).
    Lemma m_pass i : passive (m i).
    Proof.
      destruct (Nat.lt_ge_cases i (length (l0 :: rest))) as [H|H]; [destruct (Hp i H) as (A & B & _); split; assumption|].
      unfold index_at. rewrite nth_overflow by exact H. cbn. split; [intros Q; injection Q; lra|cbn; lra].
    Qed.
    Lemma x_pos i : (i <= L)%nat -> (0 < x i)%R. Proof. intros H. apply (Hp i). cbn. lia. Qed.
    Lemma x_real i : (i <= L)%nat -> xc i = RtoC (x i). Proof. intros H. apply C_eq; [reflexivity|]. cbn [snd RtoC]. apply (Hp i). cbn. lia. Qed.
    Lemma x_mono i : (S i <= L)%nat -> (x i <= x (S i))%R. Proof. intros H. apply (Hp i); cbn; lia. Qed.
    Lemma m_last : m (S L) = RtoC 1. Proof. unfold index_at. rewrite nth_overflow by (cbn; lia). reflexivity. Qed.
    (* a sequence of amplitude pairs continuous at all interfaces *)
    Definition matched (tm : bool) (P : nat -> C * C) : Prop :=
      forall i, (i <= L)%nat -> state tm (m i) (P i) (x i) = state tm (m (S i)) (P (S i)) (x i).
    Lemma chain tm P : matched tm P -> fst (P 0%nat) = RtoC 0 -> forall i, (i <= L)%nat -> (flux (state tm (m i) (P i) (x i)) <= 0)%R.
    Proof.
      intros HM H0. induction i as [|i IH]; intros Hi.
      - destruct (P 0%nat) as [a b]. cbn in H0. subst a. apply flux_core; [exact Hn|apply m_pass|apply x_pos; lia].
      - specialize (IH ltac:(lia)). rewrite HM in IH by lia. eapply Rle_trans; [|exact IH]. apply flux_mono; [exact Hn|apply m_pass|]. split; [apply x_pos; lia|apply x_mono; lia].
    Qed.
    Lemma exterior_flux tm P : matched tm P -> fst (P 0%nat) = RtoC 0 -> ((Cmod (fst (P (S L))))² - dot (fst (P (S L))) (snd (P (S L))) <= 0)%R.
    Proof.
      intros HM H0. pose proof (chain tm P HM H0 L (le_n L)) as Q. rewrite HM in Q by lia. rewrite m_last in Q. destruct (P (S L)) as [a b]. rewrite flux_ext in Q by (apply x_pos; lia). exact Q.
    Qed.
    Fixpoint grow (tm : bool) (i : nat) : C * C :=
      match i with O => (RtoC 0, RtoC 1) | S j => solve tm (m (S j)) (x j) (state tm (m j) (grow tm j) (x j)) end.
    Lemma grow_matched tm : matched tm (grow tm).
    Proof. intros i Hi. cbn [grow]. rewrite solve_state; [reflexivity|apply m_pass|now apply x_pos]. Qed.
    Lemma matched_grow tm P : matched tm P -> fst (P 0%nat) = RtoC 0 -> forall i, (i <= S L)%nat -> P i = cscale (snd (P 0%nat)) (grow tm i).
    Proof.
      intros HM H0. induction i as [|i IH]; intros Hi.
      - destruct (P 0%nat) as [a b]. cbn in *. subst a. unfold cscale. cbn. f_equal; ring.
      - cbn [grow]. rewrite <- solve_scale, <- state_scale, <- IH by (lia || apply m_pass). rewrite HM by lia. symmetry. apply state_solve; [apply m_pass|apply x_pos; lia].
    Qed.
    Lemma zero_back tm P : matched tm P -> forall i, (i <= S L)%nat -> P i = (RtoC 0, RtoC 0) -> P 0%nat = (RtoC 0, RtoC 0).
    Proof.
      intros HM. assert (Z : forall mm y, mm <> RtoC 0 -> state tm mm (RtoC 0, RtoC 0) y = (RtoC 0, RtoC 0)).
      { intros mm y Hm. unfold Passive.state, Fld, dFld. destruct tm; cbn [fst snd]; f_equal; field; exact Hm. }
      induction i as [|i IH]; intros Hi HP; [exact HP|]. apply IH; [lia|]. pose proof (HM i ltac:(lia)) as Q. rewrite HP, Z in Q by apply m_pass.
      rewrite <- (state_solve tm (m i) (x i) (P i)) by (apply m_pass || (apply x_pos; lia)). rewrite Q. unfold solve. pose proof Ci_nz. destruct tm; cbn [fst snd]; f_equal; field; assumption.
    Qed.
    Lemma grow_last tm : snd (grow tm (S L)) <> RtoC 0.
    Proof.
      intros E. pose proof (exterior_flux tm (grow tm) (grow_matched tm) eq_refl) as Q. rewrite E in Q.
      assert (A0 : fst (grow tm (S L)) = RtoC 0).
      { apply Cmod_eq_0. pose proof (Cmod_ge_0 (fst (grow tm (S L)))) as G. unfold dot, Rsqr in Q. cbn [fst snd RtoC] in Q. nra. }
      assert (Z : grow tm (S L) = (RtoC 0, RtoC 0)) by (rewrite <- A0 at 1; rewrite <- E; apply surjective_pairing).
      pose proof (zero_back tm (grow tm) (grow_matched tm) (S L) (le_n _) Z) as W. apply (f_equal snd) in W. cbn in W. injection W. lra.
    Qed.
    Definition gsol (i : nat) : @amps R :=
      let t := cscale (/ snd (grow true (S L))) (grow true i) in let e := cscale (/ snd (grow false (S L))) (grow false i) in
      {| na := fst t; nb := fst e; nc := snd e; nd := snd t |}.
    Lemma gsol_pair tm i : pair_of tm (gsol i) = cscale (/ snd (grow tm (S L))) (grow tm i).
    Proof. destruct tm; reflexivity. Qed.
    Lemma nth_tab (f : nat -> @amps R) k i : (i < k)%nat -> nth i (map f (seq 0 k)) amp0 = f i.
    Proof. intros H. rewrite (nth_indep _ amp0 (f 0%nat)) by (rewrite map_length, seq_length; exact H). rewrite map_nth, seq_nth by exact H. reflexivity. Qed.
    Lemma sol_matched As tm : near_solution n l0 rest As -> matched tm (fun i => pair_of tm (nth i As amp0)) /\ fst (pair_of tm (nth 0 As amp0)) = RtoC 0 /\ snd (pair_of tm (nth (S L) As amp0)) = RtoC 1.
    Proof.
      intros (HL & [A0 B0] & [C1 D1] & HI). split; [|destruct tm; split; assumption]. intros i Hi. apply iface_state. rewrite <- (x_real i Hi). exact (HI tm i Hi).
    Qed.
    Lemma tab_solution : near_solution n l0 rest (map gsol (seq 0 (S (S L)))).
    Proof.
      split; [now rewrite map_length, seq_length|]. rewrite !nth_tab by lia.
      split; [split; [change (fst (pair_of true (gsol 0)) = RtoC 0)|change (fst (pair_of false (gsol 0)) = RtoC 0)]; rewrite gsol_pair; unfold cscale; cbn [fst grow]; ring|]. split.
      - split; [change (snd (pair_of false (gsol (S L))) = RtoC 1)|change (snd (pair_of true (gsol (S L))) = RtoC 1)]; rewrite gsol_pair; unfold cscale; cbn [snd]; field; apply grow_last.
      - intros tm i Hi. rewrite !nth_tab by lia. rewrite (x_real i Hi). apply iface_state. rewrite !gsol_pair, !state_scale by apply m_pass. now rewrite (grow_matched tm i Hi).
    Qed.
    Lemma sol_unique As : near_solution n l0 rest As -> As = map gsol (seq 0 (S (S L))).
    Proof.
      intros HS. pose proof (proj1 HS) as HL. apply (nth_ext _ _ amp0 amp0); [now rewrite map_length, seq_length|]. intros i Hi. rewrite HL in Hi. rewrite nth_tab by exact Hi.
      assert (X : forall tm, pair_of tm (nth i As amp0) = pair_of tm (gsol i)).
      { intros tm. rewrite gsol_pair. destruct (sol_matched As tm HS) as (HM & H0 & H1). pose proof (matched_grow tm _ HM H0) as G. cbv beta in G.
        pose proof (G (S L) (le_n _)) as GL. apply (f_equal snd) in GL. rewrite H1 in GL. unfold cscale in GL. cbn [snd] in GL.
        rewrite (G i) by lia. f_equal. set (b := snd (pair_of tm (nth 0 As amp0))) in *. set (g := snd (grow tm (S L))) in *. assert (Hg : g <> RtoC 0) by apply grow_last.
        transitivity (b * g * / g); [field; exact Hg|rewrite <- GL; ring]. }
      pose proof (X true) as X1. pose proof (X false) as X2. unfold pair_of in X1, X2. destruct (nth i As amp0) as [a b c d], (gsol i) as [a' b' c' d']. cbn [na nb nc nd] in *.
      pose proof (f_equal fst X1) as E1. pose proof (f_equal snd X1) as E2. pose proof (f_equal fst X2) as E3. pose proof (f_equal snd X2) as E4. cbn [fst snd] in *. now subst.
    Qed.
  End Stack.
End Order.

Theorem passive_well_posed n l0 rest : (1 <= n)%nat -> passive_stack (l0 :: rest) ->
  exists As, near_solution n l0 rest As /\ forall As', near_solution n l0 rest As' -> As' = As.
Proof. intros Hn Hp. exists (map (gsol n l0 rest) (seq 0 (S (S (length rest))))). split; [now apply tab_solution|intros As'; now apply sol_unique]. Qed.
Theorem passive_bounds n l0 rest As : (1 <= n)%nat -> passive_stack (l0 :: rest) -> near_solution n l0 rest As ->
  let A := nth (S (length rest)) As amp0 in ((Cmod (na A))² <= fst (na A) /\ (Cmod (nb A))² <= fst (nb A))%R.
Proof.
  intros Hn Hp HS A. assert (X : forall tm, ((Cmod (fst (pair_of tm A)))² <= fst (fst (pair_of tm A)))%R).
  { intros tm. destruct (sol_matched n Hn l0 rest Hp As tm HS) as (HM & H0 & H1). pose proof (exterior_flux n Hn l0 rest Hp tm _ HM H0) as Q. cbv beta in Q. fold A in Q, H1. rewrite H1 in Q. unfold dot in Q. cbn [fst snd RtoC] in Q. lra. }
  split; [exact (X true)|exact (X false)].
Qed.
