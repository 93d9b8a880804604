(** The limits of the multipole series solve the scattering problem of the layered sphere (C90). *)
From Coq Require Import Reals ZArith Lra Lia Bool List Arith.
From Coquelicot Require Import Coquelicot.
From Verif Require Import Ops ROps Spec StackSpec CLemmas CTrig ConvergeSpec ModelSpecial ModelMie ModelNear NearSpec MaxwellSpec NearLimitSpec PassiveSpec PassiveStack SeriesSpec SeriesDecay SeriesRegion SeriesField SeriesNear SeriesDiff MaxwellLimitSpec SeriesMaxwell.
Import ListNotations.
Open Scope R_scope.
Arguments Cmod x%C_scope.

(* limits, as functions of the sequence *)
Definition clim (u : nat -> C) : C := (real (Lim_seq (fun N => fst (u N))), real (Lim_seq (fun N => snd (u N)))).
Definition vlim (u : nat -> cvec) : cvec := (clim (fun N => c_r (u N)), clim (fun N => c_th (u N)), clim (fun N => c_ph (u N))).
Lemma clim_eq u l : tends u l -> clim u = l.
Proof. intros H. unfold clim. rewrite (is_lim_seq_unique _ _ (tends_fst u l H)), (is_lim_seq_unique _ _ (tends_snd u l H)). cbn. now destruct l. Qed.
Lemma vlim_fast (u : nat -> R -> R -> cvec) : (exists l, fast_field u l) -> fast_field u (fun th ph => vlim (fun N => u N th ph)).
Proof.
  intros [l H]. assert (E : forall th ph, vlim (fun N => u N th ph) = l th ph).
  { intros th ph. destruct (field_tends u l th ph H) as (T1 & T2 & T3). apply clim_eq in T1, T2, T3. unfold vlim. change c_r with (@v1 R). change c_th with (@v2 R). change c_ph with (@v3 R). refine (eq_trans (f_equal2 pair (f_equal2 pair T1 T2) T3) _). now destruct (l th ph) as [[a b] c]. }
  intros c Hc q Hq. destruct (H c Hc q Hq) as (K & HK & HB). exists K. split; [exact HK|]. intros d N. rewrite E. apply HB.
Qed.
Section Stack.
  Variables (l0 : C * C) (rest : list (C * C)) (As : nat -> list (@amps R)) (k0 n_env : R) (E0 : C).
  Hypothesis Hp : passive_stack (l0 :: rest).
  Hypothesis HN : no_lossless_metal (l0 :: rest).
  Hypothesis HS : all_orders l0 rest As.
  Hypothesis Hk : 0 < k0.
  Hypothesis Hn : 0 < n_env.
  Notation L := (length rest).
  Notation m i := (index_at (l0 :: rest) i). Notation x i := (fst (size_at (l0 :: rest) i)).
  Notation M i := (m i * RtoC n_env)%C.
  Notation A i := (fun n => nth i (As n) amp0).
  Notation kn := (k0 * n_env).
  Lemma kn0 : 0 < kn. Proof. now apply Rmult_lt_0_compat. Qed.
  Lemma arg i r : (RtoC k0 * M i * RtoC r)%C = (m i * RtoC (kn * r))%C. Proof. rewrite !RtoC_mult. ring. Qed.
  Lemma closed_in i s : closed_region (l0 :: rest) i s -> in_layer (l0 :: rest) i (m i * RtoC s)%C.
  Proof. intros (H0 & H1 & H2). left. exists s. repeat split; assumption. Qed.
  Lemma open_closed i s : open_region (l0 :: rest) i s -> closed_region (l0 :: rest) i s.
  Proof. intros (H0 & H1 & H2). split; [exact H0|]. split; [destruct i; [exact I|lra]|intros Hi; specialize (H2 Hi); lra]. Qed.
  Lemma between i r : open_region (l0 :: rest) i (kn * r) -> exists r1 r2, 0 < r1 /\ r1 < r < r2 /\ forall s, r1 <= s <= r2 -> open_region (l0 :: rest) i (kn * s).
  Proof.
    intros (H0 & H1 & H2). pose proof kn0 as K.
    assert (B : exists b, kn * r < b /\ ((i < length (l0 :: rest))%nat -> b <= x i)).
    { destruct (lt_dec i (length (l0 :: rest))) as [Hi|Hi]; [exists (x i); split; [now apply H2|lra]|exists (kn * r + 1); split; [lra|intros; lia]]. }
    destruct B as (b & B1 & B2).
    assert (Q : exists a, 0 <= a < kn * r /\ match i with O => True | S j => x j <= a end).
    { destruct i as [|j]; [exists 0; split; [lra|exact I]|]. exists (Rmax 0 (x j)). split; [split; [apply Rmax_l|now apply Rmax_lub_lt]|apply Rmax_r]. }
    destruct Q as (a & Q1 & Q2).
    exists ((a / kn + r) / 2), ((b / kn + r) / 2). assert (ea : kn * (a / kn) = a) by (field; lra). assert (eb : kn * (b / kn) = b) by (field; lra).
    assert (a0 : 0 <= a / kn) by (apply Rmult_le_pos; [lra|left; now apply Rinv_0_lt_compat]). assert (ar : a / kn < r) by (apply (Rmult_lt_reg_l kn); lra). assert (br : r < b / kn) by (apply (Rmult_lt_reg_l kn); lra).
    split; [lra|]. split; [lra|]. intros s Hs.
    assert (L1 : a < kn * s) by (rewrite <- ea; apply Rmult_lt_compat_l; lra). assert (L2 : kn * s < b) by (rewrite <- eb; apply Rmult_lt_compat_l; lra).
    split; [lra|]. split; [destruct i; [exact I|lra]|]. intros Hi. specialize (B2 Hi). lra.
  Qed.
  Lemma decays_at i s : (i <= S L)%nat -> closed_region (l0 :: rest) i (kn * s) -> decays (A i) (RtoC k0 * M i * RtoC s)%C.
  Proof. intros Hi Hc. rewrite arg. exact (proj1 (region_decays l0 rest As Hp HN HS i _ Hi (closed_in i _ Hc))). Qed.
  Lemma M_nz i : M i <> RtoC 0. Proof. apply Cmult_neq_0; [apply (ix_nz l0 rest Hp)|intros Q; injection Q; lra]. Qed.
  Theorem limit_maxwell i (E H : sph_field) : (i <= S L)%nat -> (forall r, open_region (l0 :: rest) i (kn * r) -> series_limit k0 (M i) E0 false (A i) E H r) ->
    forall r th ph, open_region (l0 :: rest) i (kn * r) -> sin th <> 0 -> maxwell k0 (M i) E H r th ph.
  Proof.
    intros Hi HL r th ph Ho Hs. destruct (between i r Ho) as (r1 & r2 & P1 & P2 & P3).
    apply (region_maxwell k0 (M i) E0 (A i) r1 r2 P1 ltac:(lra) ltac:(lra) (M_nz i)); [| | |exact P2|exact Hs].
    - apply decays_at; [exact Hi|apply open_closed, P3; lra].
    - apply decays_at; [exact Hi|apply open_closed, P3; lra].
    - intros s Hss. apply HL, P3. lra.
  Qed.
  Lemma m_out : m (S L) = RtoC 1. Proof. apply (m_last 1 (le_n 1)). Qed.
  Lemma scat_limit (mm : C) (B : nat -> @amps R) (E H : sph_field) r : series_limit k0 mm E0 true B E H r -> series_limit k0 mm E0 false (fun n => scattered (B n)) E H r.
  Proof.
    unfold series_limit, true_E, true_H. intros [F1 F2]. split; intros c Hc q Hq; [destruct (F1 c Hc q Hq) as (K & HK & HB)|destruct (F2 c Hc q Hq) as (K & HK & HB)]; exists K; (split; [exact HK|]); intros d N; cbv beta;
      [rewrite <- (proj1 (rad_scattered mm E0 _ N _ _ _))|rewrite <- (proj2 (rad_scattered mm E0 _ N _ _ _))]; apply HB.
  Qed.
  Theorem scattered_maxwell (E H : sph_field) : (forall r, open_region (l0 :: rest) (S L) (kn * r) -> series_limit k0 (RtoC n_env) E0 true (A (S L)) E H r) ->
    forall r th ph, open_region (l0 :: rest) (S L) (kn * r) -> sin th <> 0 -> maxwell k0 (RtoC n_env) E H r th ph.
  Proof.
    intros HL r th ph Ho Hs. destruct (between (S L) r Ho) as (r1 & r2 & P1 & P2 & P3).
    assert (n0 : RtoC n_env <> RtoC 0) by (intros Q; injection Q; lra).
    assert (D : forall s, r1 <= s <= r2 -> decays (fun n => scattered (A (S L) n)) (RtoC k0 * RtoC n_env * RtoC s)%C).
    { intros s Hss. pose proof (closed_in _ _ (open_closed _ _ (P3 s Hss))) as Hl. rewrite m_out in Hl. replace (RtoC 1 * RtoC (kn * s))%C with (RtoC k0 * RtoC n_env * RtoC s)%C in Hl by (rewrite !RtoC_mult; ring).
      destruct (arg_out l0 rest Hp _ Hl) as [A1 A2]. exact (outside_scattered l0 rest As Hp HN HS _ A1 A2). }
    apply (region_maxwell k0 (RtoC n_env) E0 (fun n => scattered (A (S L) n)) r1 r2 P1 ltac:(lra) ltac:(lra) n0); [apply D; lra|apply D; lra| |exact P2|exact Hs].
    intros s Hss. apply scat_limit, HL, P3. lra.
  Qed.
  (* the limit fields, defined from the expansions alone *)
  Definition Elim i : sph_field := fun r th ph => vlim (fun N => true_E k0 (M i) E0 false (A i) N r th ph).
  Definition Hlim i : sph_field := fun r th ph => vlim (fun N => true_H k0 (M i) E0 false (A i) N r th ph).
  Definition Esca : sph_field := fun r th ph => vlim (fun N => true_E k0 (RtoC n_env) E0 true (A (S L)) N r th ph).
  Definition Hsca : sph_field := fun r th ph => vlim (fun N => true_H k0 (RtoC n_env) E0 true (A (S L)) N r th ph).
  Lemma lim_ok i r : (i <= S L)%nat -> closed_region (l0 :: rest) i (kn * r) -> series_limit k0 (M i) E0 false (A i) (Elim i) (Hlim i) r.
  Proof.
    intros Hi Hc. pose proof (closed_in i _ Hc) as Hl. rewrite <- arg in Hl. destruct (near_fields_converge l0 rest As Hp HN HS i (M i) E0 _ Hi Hl) as (E & H & F1 & F2).
    split; apply (vlim_fast (fun N th ph => _ k0 (M i) E0 false (A i) N r th ph)); [exists E; exact F1|exists H; exact F2].
  Qed.
  Lemma sca_ok r : closed_region (l0 :: rest) (S L) (kn * r) -> series_limit k0 (RtoC n_env) E0 true (A (S L)) Esca Hsca r.
  Proof.
    intros Hc. pose proof (closed_in _ _ Hc) as Hl. rewrite m_out in Hl. replace (RtoC 1 * RtoC (kn * r))%C with (RtoC k0 * RtoC n_env * RtoC r)%C in Hl by (rewrite !RtoC_mult; ring).
    destruct (scattered_field_converges l0 rest As Hp HN HS (RtoC n_env) E0 _ Hl) as (E & H & F1 & F2).
    split; apply (vlim_fast (fun N th ph => _ k0 (RtoC n_env) E0 true (A (S L)) N r th ph)); [exists E; exact F1|exists H; exact F2].
  Qed.
  Theorem scattering_problem : exists (E H : nat -> sph_field) (Es Hs : sph_field),
    (forall i r, (i <= S L)%nat -> closed_region (l0 :: rest) i (kn * r) -> series_limit k0 (M i) E0 false (A i) (E i) (H i) r) /\
    (forall r, closed_region (l0 :: rest) (S L) (kn * r) -> series_limit k0 (RtoC n_env) E0 true (A (S L)) Es Hs r) /\
    (forall i r th ph, (i <= S L)%nat -> open_region (l0 :: rest) i (kn * r) -> sin th <> 0 -> maxwell k0 (M i) (E i) (H i) r th ph) /\
    (forall r th ph, open_region (l0 :: rest) (S L) (kn * r) -> sin th <> 0 -> maxwell k0 (RtoC n_env) Es Hs r th ph) /\
    (forall i a th ph, (i <= L)%nat -> kn * a = x i -> match_at (M i) (M (S i)) (E i a th ph) (H i a th ph) (E (S i) a th ph) (H (S i) a th ph)) /\
    (forall r th ph, closed_region (l0 :: rest) (S L) (kn * r) -> let cart := @field_to_xyz R ROps th ph in let wave := (E0 * Cexp (Ci * RtoC (kn * r * cos th)))%C in
      cart (E (S L) r th ph) = @vadd R ROps (cart (Es r th ph)) (wave, RtoC 0, RtoC 0) /\ cart (H (S L) r th ph) = @vadd R ROps (cart (Hs r th ph)) (RtoC 0, (RtoC n_env * wave)%C, RtoC 0)).
  Proof.
    exists Elim, Hlim, Esca, Hsca. split; [intros; now apply lim_ok|]. split; [intros; now apply sca_ok|]. split; [|split; [|split]].
    - intros i r th ph Hi Ho Hs. apply (limit_maxwell i); try assumption. intros s Hss. apply lim_ok; [exact Hi|now apply open_closed].
    - intros r th ph Ho Hs. apply scattered_maxwell; try assumption. intros s Hss. apply sca_ok. now apply open_closed.
    - intros i a th ph Hi Ha. destruct (sz l0 rest Hp i Hi) as [X0 EX].
      assert (C1 : closed_region (l0 :: rest) i (kn * a)).
      { rewrite Ha. split; [exact X0|]. split; [|intros; lra]. destruct i as [|j]; [exact I|]. destruct (Hp j ltac:(cbn; lia)) as (_ & _ & _ & _ & Hinc). apply Hinc. cbn. lia. }
      assert (C2 : closed_region (l0 :: rest) (S i) (kn * a)).
      { rewrite Ha. split; [exact X0|]. split; [lra|]. intros Hlt. destruct (Hp i ltac:(cbn in *; lia)) as (_ & _ & _ & _ & Hinc). now apply Hinc. }
      destruct (lim_ok i a ltac:(lia) C1) as [F1 F2]. destruct (lim_ok (S i) a ltac:(lia) C2) as [F3 F4]. unfold true_E, true_H in F1, F2, F3, F4. rewrite arg, Ha, <- EX in F1, F2. rewrite arg, Ha, <- EX in F3, F4.
      destruct (limits_match l0 rest As Hp HS i (RtoC n_env) E0 _ _ _ _ Hi F1 F2 F3 F4 th ph) as ((T1 & T2 & T3 & T4) & T5 & T6).
      unfold match_at. repeat (split; [assumption|]). split; [|exact T6].
      replace (M i * M i * c_r (Elim i a th ph))%C with (RtoC n_env * RtoC n_env * (m i * m i * c_r (Elim i a th ph)))%C by ring. rewrite T5. ring.
    - intros r th ph Hc. cbv zeta. pose proof (closed_in _ _ Hc) as Hl. rewrite <- arg in Hl. destruct (lim_ok (S L) r (le_n _) Hc) as [F1 F2]. destruct (sca_ok r Hc) as [F3 F4]. unfold true_E, true_H in *.
      assert (EM : M (S L) = RtoC n_env) by (rewrite m_out; ring). rewrite EM in F1, F2, Hl. destruct (limit_total l0 rest As Hp HS (RtoC n_env) E0 _ _ _ _ _ Hl F1 F2 F3 F4 th ph) as [T1 T2]. cbv zeta in T1, T2.
      replace (Ci * RtoC (kn * r * cos th))%C with (Ci * (RtoC k0 * RtoC n_env * RtoC r) * RtoC (cos th))%C by (rewrite !RtoC_mult; ring). split; [exact T1|exact T2].
  Qed.
End Stack.
