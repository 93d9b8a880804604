(** The converged fields of a passive particle (C86). *)
From Coq Require Import Reals ZArith Lra Lia Bool List Arith.
From Coquelicot Require Import Coquelicot.
From Verif Require Import Ops ROps Spec StackSpec CLemmas CTrig ComplexDiff BesselSpec ConvergeSpec ModelSpecial ModelMie StackProofs
  ModelNear NearSpec MaxwellSpec NearLimitSpec NearExact NearFieldLimit PlaneVector BesselLimits StackConverge PassiveSpec PassiveStack SeriesSpec SeriesGrowth SeriesDecay SeriesSum SeriesFar SeriesInside SeriesAmp SeriesRegion SeriesField.
Import ListNotations.
Open Scope R_scope.
Arguments Cmod x%C_scope.

(** ** equal and linked limits *)
Lemma fast_unique {I} (u v : I -> nat -> C) l l' : fast_all u l -> fast_all v l' -> forall i, (forall N, u i N = v i N) -> l i = l' i.
Proof.
  intros Hu Hv i H. destruct (Hu (1/2) ltac:(lra)) as (K1 & HK1 & B1). destruct (Hv (1/2) ltac:(lra)) as (K2 & HK2 & B2).
  assert (Z : Cmod (l i - l' i)%C = 0).
  { apply Rle_antisym; [|apply Cmod_ge_0]. apply Rnot_lt_le. intros Q. destruct (pow_small (1/2) ltac:(lra) (Cmod (l i - l' i)%C / (K1 + K2))) as [N HN]; [apply Rdiv_lt_0_compat; lra|]. specialize (HN N (le_n _)). specialize (B1 i N). specialize (B2 i N). rewrite H in B1.
    apply (Rmult_lt_compat_l (K1 + K2)) in HN; [|lra]. replace ((K1 + K2) * (Cmod (l i - l' i)%C / (K1 + K2))) with (Cmod (l i - l' i)%C) in HN by (field; lra).
    assert (T : Cmod (l i - l' i)%C <= Cmod (v i N - l i)%C + Cmod (v i N - l' i)%C).
    { replace (l i - l' i)%C with (- (v i N - l i) + (v i N - l' i))%C by ring. eapply Rle_trans; [apply Cmod_triangle|]. rewrite Cmod_opp. lra. }
    lra. }
  apply Cmod_eq_0 in Z. replace (l i) with ((l i - l' i) + l' i)%C by ring. rewrite Z. ring.
Qed.
Lemma fast_scal {I} (u : I -> nat -> C) l (c : C) : fast_all u l -> fast_all (fun i N => (c * u i N)%C) (fun i => (c * l i)%C).
Proof.
  intros Hu q Hq. destruct (Hu q Hq) as (K & HK & HB). exists ((Cmod c + 1) * K). pose proof (Cmod_ge_0 c) as C0. split; [apply Rmult_lt_0_compat; lra|]. intros i N. replace (c * u i N - c * l i)%C with (c * (u i N - l i))%C by ring. rewrite Cmod_mult.
  specialize (HB i N). pose proof (Cmod_ge_0 (u i N - l i)%C). rewrite Rmult_assoc. apply Rmult_le_compat; lra.
Qed.
Lemma fast_tends {I} (u : I -> nat -> C) l i : fast_all u l -> tends (u i) (l i).
Proof.
  intros H eps He. destruct (H (1/2) ltac:(lra)) as (K & HK & HB). destruct (pow_small (1/2) ltac:(lra) (eps / K)) as [M HM]; [now apply Rdiv_lt_0_compat|]. exists M. intros N HN. specialize (HM N HN). eapply Rle_lt_trans; [apply HB|].
  apply (Rmult_lt_compat_l K) in HM; [|exact HK]. replace (K * (eps / K)) with eps in HM by (field; lra). exact HM.
Qed.
Lemma field_tends (u : nat -> R -> R -> cvec) l th ph : fast_field u l -> tends_vec (fun N => u N th ph) (l th ph).
Proof. intros H. split; [|split]; [exact (fast_tends _ _ (th, ph) (H c_r ltac:(tauto)))|exact (fast_tends _ _ (th, ph) (H c_th ltac:(tauto)))|exact (fast_tends _ _ (th, ph) (H c_ph ltac:(tauto)))]. Qed.
Lemma tends_unique (u : nat -> C) a b : tends u a -> tends u b -> a = b.
Proof.
  intros Ha Hb. assert (Z : Cmod (a - b)%C = 0).
  { apply Rle_antisym; [|apply Cmod_ge_0]. apply Rnot_lt_le. intros Q. destruct (Ha (Cmod (a - b)%C / 2) ltac:(lra)) as [M1 H1]. destruct (Hb (Cmod (a - b)%C / 2) ltac:(lra)) as [M2 H2]. specialize (H1 (M1 + M2)%nat ltac:(lia)). specialize (H2 (M1 + M2)%nat ltac:(lia)).
    set (x := u (M1 + M2)%nat) in *. assert (T : Cmod (a - b)%C <= Cmod (x - a)%C + Cmod (x - b)%C) by (replace (a - b)%C with (- (x - a) + (x - b))%C by ring; eapply Rle_trans; [apply Cmod_triangle|]; rewrite Cmod_opp; lra). lra. }
  apply Cmod_eq_0 in Z. replace a with ((a - b) + b)%C by ring. rewrite Z. ring.
Qed.
Lemma tends_vec_unique (u : nat -> @vec3 R) a b : tends_vec u a -> tends_vec u b -> a = b.
Proof.
  intros (A1 & A2 & A3) (B1 & B2 & B3). pose proof (tends_unique _ _ _ A1 B1) as E1. pose proof (tends_unique _ _ _ A2 B2) as E2. pose proof (tends_unique _ _ _ A3 B3) as E3. destruct a as [[a1 a2] a3], b as [[b1 b2] b3]. unfold v1, v2, v3 in *. cbn [fst snd] in *. now subst.
Qed.
Lemma rad_ext (m E0 : C) out (A A' : nat -> @amps R) N rho th ph : (forall n, (1 <= n <= N)%nat -> A n = A' n) -> rad_E E0 out A N rho th ph = rad_E E0 out A' N rho th ph /\ rad_H m E0 out A N rho th ph = rad_H m E0 out A' N rho th ph.
Proof. intros H. unfold rad_E, rad_H. split; f_equal; apply map_ext_in; intros n Hin; unfold orders in Hin; apply in_seq in Hin; rewrite (H n ltac:(lia)); reflexivity. Qed.
Lemma rad_scattered (m E0 : C) (A : nat -> @amps R) N rho th ph :
  rad_E E0 true A N rho th ph = rad_E E0 false (fun n => scattered (A n)) N rho th ph /\ rad_H m E0 true A N rho th ph = rad_H m E0 false (fun n => scattered (A n)) N rho th ph.
Proof.
  unfold rad_E, rad_H. split; f_equal; apply map_ext; intros n; unfold E_region, H_region, vscale, vsub, vadd, v1, v2, v3, scattered; cbn [fst snd na nb nc nd];
    f_equal; [f_equal| |f_equal|]; toC; match goal with |- ?a = ?b => change (@eq C a b) end; ring.
Qed.
Lemma cart_add th ph (u v : @vec3 R) : @field_to_xyz R ROps th ph (@vadd R ROps u v) = @vadd R ROps (@field_to_xyz R ROps th ph u) (@field_to_xyz R ROps th ph v).
Proof. unfold field_to_xyz, vadd, v1, v2, v3. cbn [fst snd]. f_equal; [f_equal|]; toC; match goal with |- ?a = ?b => change (@eq C a b) end; ring. Qed.

Section Stack.
  Variables (l0 : C * C) (rest : list (C * C)) (As : nat -> list (@amps R)).
  Hypothesis Hp : passive_stack (l0 :: rest).
  Hypothesis HN : no_lossless_metal (l0 :: rest).
  Hypothesis HS : all_orders l0 rest As.
  Notation L := (length rest).
  Notation m i := (index_at (l0 :: rest) i). Notation x i := (size_at (l0 :: rest) i).
  Notation A i := (fun n => nth i (As n) amp0).
  Theorem near_fields_converge i (M E0 rho : C) : (i <= S L)%nat -> in_layer (l0 :: rest) i rho ->
    exists E H : R -> R -> cvec, fast_field (fun N th ph => rad_E E0 false (A i) N rho th ph) E /\ fast_field (fun N th ph => rad_H M E0 false (A i) N rho th ph) H.
  Proof. intros Hi Hl. destruct (region_decays l0 rest As Hp HN HS i rho Hi Hl) as [D Hr]. now apply fields_fast. Qed.
  Theorem scattered_field_converges (M E0 rho : C) : in_layer (l0 :: rest) (S L) rho ->
    exists E H : R -> R -> cvec, fast_field (fun N th ph => rad_E E0 true (A (S L)) N rho th ph) E /\ fast_field (fun N th ph => rad_H M E0 true (A (S L)) N rho th ph) H.
  Proof.
    intros Hl. destruct (arg_out l0 rest Hp rho Hl) as [Hr Ho]. destruct (fields_fast E0 M rho _ Hr (outside_scattered l0 rest As Hp HN HS rho Hr Ho)) as (E & H & F1 & F2). exists E, H.
    split; intros c Hc q Hq; [destruct (F1 c Hc q Hq) as (K & HK & HB)|destruct (F2 c Hc q Hq) as (K & HK & HB)]; exists K; (split; [exact HK|]); intros d N; cbv beta; [rewrite (proj1 (rad_scattered M E0 _ N rho _ _))|rewrite (proj2 (rad_scattered M E0 _ N rho _ _))]; apply HB.
  Qed.
  (* the limits are continuous across every interface *)
  Theorem limits_match i (n_env E0 : C) (E H E' H' : R -> R -> cvec) : (i <= L)%nat ->
    fast_field (fun N th ph => rad_E E0 false (A i) N (m i * x i)%C th ph) E -> fast_field (fun N th ph => rad_H (m i * n_env)%C E0 false (A i) N (m i * x i)%C th ph) H ->
    fast_field (fun N th ph => rad_E E0 false (A (S i)) N (m (S i) * x i)%C th ph) E' -> fast_field (fun N th ph => rad_H (m (S i) * n_env)%C E0 false (A (S i)) N (m (S i) * x i)%C th ph) H' ->
    forall th ph, (c_th (E th ph) = c_th (E' th ph) /\ c_ph (E th ph) = c_ph (E' th ph) /\ c_th (H th ph) = c_th (H' th ph) /\ c_ph (H th ph) = c_ph (H' th ph)) /\
      ((m i * m i * c_r (E th ph))%C = (m (S i) * m (S i) * c_r (E' th ph))%C /\ c_r (H th ph) = c_r (H' th ph)).
  Proof.
    intros Hi F1 F2 F3 F4 th ph. destruct (sz l0 rest Hp i Hi) as [X0 EX].
    assert (J := fun N => limit_interfaces E0 n_env th ph N l0 rest As i Hi (fun j _ => m_nz l0 rest Hp j) ltac:(rewrite EX; intros Q; injection Q; lra) (fun n Hn => HS n (proj1 Hn))). cbv zeta in J.
    assert (G : forall c : cvec -> C, c = c_r \/ c = c_th \/ c = c_ph -> forall u u' w w', fast_field u w -> fast_field u' w' -> (forall N, c (u N th ph) = c (u' N th ph)) -> c (w th ph) = c (w' th ph)).
    { intros c Hc u u' w w' Hu Hu' HE. exact (fast_unique _ _ _ _ (Hu c Hc) (Hu' c Hc) (th, ph) HE). }
    split; [split; [|split; [|split]]|split].
    - apply (G c_th ltac:(tauto) _ _ _ _ F1 F3). intros N. apply (J N).
    - apply (G c_ph ltac:(tauto) _ _ _ _ F1 F3). intros N. apply (J N).
    - apply (G c_th ltac:(tauto) _ _ _ _ F2 F4). intros N. apply (J N).
    - apply (G c_ph ltac:(tauto) _ _ _ _ F2 F4). intros N. apply (J N).
    - apply (fast_unique _ _ _ _ (fast_scal _ _ (m i * m i)%C (F1 c_r ltac:(tauto))) (fast_scal _ _ (m (S i) * m (S i))%C (F3 c_r ltac:(tauto))) (th, ph)). intros N. apply (J N).
    - apply (G c_r ltac:(tauto) _ _ _ _ F2 F4). intros N. apply (J N).
  Qed.
  (* outside: total field = incident plane wave + scattered field *)
  Theorem limit_total (M E0 rho : C) (E H Es Hs : R -> R -> cvec) : in_layer (l0 :: rest) (S L) rho ->
    fast_field (fun N th ph => rad_E E0 false (A (S L)) N rho th ph) E -> fast_field (fun N th ph => rad_H M E0 false (A (S L)) N rho th ph) H ->
    fast_field (fun N th ph => rad_E E0 true (A (S L)) N rho th ph) Es -> fast_field (fun N th ph => rad_H M E0 true (A (S L)) N rho th ph) Hs ->
    forall th ph, let cart := @field_to_xyz R ROps th ph in let wave := (E0 * Cexp (Ci * rho * RtoC (cos th)))%C in
      cart (E th ph) = @vadd R ROps (cart (Es th ph)) (wave, RtoC 0, RtoC 0) /\ cart (H th ph) = @vadd R ROps (cart (Hs th ph)) (RtoC 0, (M * wave)%C, RtoC 0).
  Proof.
    intros Hl F1 F2 F3 F4 th ph cart wave. destruct (arg_out l0 rest Hp rho Hl) as [Hr _]. destruct (inc_cartesian E0 M rho th ph Hr) as [I1 I2]. fold cart in I1, I2. fold wave in I1.
    replace (M * E0 * Cexp (Ci * rho * RtoC (cos th)))%C with (M * wave)%C in I2 by (unfold wave; ring).
    set (B := fun n => match n with O => incident_amps | S _ => nth (S L) (As n) amp0 end).
    assert (HB : forall n, nc (B n) = RtoC 1 /\ nd (B n) = RtoC 1). { intros [|n]; [split; reflexivity|]. destruct (HS (S n) ltac:(lia)) as (_ & _ & K3 & _). exact K3. }
    assert (EB : forall out N, rad_E E0 out (A (S L)) N rho th ph = rad_E E0 out B N rho th ph /\ rad_H M E0 out (A (S L)) N rho th ph = rad_H M E0 out B N rho th ph). { intros out N. apply rad_ext. intros n Hn. destruct n; [lia|reflexivity]. }
    assert (S1 : forall N, rad_E E0 false (A (S L)) N rho th ph = @vadd R ROps (rad_E E0 true (A (S L)) N rho th ph) (rad_E E0 false (fun _ => incident_amps) N rho th ph) /\ rad_H M E0 false (A (S L)) N rho th ph = @vadd R ROps (rad_H M E0 true (A (S L)) N rho th ph) (rad_H M E0 false (fun _ => incident_amps) N rho th ph)).
    { intros N. rewrite !(proj1 (EB _ N)), !(proj2 (EB _ N)). now apply exterior_total. }
    pose proof (tv_xyz th ph _ _ (field_tends _ _ th ph F1)) as T1. pose proof (tv_xyz th ph _ _ (field_tends _ _ th ph F2)) as T2. pose proof (tv_xyz th ph _ _ (field_tends _ _ th ph F3)) as T3. pose proof (tv_xyz th ph _ _ (field_tends _ _ th ph F4)) as T4. cbv beta in T1, T2, T3, T4.
    split.
    - apply (tends_vec_unique _ _ _ T1). eapply tv_ext; [|exact (tv_add _ _ _ _ T3 I1)]. intros N. cbv beta. rewrite (proj1 (S1 N)). apply cart_add.
    - apply (tends_vec_unique _ _ _ T2). eapply tv_ext; [|exact (tv_add _ _ _ _ T4 I2)]. intros N. cbv beta. rewrite (proj2 (S1 N)). apply cart_add.
  Qed.
End Stack.
(* the arguments on the two sides of an interface belong to the two regions *)
Lemma boundary_in_layer l0 rest i : passive_stack (l0 :: rest) -> (i <= length rest)%nat -> let m := index_at (l0 :: rest) in let x := size_at (l0 :: rest) i in
  in_layer (l0 :: rest) i (m i * x)%C /\ in_layer (l0 :: rest) (S i) (m (S i) * x)%C.
Proof.
  intros Hp Hi m x. destruct (Hp i ltac:(cbn; lia)) as (_ & _ & Q1 & Q2 & Q3). assert (EX : x = RtoC (fst x)) by (apply C_eq; [reflexivity|exact Q1]). fold x in Q2, Q3. split; left; exists (fst x); (split; [exact Q2|]); (split; [now rewrite <- EX|]).
  - split; [|intros _; apply Rle_refl]. destruct i as [|j]; [exact I|]. destruct (Hp j ltac:(cbn; lia)) as (_ & _ & _ & _ & Q). apply Q. cbn. lia.
  - split; [apply Rle_refl|]. exact Q3.
Qed.
