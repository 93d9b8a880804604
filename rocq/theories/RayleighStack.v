(** Small layered particles: the exact boundary-value problem tends to electrostatics. *)
From Coq Require Import Reals ZArith Lra Lia Bool List Arith.
From Coquelicot Require Import Coquelicot.
From Verif Require Import Ops ROps Spec StackSpec CLemmas CTrig ComplexDiff BesselProofs BesselSpec BesselTrue ConvergeSpec BesselMinimal ModelSpecial ModelMie ModelNear NearSpec MaxwellSpec NearLimitSpec
  PassiveStack RayleighSpec RayleighBase RayleighRadial.
Import ListNotations.
Open Scope C_scope.

(** regular and outgoing function and their derivatives at one interface *)
Record quad := { qp : C; qq : C; qdp : C; qdq : C }.
Definition wron (r : quad) : Prop := qp r * qdq r - qdp r * qq r = Ci.
Definition qF (r : quad) (v : C * C) : C := snd v * qp r - fst v * qq r.
Definition qG (r : quad) (v : C * C) : C := snd v * qdp r - fst v * qdq r.
Definition qstate (tm : bool) (m : C) (r : quad) (v : C * C) : C * C := if tm then (qF r v, qG r v / m) else (qF r v / m, qG r v).
Definition qsolve (tm : bool) (m : C) (r : quad) (s : C * C) : C * C :=
  let F := if tm then fst s else m * fst s in let G := if tm then m * snd s else snd s in
  ((F * qdp r - G * qp r) / Ci, (F * qdq r - G * qq r) / Ci).
Notation cs := cscale.
Lemma qsolve_state tm m r v : m <> RtoC 0 -> wron r -> qsolve tm m r (qstate tm m r v) = v.
Proof.
  intros Hm W. pose proof Ci_nz as HC. destruct v as [a b], r as [p q p' q']. unfold wron, qsolve, qstate, qF, qG in *. cbn [fst snd qp qq qdp qdq] in *.
  destruct tm; cbn [fst snd]; apply (f_equal2 pair);
    [transitivity (a * (p * q' - p' * q) / Ci)|transitivity (b * (p * q' - p' * q) / Ci)|transitivity (a * (p * q' - p' * q) / Ci)|transitivity (b * (p * q' - p' * q) / Ci)];
    try (field; solve [repeat split; assumption]); rewrite W; field; exact HC.
Qed.
Lemma qstate_solve tm m r s : m <> RtoC 0 -> wron r -> qstate tm m r (qsolve tm m r s) = s.
Proof.
  intros Hm W. pose proof Ci_nz as HC. destruct s as [u v], r as [p q p' q']. unfold wron, qsolve, qstate, qF, qG in *. cbn [fst snd qp qq qdp qdq] in *.
  assert (X : forall f g : C, (f * q' - g * q) / Ci * p - (f * p' - g * p) / Ci * q = f /\ (f * q' - g * q) / Ci * p' - (f * p' - g * p) / Ci * q' = g).
  { intros f g. split; [transitivity (f * (p * q' - p' * q) / Ci)|transitivity (g * (p * q' - p' * q) / Ci)]; [field; exact HC|rewrite W; field; exact HC|field; exact HC|rewrite W; field; exact HC]. }
  destruct tm; cbn [fst snd]; [destruct (X u (m * v)) as [-> ->]|destruct (X (m * u) v) as [-> ->]]; apply (f_equal2 pair); field; exact Hm.
Qed.
Lemma qstate_scale tm m r c v : m <> RtoC 0 -> qstate tm m r (cs c v) = cs c (qstate tm m r v).
Proof. intros Hm. unfold qstate, cs, qF, qG. destruct tm; cbn [fst snd]; apply (f_equal2 pair); field; exact Hm. Qed.
Lemma qsolve_scale tm m r c s : qsolve tm m r (cs c s) = cs c (qsolve tm m r s).
Proof. unfold qsolve, cs. pose proof Ci_nz. destruct tm; cbn [fst snd]; apply (f_equal2 pair); field; assumption. Qed.

Section Chain.
  Variables (tm : bool) (L : nat) (m : nat -> C) (rin rout : nat -> quad).
  Hypothesis Hm : forall i, m i <> RtoC 0.
  Hypothesis Win : forall i, (i <= L)%nat -> wron (rin i).
  Hypothesis Wout : forall i, (i <= L)%nat -> wron (rout i).
  Definition qmatched (P : nat -> C * C) : Prop := forall i, (i <= L)%nat -> qstate tm (m i) (rin i) (P i) = qstate tm (m (S i)) (rout i) (P (S i)).
  Fixpoint qgrow (i : nat) : C * C := match i with O => (RtoC 0, RtoC 1) | S j => qsolve tm (m (S j)) (rout j) (qstate tm (m j) (rin j) (qgrow j)) end.
  Lemma qgrow_matched : qmatched qgrow.
  Proof. intros i Hi. cbn [qgrow]. now rewrite qstate_solve by auto. Qed.
  Lemma qmatched_scale c P : qmatched P -> qmatched (fun i => cs c (P i)).
  Proof. intros H i Hi. rewrite !qstate_scale by apply Hm. now rewrite (H i Hi). Qed.
  Lemma qmatched_grow P : qmatched P -> fst (P 0%nat) = RtoC 0 -> forall i, (i <= S L)%nat -> P i = cs (snd (P 0%nat)) (qgrow i).
  Proof.
    intros HM H0. induction i as [|i IH]; intros Hi.
    - destruct (P 0%nat) as [a b]. cbn in *. subst a. unfold cs. cbn. apply (f_equal2 pair); ring.
    - cbn [qgrow]. rewrite <- qsolve_scale, <- qstate_scale, <- IH by (lia || apply Hm). rewrite HM by lia. symmetry. apply qsolve_state; [apply Hm|apply Wout; lia].
  Qed.
  (* with unit regular amplitude outside, the amplitudes are the grown ones, normalised *)
  Lemma qmatched_norm P : qmatched P -> fst (P 0%nat) = RtoC 0 -> snd (P (S L)) = RtoC 1 ->
    snd (qgrow (S L)) <> RtoC 0 /\ forall i, (i <= S L)%nat -> P i = cs (/ snd (qgrow (S L))) (qgrow i).
  Proof.
    intros HM H0 H1. pose proof (qmatched_grow P HM H0) as G. pose proof (G (S L) (le_n _)) as GL. apply (f_equal snd) in GL. rewrite H1 in GL. unfold cs in GL. cbn [snd] in GL.
    assert (Hg : snd (qgrow (S L)) <> RtoC 0) by (intros E; rewrite E in GL; assert (X : RtoC 1 = RtoC 0) by (rewrite GL; ring); injection X; lra).
    split; [exact Hg|]. intros i Hi. rewrite (G i Hi). f_equal. set (b := snd (P 0%nat)) in *. set (g := snd (qgrow (S L))) in *. transitivity (b * g * / g); [field; exact Hg|rewrite <- GL; ring].
  Qed.
End Chain.

(** closeness of the grown amplitudes *)
Definition close_pair (f : R -> C * C) (v : C * C) : Prop := close2 (fun t => fst (f t)) (fst v) /\ close2 (fun t => snd (f t)) (snd v).
Definition close_quad (f : R -> quad) (r : quad) : Prop :=
  close2 (fun t => qp (f t)) (qp r) /\ close2 (fun t => qq (f t)) (qq r) /\ close2 (fun t => qdp (f t)) (qdp r) /\ close2 (fun t => qdq (f t)) (qdq r).
Lemma close_state tm m f r g v : close_quad f r -> close_pair g v -> close_pair (fun t => qstate tm m (f t) (g t)) (qstate tm m r v).
Proof.
  intros (A & B & C' & D) [E F]. pose proof (cl_minus _ _ _ _ (cl_mult _ _ _ _ F A) (cl_mult _ _ _ _ E B)) as HF. pose proof (cl_minus _ _ _ _ (cl_mult _ _ _ _ F C') (cl_mult _ _ _ _ E D)) as HG.
  destruct tm; split; cbn [qstate fst snd].
  - exact HF.
  - exact (cl_mult _ _ _ _ HG (cl_const (/ m))).
  - exact (cl_mult _ _ _ _ HF (cl_const (/ m))).
  - exact HG.
Qed.
Lemma close_solve tm m f r g v : close_quad f r -> close_pair g v -> close_pair (fun t => qsolve tm m (f t) (g t)) (qsolve tm m r v).
Proof.
  intros (A & B & C' & D) [E F]. 
  assert (HF : close2 (fun t => if tm then fst (g t) else m * fst (g t)) (if tm then fst v else m * fst v)) by (destruct tm; [exact E|exact (cl_scal m _ _ E)]).
  assert (HG : close2 (fun t => if tm then m * snd (g t) else snd (g t)) (if tm then m * snd v else snd v)) by (destruct tm; [exact (cl_scal m _ _ F)|exact F]).
  split; cbn [qsolve fst snd]; unfold Cdiv; (apply cl_mult; [|apply cl_const]); apply cl_minus; apply cl_mult; assumption.
Qed.
Lemma close_grow tm m (rin rout : R -> nat -> quad) rin0 rout0 L : (forall i, (i <= L)%nat -> close_quad (fun t => rin t i) (rin0 i)) -> (forall i, (i <= L)%nat -> close_quad (fun t => rout t i) (rout0 i)) ->
  forall i, (i <= S L)%nat -> close_pair (fun t => qgrow tm m (rin t) (rout t) i) (qgrow tm m rin0 rout0 i).
Proof.
  intros HI HO. induction i as [|i IH]; intros Hi; [split; cbn [qgrow fst snd]; [exact (cl_const (RtoC 0))|exact (cl_const (RtoC 1))]|]. cbn [qgrow].
  apply (close_solve tm (m (S i)) (fun t => rout t i) (rout0 i) (fun t => qstate tm (m i) (rin t i) (qgrow tm m (rin t) (rout t) i))); [apply HO; lia|].
  apply (close_state tm (m i) (fun t => rin t i) (rin0 i) (fun t => qgrow tm m (rin t) (rout t) i)); [apply HI; lia|apply IH; lia].
Qed.

Section Particle.
  Variable n : nat.
  Hypothesis Hn : (1 <= n)%nat.
  Variables (l0 : C * C) (rest : list (C * C)).
  Hypothesis Hst : nonzero_stack (l0 :: rest).
  Notation L := (length rest).
  Notation m i := (index_at (l0 :: rest) i). Notation x i := (size_at (l0 :: rest) i).
  Lemma rm_nz i : m i <> RtoC 0.
  Proof.
    destruct (Nat.lt_ge_cases i (length (l0 :: rest))) as [H|H]; [apply (Hst i H)|]. unfold index_at. rewrite nth_overflow by exact H. cbn. apply RtoC_neq. lra.
  Qed.
  Lemma rx_nz i : (i <= L)%nat -> x i <> RtoC 0. Proof. intros H. apply (Hst i). cbn. lia. Qed.
  Definition quad_t (c : C) (t : R) : quad := {| qp := sp c n t; qq := sq c n t; qdp := sdp c n t; qdq := sdq c n t |}.
  Definition quad_0 (c : C) : quad := {| qp := lp c n; qq := lq c n; qdp := ldp c n; qdq := ldq c n |}.
  Lemma quad_close c : c <> RtoC 0 -> close_quad (quad_t c) (quad_0 c).
  Proof. intros Hc. split; [now apply sp_close|]. split; [now apply sq_close|]. split; [now apply sdp_close|now apply sdq_close]. Qed.
  Lemma quad_wr c t : c <> RtoC 0 -> (0 < t)%R -> wron (quad_t c t).
  Proof.
    intros Hc Ht. unfold wron, quad_t, sp, sq, sdp, sdq. cbn [qp qq qdp qdq]. rewrite <- (wr n Hn (c * RtoC t) (z_nz c Hc t Ht)). replace (n + 1)%nat with (S n) by lia. rewrite cpow_S. field. split; [now apply tp_nz|now apply t_nz].
  Qed.
  Lemma odd_step : RtoC (odd_dfact n) = RtoC (INR (2 * n + 1)) * RtoC (odd_dfact (n - 1)).
  Proof. destruct n as [|k]; [lia|]. replace (S k - 1)%nat with k by lia. rewrite <- RtoC_mult. reflexivity. Qed.
  Lemma quad0_wr c : c <> RtoC 0 -> wron (quad_0 c).
  Proof.
    intros Hc. unfold wron, quad_0, lp, lq, ldp, ldq. cbn [qp qq qdp qdq]. pose proof (o_nz n) as O1. pose proof odd_step as E. replace (2 * n + 1)%nat with ((n + 1) + n)%nat in E by lia. rewrite plus_INR, RtoC_plus in E.
    replace (n + 1)%nat with (S n) in * by lia. rewrite cpow_S. set (u := RtoC (INR n)) in *. set (v := RtoC (INR (S n))) in *.
    transitivity (Ci * ((v + u) * RtoC (odd_dfact (n - 1))) / RtoC (odd_dfact n)); [unfold lq; field; repeat split; try exact O1; try exact Hc; now apply cpow_nz|]. rewrite <- E. field. exact O1.
  Qed.
  Notation cin i := (m i * x i). Notation cout i := (m (S i) * x i).
  Definition grow_t (tm : bool) (t : R) : nat -> C * C := qgrow tm (fun i => m i) (fun i => quad_t (cin i) t) (fun i => quad_t (cout i) t).
  Definition grow_0 (tm : bool) : nat -> C * C := qgrow tm (fun i => m i) (fun i => quad_0 (cin i)) (fun i => quad_0 (cout i)).
  Lemma cin_nz i : (i <= L)%nat -> cin i <> RtoC 0. Proof. intros H. apply Cmult_neq_0; [apply rm_nz|now apply rx_nz]. Qed.
  Lemma cout_nz i : (i <= L)%nat -> cout i <> RtoC 0. Proof. intros H. apply Cmult_neq_0; [apply rm_nz|now apply rx_nz]. Qed.
  Lemma grows_close tm i : (i <= S L)%nat -> close_pair (fun t => grow_t tm t i) (grow_0 tm i).
  Proof. apply close_grow; intros j Hj; apply quad_close; [now apply cin_nz|now apply cout_nz]. Qed.

  (** the exact problem in scaled form *)
  Definition shrink (t : R) (v : C * C) : C * C := (fst v / Cpow_n (RtoC t) (2 * n + 1), snd v).
  Lemma scaled_nth t i : index_at (scaled t l0 :: map (scaled t) rest) i = m i.
  Proof.
    unfold index_at. change (scaled t l0 :: map (scaled t) rest) with (map (scaled t) (l0 :: rest)). destruct (Nat.lt_ge_cases i (length (l0 :: rest))) as [H|H].
    - rewrite (nth_indep _ _ (scaled t (RtoC 1, RtoC 0))) by (rewrite map_length; exact H). rewrite map_nth. reflexivity.
    - rewrite !nth_overflow by (rewrite ?map_length; exact H). reflexivity.
  Qed.
  Lemma scaled_size t i : size_at (scaled t l0 :: map (scaled t) rest) i = RtoC t * x i.
  Proof.
    unfold size_at. change (scaled t l0 :: map (scaled t) rest) with (map (scaled t) (l0 :: rest)). destruct (Nat.lt_ge_cases i (length (l0 :: rest))) as [H|H].
    - rewrite (nth_indep _ _ (scaled t (RtoC 1, RtoC 0))) by (rewrite map_length; exact H). rewrite map_nth. reflexivity.
    - rewrite !nth_overflow by (rewrite ?map_length; exact H). cbn. ring.
  Qed.
  Lemma fld_shrink mm y t v : (0 < t)%R -> mm * y <> RtoC 0 ->
    Fld (true_rf n) v (mm * (RtoC t * y)) = Cpow_n (RtoC t) (n + 1) * qF (quad_t (mm * y) t) (shrink t v) /\
    dFld (true_rf n) v (mm * (RtoC t * y)) = Cpow_n (RtoC t) n * qG (quad_t (mm * y) t) (shrink t v).
  Proof.
    intros Ht Hc. unfold Fld, dFld, qF, qG, quad_t, shrink, sp, sq, sdp, sdq. cbn [fst snd qp qq qdp qdq true_rf rf_psi rf_zeta rf_dpsi rf_dzeta].
    replace (mm * (RtoC t * y)) with (mm * y * RtoC t) by ring. replace (2 * n + 1)%nat with (n + (n + 1))%nat by lia. rewrite (cpow_add _ n (n + 1)).
    pose proof (tp_nz t n Ht) as T1. pose proof (tp_nz t (n + 1) Ht) as T2. split; field; split; assumption.
  Qed.
  Lemma iface_shrink tm t mm mm' y v v' : (0 < t)%R -> mm <> RtoC 0 -> mm' <> RtoC 0 -> y <> RtoC 0 ->
    interface_ok tm (RtoC t * y) (true_rf n) mm v (true_rf n) mm' v' <-> qstate tm mm (quad_t (mm * y) t) (shrink t v) = qstate tm mm' (quad_t (mm' * y) t) (shrink t v').
  Proof.
    intros Ht H H' Hy. destruct (fld_shrink mm y t v Ht ltac:(now apply Cmult_neq_0)) as [E1 E2]. destruct (fld_shrink mm' y t v' Ht ltac:(now apply Cmult_neq_0)) as [E3 E4].
    pose proof (tp_nz t n Ht) as T1. pose proof (tp_nz t (n + 1) Ht) as T2. unfold interface_ok. rewrite E1, E2, E3, E4. unfold qstate. clear E1 E2 E3 E4.
    generalize (qF (quad_t (mm * y) t) (shrink t v)) (qF (quad_t (mm' * y) t) (shrink t v')) (qG (quad_t (mm * y) t) (shrink t v)) (qG (quad_t (mm' * y) t) (shrink t v')). intros f f' g g'.
    revert T1 T2. generalize (Cpow_n (RtoC t) n) (Cpow_n (RtoC t) (n + 1)). intros a b Ta Tb.
    assert (X : forall k u w : C, k <> RtoC 0 -> (k * u = k * w <-> u = w)) by (intros k u w Hk; split; [now apply Cmult_eq_reg_l|now intros ->]).
    destruct tm.
    - transitivity (f = f' /\ g / mm = g' / mm'); [|split; [intros [-> ->]; reflexivity|intros E; split; [exact (f_equal fst E)|exact (f_equal snd E)]]].
      rewrite (X b f f' Tb). replace (a * g / mm) with (a * (g / mm)) by (field; exact H). replace (a * g' / mm') with (a * (g' / mm')) by (field; exact H'). rewrite (X a _ _ Ta). reflexivity.
    - transitivity (f / mm = f' / mm' /\ g = g'); [|split; [intros [-> ->]; reflexivity|intros E; split; [exact (f_equal fst E)|exact (f_equal snd E)]]].
      rewrite (X a g g' Ta). replace (b * f / mm) with (b * (f / mm)) by (field; exact H). replace (b * f' / mm') with (b * (f' / mm')) by (field; exact H'). rewrite (X b _ _ Tb). reflexivity.
  Qed.
  Lemma exact_grow t As tm : (0 < t)%R -> near_solution n (scaled t l0) (map (scaled t) rest) As ->
    snd (grow_t tm t (S L)) <> RtoC 0 /\ forall i, (i <= S L)%nat -> shrink t (pair_of tm (nth i As amp0)) = cs (/ snd (grow_t tm t (S L))) (grow_t tm t i).
  Proof.
    intros Ht (HL & [A0 B0] & [C1 D1] & HI). rewrite map_length in *.
    apply (qmatched_norm tm L (fun i => m i) (fun i => quad_t (cin i) t) (fun i => quad_t (cout i) t)
      (fun i => rm_nz i) (fun i Hi => quad_wr _ t (cout_nz i Hi) Ht) (fun i => shrink t (pair_of tm (nth i As amp0)))).
    - intros i Hi. apply iface_shrink; try apply rm_nz; [exact Ht|now apply rx_nz|]. specialize (HI tm i Hi). rewrite scaled_size, !scaled_nth in HI. exact HI.
    - unfold shrink. cbn [fst]. replace (fst (pair_of tm (nth 0 As amp0))) with (RtoC 0) by (destruct tm; symmetry; assumption). unfold Cdiv. ring.
    - unfold shrink. cbn [snd]. destruct tm; assumption.
  Qed.

  (** the limit problem *)
  Lemma lead_nz : RtoC (INR n * odd_dfact n * odd_dfact (n - 1)) <> RtoC 0.
  Proof. apply RtoC_neq. pose proof (odd_pos n). pose proof (odd_pos (n - 1)). assert (0 < INR n)%R by (apply lt_0_INR; lia). apply Rgt_not_eq. repeat apply Rmult_lt_0_compat; assumption. Qed.
  Definition static_amp (mm : C) (AB : C * C) : C * C := (leading n * snd AB * (mm * mm * Cpow_n mm n), fst AB * mm / Cpow_n mm n).
  Lemma static_state mm y AB : mm <> RtoC 0 -> y <> RtoC 0 ->
    qstate true mm (quad_0 (mm * y)) (static_amp mm AB) =
      (y / (RtoC (INR n) * RtoC (odd_dfact n)) * (mm * mm * slope n AB y), RtoC (INR (n + 1)) / RtoC (odd_dfact n) * potential n AB y).
  Proof.
    intros Hm Hy. assert (N0 : RtoC (INR n) <> RtoC 0) by (apply RtoC_neq, not_0_INR; lia). pose proof (o_nz n) as O1. pose proof (o_nz (n - 1)) as O2. pose proof (cpow_nz mm n Hm) as M. pose proof (cpow_nz y n Hy) as Y.
    pose proof Ci_sqr as I2. unfold qstate, qF, qG, quad_0, static_amp, slope, potential, leading, lp, ldq, ldp, lq. cbn [fst snd qp qq qdp qdq].
    replace (RtoC (INR (n + 1) / (INR n * odd_dfact n * odd_dfact (n - 1)))) with (RtoC (INR (n + 1)) / (RtoC (INR n) * RtoC (odd_dfact n) * RtoC (odd_dfact (n - 1))))
      by (rewrite RtoC_div, !RtoC_mult; [reflexivity|intros Q; apply lead_nz; now rewrite Q]).
    replace (n + 1)%nat with (S n) by lia. rewrite !cpow_S, !(cpow_mul mm y n). set (u := RtoC (INR (S n))). destruct AB as [A B]. cbn [fst snd].
    apply (f_equal2 pair).
    - transitivity (mm * mm * y / (RtoC (INR n) * RtoC (odd_dfact n)) * (RtoC (INR n) * (A * Cpow_n y n) + (Ci * Ci) * (u * (B / (y * Cpow_n y n))))); [field; repeat split; assumption|]. rewrite I2. field. repeat split; assumption.
    - transitivity (u / RtoC (odd_dfact n) * (A * Cpow_n y n - (Ci * Ci) * (B / (y * Cpow_n y n)))); [field; repeat split; assumption|]. rewrite I2. field. repeat split; assumption.
  Qed.
  Lemma last_index : m (S L) = RtoC 1. Proof. unfold index_at. rewrite nth_overflow by (cbn; lia). reflexivity. Qed.
  Lemma static_grow P : static_solution n l0 rest P ->
    snd (grow_0 true (S L)) <> RtoC 0 /\ forall i, (i <= S L)%nat -> static_amp (m i) (P i) = cs (/ snd (grow_0 true (S L))) (grow_0 true i).
  Proof.
    intros (H0 & H1 & HI).
    apply (qmatched_norm true L (fun i => m i) (fun i => quad_0 (cin i)) (fun i => quad_0 (cout i))
      (fun i => rm_nz i) (fun i Hi => quad0_wr _ (cout_nz i Hi)) (fun i => static_amp (m i) (P i))).
    - intros i Hi. destruct (HI i Hi) as [E1 E2]. rewrite !static_state by (apply rm_nz || now apply rx_nz). rewrite E1, E2. reflexivity.
    - unfold static_amp. cbn [fst]. rewrite H0. ring.
    - unfold static_amp. cbn [snd]. rewrite H1, last_index. clear. assert (E : Cpow_n (RtoC 1) n = RtoC 1) by (rewrite cpow_R, pow1; reflexivity). rewrite E. field. apply RtoC_neq. lra.
  Qed.
  Lemma te_grow : snd (grow_0 false (S L)) <> RtoC 0 /\ forall i, (i <= S L)%nat -> (RtoC 0, / Cpow_n (m i) n) = cs (/ snd (grow_0 false (S L))) (grow_0 false i).
  Proof.
    apply (qmatched_norm false L (fun i => m i) (fun i => quad_0 (cin i)) (fun i => quad_0 (cout i))
      (fun i => rm_nz i) (fun i Hi => quad0_wr _ (cout_nz i Hi)) (fun i => (RtoC 0, / Cpow_n (m i) n))).
    - assert (X : forall mm y, mm <> RtoC 0 -> qstate false mm (quad_0 (mm * y)) (RtoC 0, / Cpow_n mm n) = (y * Cpow_n y n / RtoC (odd_dfact n), RtoC (INR (n + 1)) * Cpow_n y n / RtoC (odd_dfact n))).
      { intros mm y Hm. pose proof (cpow_nz mm n Hm) as M. pose proof (o_nz n) as O1. unfold qstate, qF, qG, quad_0, lp, ldp. cbn [fst snd qp qq qdp qdq]. replace (n + 1)%nat with (S n) by lia. rewrite !cpow_S, !(cpow_mul mm y n).
        generalize (lq (mm * y) n) (ldq (mm * y) n). intros a b. apply (f_equal2 pair); field; repeat split; assumption. }
      intros i Hi. now rewrite !X by apply rm_nz.
    - reflexivity.
    - cbn [snd]. rewrite last_index, cpow_R, pow1. field. apply RtoC_neq. lra.
  Qed.
  (* the amplitudes, scaled, tend to those of the limit problem *)
  Lemma amps_close tm (v : nat -> C * C) : snd (grow_0 tm (S L)) <> RtoC 0 -> (forall i, (i <= S L)%nat -> v i = cs (/ snd (grow_0 tm (S L))) (grow_0 tm i)) ->
    forall i, (i <= S L)%nat -> exists K d, (0 <= K /\ 0 < d <= 1)%R /\ forall t As, (0 < t < d)%R -> near_solution n (scaled t l0) (map (scaled t) rest) As ->
      (Cmod (fst (pair_of tm (nth i As amp0)) - RtoC (t ^ (2 * n + 1)) * fst (v i))%C <= K * t ^ (2 * n + 3))%R /\ (Cmod (snd (pair_of tm (nth i As amp0)) - snd (v i))%C <= K * t ^ 2)%R.
  Proof.
    intros Hg Hv i Hi. destruct (grows_close tm i Hi) as [C1 C2]. destruct (grows_close tm (S L) (le_n _)) as [_ CL]. cbv beta in C1, C2, CL.
    pose proof (cl_mult _ _ _ _ (cl_inv _ _ Hg CL) C1) as D1. pose proof (cl_mult _ _ _ _ (cl_inv _ _ Hg CL) C2) as D2. destruct (two_close _ _ _ _ D1 D2) as (K & d & HK & Hd & H).
    exists K, d. split; [split; assumption|]. intros t As Ht HS. destruct (H t Ht) as [B1 B2]. destruct (exact_grow t As tm ltac:(lra) HS) as [_ E]. specialize (E i Hi).
    pose proof (f_equal fst E) as Ef. pose proof (f_equal snd E) as Es. unfold shrink, cs in Ef, Es. cbn [fst snd] in Ef, Es. rewrite (Hv i Hi). unfold cs. cbn [fst snd]. rewrite <- Ef in B1. rewrite <- Es in B2. clear E Ef Es.
    assert (T : RtoC (t ^ (2 * n + 1)) <> RtoC 0) by (apply RtoC_neq, pow_nonzero; lra). rewrite cpow_R in B1. split; [|replace (t ^ 2)%R with (t * t)%R by ring; exact B2].
    set (a := fst (pair_of tm (nth i As amp0))) in *. set (b := / snd (grow_0 tm (S L)) * fst (grow_0 tm i)) in *.
    replace (a - RtoC (t ^ (2 * n + 1)) * b) with (RtoC (t ^ (2 * n + 1)) * (a / RtoC (t ^ (2 * n + 1)) - b)) by (field; exact T). rewrite Cmod_mult, Cmod_R. assert (P0 : (0 < t ^ (2 * n + 1))%R) by (apply pow_lt; lra). rewrite Rabs_pos_eq by lra.
    replace (K * t ^ (2 * n + 3))%R with (t ^ (2 * n + 1) * (K * (t * t)))%R by (replace (2 * n + 3)%nat with (S (S (2 * n + 1))) by lia; cbn [pow]; generalize (t ^ (2 * n + 1))%R; intros; ring). apply Rmult_le_compat_l; [lra|exact B1].
  Qed.
End Particle.
