(** Electrostatics of layered spheres: exactly one solution for passive particles, and closed forms. *)
From Coq Require Import Reals ZArith Lra Lia Bool List Arith.
From Coquelicot Require Import Coquelicot.
From Verif Require Import Ops ROps Spec StackSpec CLemmas CTrig ComplexDiff BesselProofs BesselSpec NearSpec PassiveSpec PassiveStack SeriesSpec SeriesDecay RayleighSpec RayleighBase RayleighRadial RayleighStack.
Import ListNotations.
Open Scope C_scope.

Section Static.
  Variable n : nat.
  Hypothesis Hn : (1 <= n)%nat.
  Notation N := (RtoC (INR n)). Notation N1 := (RtoC (INR (n + 1))).
  Definition sq2 (c : C) : R := (fst c * fst c + snd c * snd c)%R.
  Lemma sq2_conj c : c * Cconj c = RtoC (sq2 c). Proof. destruct c as [a b]. unfold sq2. apply C_eq; cbn; ring. Qed.
  Lemma sq2_nn c : (0 <= sq2 c)%R. Proof. unfold sq2. nra. Qed.
  Definition flow (AB : C * C) (r : R) : C := RtoC r * (slope n AB (RtoC r) * Cconj (potential n AB (RtoC r))).
  Definition bare (AB : C * C) (r : R) : R := (INR n * sq2 (fst AB) * r ^ (2 * n + 1) - INR (n + 1) * sq2 (snd AB) / r ^ (2 * n + 1))%R.
  Lemma flow_form AB r : (0 < r)%R -> flow AB r = RtoC (bare AB r) + (N * (fst AB * Cconj (snd AB)) - N1 * (snd AB * Cconj (fst AB))).
  Proof.
    intros Hr. unfold flow, slope, potential, bare. set (u := (r ^ n)%R). assert (Hu : (0 < u)%R) by (apply pow_lt; exact Hr).
    replace (r ^ (2 * n + 1))%R with (r * (u * u))%R by (unfold u; rewrite <- pow_add; replace (2 * n + 1)%nat with (S (n + n)) by lia; reflexivity).
    replace (Cpow_n (RtoC r) (n + 1)) with (RtoC r * RtoC u) by (replace (n + 1)%nat with (S n) by lia; rewrite cpow_S, cpow_R; reflexivity). rewrite cpow_R. fold u.
    assert (R0 : RtoC r <> RtoC 0) by (apply RtoC_neq; lra). assert (U0 : RtoC u <> RtoC 0) by (apply RtoC_neq; lra).
    destruct AB as [A B]. cbn [fst snd]. rewrite Cconj_plus, Cconj_mult, Cconj_div, Cconj_mult, !Cconj_R. rewrite RtoC_minus, RtoC_div, !RtoC_mult by (apply Rgt_not_eq; repeat apply Rmult_lt_0_compat; assumption).
    rewrite <- !sq2_conj. field. split; assumption.
  Qed.
  Lemma bare_mono AB r s : (0 < r <= s)%R -> (bare AB r <= bare AB s)%R.
  Proof.
    intros Hr. unfold bare. pose proof (sq2_nn (fst AB)) as A0. pose proof (sq2_nn (snd AB)) as B0. pose proof (pos_INR n) as P1. pose proof (pos_INR (n + 1)) as P2.
    assert (Q : (0 < r ^ (2 * n + 1) <= s ^ (2 * n + 1))%R) by (split; [apply pow_lt; lra|apply pow_incr; lra]). assert (I : (/ s ^ (2 * n + 1) <= / r ^ (2 * n + 1))%R) by (apply Rinv_le_contravar; lra).
    assert (X1 : (INR n * sq2 (fst AB) * r ^ (2 * n + 1) <= INR n * sq2 (fst AB) * s ^ (2 * n + 1))%R) by (apply Rmult_le_compat_l; [apply Rmult_le_pos; assumption|lra]).
    assert (X2 : (INR (n + 1) * sq2 (snd AB) / s ^ (2 * n + 1) <= INR (n + 1) * sq2 (snd AB) / r ^ (2 * n + 1))%R) by (apply Rmult_le_compat_l; [apply Rmult_le_pos; assumption|exact I]). lra.
  Qed.
  (* the weighted flow grows outwards *)
  Lemma flow_mono (w e : C) AB r s : (0 <= fst (w * e)%C)%R -> (0 < r <= s)%R -> (fst (w * (e * flow AB r))%C <= fst (w * (e * flow AB s))%C)%R.
  Proof.
    intros He Hr. rewrite !flow_form by lra. pose proof (bare_mono AB r s Hr) as B. generalize dependent (N * (fst AB * Cconj (snd AB)) - N1 * (snd AB * Cconj (fst AB))). intros c.
    replace (w * (e * (RtoC (bare AB r) + c))) with ((w * e) * RtoC (bare AB r) + (w * e) * c) by ring. replace (w * (e * (RtoC (bare AB s) + c))) with ((w * e) * RtoC (bare AB s) + (w * e) * c) by ring.
    revert He. generalize (w * e). intros [p q] He. cbn in *. nra.
  Qed.

  Section Stack.
    Variables (l0 : C * C) (rest : list (C * C)).
    Hypothesis Hp : passive_stack (l0 :: rest).
    Hypothesis Hl : no_lossless_metal (l0 :: rest).
    Notation L := (length rest).
    Notation m i := (index_at (l0 :: rest) i). Notation x i := (size_at (l0 :: rest) i).
    Lemma passive_nonzero : nonzero_stack (l0 :: rest).
    Proof. intros i Hi. destruct (Hp i Hi) as (A & _ & _ & B & _). split; [exact A|]. intros E. rewrite E in B. cbn in B. lra. Qed.
    Definition smatched (P : nat -> C * C) : Prop := forall i, (i <= L)%nat ->
      potential n (P i) (x i) = potential n (P (S i)) (x i) /\ m i * m i * slope n (P i) (x i) = m (S i) * m (S i) * slope n (P (S i)) (x i).
    Lemma s_real i : (i <= L)%nat -> x i = RtoC (fst (x i)). Proof. intros H. apply C_eq; [reflexivity|]. cbn [snd RtoC]. apply (Hp i). cbn. lia. Qed.
    Lemma s_pos i : (i <= L)%nat -> (0 < fst (x i))%R. Proof. intros H. apply (Hp i). cbn. lia. Qed.
    Lemma s_mono i : (S i <= L)%nat -> (fst (x i) <= fst (x (S i)))%R. Proof. intros H. apply (Hp i); cbn; lia. Qed.
    Lemma flow_cross P i : smatched P -> (i <= L)%nat -> m i * m i * flow (P i) (fst (x i)) = m (S i) * m (S i) * flow (P (S i)) (fst (x i)).
    Proof.
      intros HM Hi. destruct (HM i Hi) as [E1 E2]. rewrite (s_real i Hi) in E1, E2. unfold flow. rewrite E1.
      transitivity (RtoC (fst (x i)) * ((m i * m i * slope n (P i) (RtoC (fst (x i)))) * Cconj (potential n (P (S i)) (RtoC (fst (x i)))))); [ring|]. rewrite E2. ring.
    Qed.
    Lemma flow_chain w P : (forall i, (i <= L)%nat -> (0 < fst (w * (m i * m i))%C)%R) -> smatched P -> snd (P 0%nat) = RtoC 0 ->
      forall i, (i <= L)%nat -> (0 <= fst (w * (m i * m i * flow (P i) (fst (x i))))%C)%R.
    Proof.
      intros Hw HM H0. induction i as [|i IH]; intros Hi.
      - rewrite flow_form by (now apply s_pos). rewrite H0. unfold bare. rewrite H0. replace (Cconj (RtoC 0)) with (RtoC 0) by (apply C_eq; cbn; ring). replace (sq2 (RtoC 0)) with 0%R by (unfold sq2; cbn; ring).
        pose proof (Hw 0%nat Hi) as W. set (b := (INR n * sq2 (fst (P 0%nat)) * fst (x 0) ^ (2 * n + 1) - INR (n + 1) * 0 / fst (x 0) ^ (2 * n + 1))%R).
        assert (B : (0 <= b)%R). { unfold b, Rdiv. rewrite Rmult_0_r, Rmult_0_l, Rminus_0_r. apply Rmult_le_pos; [apply Rmult_le_pos; [apply pos_INR|apply sq2_nn]|]. apply pow_le. pose proof (s_pos 0 Hi). lra. }
        match goal with |- (0 <= fst ?u)%R => replace u with ((w * (m 0 * m 0)) * RtoC b) by ring end. revert W. generalize (w * (m 0 * m 0)). intros [p q] W. cbn in *. nra.
      - specialize (IH ltac:(lia)). rewrite (flow_cross P i HM ltac:(lia)) in IH. eapply Rle_trans; [exact IH|]. apply flow_mono; [apply Rlt_le, Hw; exact Hi|]. split; [apply s_pos; lia|apply s_mono; exact Hi].
    Qed.
    Lemma static_weight : exists w : C, (0 < fst w)%R /\ forall i, (i <= L)%nat -> (0 < fst (w * (m i * m i))%C)%R.
    Proof.
      destruct (weight l0 rest Hp Hl) as (w & W0 & W). exists (Cconj w). split; [destruct w; exact W0|]. intros i Hi. specialize (W i Hi). revert W. generalize (m i * m i). intros [p q]. destruct w as [a b]. cbn. lra.
    Qed.
    Lemma no_trapped P : smatched P -> snd (P 0%nat) = RtoC 0 -> fst (P (S L)) = RtoC 0 -> snd (P (S L)) = RtoC 0.
    Proof.
      intros HM H0 H1. destruct static_weight as (w & W0 & W). pose proof (flow_chain w P W HM H0 L (le_n _)) as Q. rewrite (flow_cross P L HM (le_n _)) in Q. rewrite (last_index n Hn l0 rest) in Q.
      rewrite flow_form in Q by (apply s_pos; lia). unfold bare in Q. rewrite H1 in Q. replace (Cconj (RtoC 0)) with (RtoC 0) in Q by (apply C_eq; cbn; ring). replace (sq2 (RtoC 0)) with 0%R in Q by (unfold sq2; cbn; ring).
      set (p := (fst (x L) ^ (2 * n + 1))%R) in *. assert (P0 : (0 < p)%R) by (apply pow_lt, s_pos; lia).
      match type of Q with (0 <= fst ?u)%R => replace u with (w * RtoC (- (INR (n + 1) * sq2 (snd (P (S L))) / p))) in Q end.
      - assert (N0 : (0 < INR (n + 1))%R) by (apply lt_0_INR; lia). pose proof (sq2_nn (snd (P (S L)))) as S0. assert (Z : (0 <= INR (n + 1) * sq2 (snd (P (S L))) / p)%R) by (apply Rmult_le_pos; [apply Rmult_le_pos; lra|apply Rlt_le, Rinv_0_lt_compat, P0]).
        assert (Z0 : (INR (n + 1) * sq2 (snd (P (S L))) / p = 0)%R) by (revert Q Z; generalize (INR (n + 1) * sq2 (snd (P (S L))) / p)%R; intros y Q Z; destruct w as [w1 w2]; cbn in Q, W0; nra).
        apply (f_equal (fun y => (y * p)%R)) in Z0. unfold Rdiv in Z0. rewrite Rmult_assoc, Rinv_l, Rmult_1_r, Rmult_0_l in Z0 by lra.
        assert (Z1 : sq2 (snd (P (S L))) = 0%R) by (apply Rmult_integral in Z0; destruct Z0; lra). destruct (snd (P (S L))) as [a b]. unfold sq2 in Z1. cbn in Z1. apply C_eq; cbn; nra.
      - replace (INR n * 0 * p - INR (n + 1) * sq2 (snd (P (S L))) / p)%R with (- (INR (n + 1) * sq2 (snd (P (S L))) / p))%R by (field; lra). ring.
    Qed.
    (* static amplitudes from grown ones *)
    Definition static_of (mm : C) (v : C * C) : C * C := (snd v * Cpow_n mm n / mm, fst v / (leading n * (mm * mm * Cpow_n mm n))).
    Lemma leading_nz : leading n <> RtoC 0.
    Proof.
      unfold leading. apply Cmult_neq_0; [apply Ci_neq0|]. apply RtoC_neq. pose proof (odd_pos n). pose proof (odd_pos (n - 1)). assert (0 < INR n)%R by (apply lt_0_INR; lia). assert (0 < INR (n + 1))%R by (apply lt_0_INR; lia).
      apply Rgt_not_eq. apply Rdiv_lt_0_compat; [assumption|]. repeat apply Rmult_lt_0_compat; assumption.
    Qed.
    Lemma static_of_amp mm AB : mm <> RtoC 0 -> static_of mm (static_amp n mm AB) = AB.
    Proof. intros Hm. pose proof leading_nz. pose proof (cpow_nz mm n Hm). destruct AB as [A B]. unfold static_of, static_amp. cbn [fst snd]. apply (f_equal2 pair); field; repeat split; assumption. Qed.
    Lemma amp_static_of mm v : mm <> RtoC 0 -> static_amp n mm (static_of mm v) = v.
    Proof. intros Hm. pose proof leading_nz. pose proof (cpow_nz mm n Hm). destruct v as [A B]. unfold static_of, static_amp. cbn [fst snd]. apply (f_equal2 pair); field; repeat split; assumption. Qed.
    Notation g := (grow_0 n l0 rest true).
    Definition grown (i : nat) : C * C := static_of (m i) (g i).
    Lemma grown_matched : smatched grown.
    Proof.
      intros i Hi. pose proof passive_nonzero as Hst.
      assert (Q : qmatched true L (fun i => m i) (fun i => quad_0 n (m i * x i)) (fun i => quad_0 n (m (S i) * x i)) g) by (apply qgrow_matched; [intros j; now apply rm_nz|intros j Hj; apply quad0_wr; [exact Hn|now apply (cout_nz n Hn)]]).
      specialize (Q i Hi). cbv beta in Q. rewrite <- (amp_static_of (m i) (g i)), <- (amp_static_of (m (S i)) (g (S i))) in Q by now apply rm_nz.
      rewrite !static_state in Q by (exact Hn || now apply rm_nz || now apply (rx_nz n Hn l0 rest Hst)). fold (grown i) (grown (S i)) in Q.
      assert (N0 : RtoC (INR n) <> RtoC 0) by (apply RtoC_neq, not_0_INR; lia). assert (N2 : RtoC (INR (n + 1)) <> RtoC 0) by (apply RtoC_neq, not_0_INR; lia). pose proof (o_nz n) as O1. pose proof (rx_nz n Hn l0 rest Hst i Hi) as X0.
      split; [apply (f_equal snd) in Q; cbn [snd] in Q|apply (f_equal fst) in Q; cbn [fst] in Q]; (eapply Cmult_eq_reg_l; [|exact Q]).
      - apply Cmult_neq_0; [exact N2|now apply Cinv_neq0].
      - apply Cmult_neq_0; [exact X0|apply Cinv_neq0; now apply Cmult_neq_0].
    Qed.
    Lemma grown_0 : snd (grown 0) = RtoC 0. Proof. unfold grown, static_of. cbn [snd grow_0 qgrow fst]. unfold Cdiv. ring. Qed.
    Lemma grown_last : fst (grown (S L)) <> RtoC 0.
    Proof.
      intros E. pose proof passive_nonzero as Hst. pose proof (no_trapped grown grown_matched grown_0 E) as E2.
      assert (G : g (S L) = (RtoC 0, RtoC 0)).
      { rewrite <- (amp_static_of (m (S L)) (g (S L))) by now apply rm_nz. fold (grown (S L)). unfold static_amp. rewrite E, E2. apply (f_equal2 pair); [ring|unfold Cdiv; ring]. }
      assert (Back : forall k, (k <= S L)%nat -> g k = (RtoC 0, RtoC 0) -> g 0%nat = (RtoC 0, RtoC 0)).
      { induction k as [|k IH]; intros Hk HP; [exact HP|]. apply IH; [lia|].
        assert (Q : qmatched true L (fun i => m i) (fun i => quad_0 n (m i * x i)) (fun i => quad_0 n (m (S i) * x i)) g) by (apply qgrow_matched; [intros j; now apply rm_nz|intros j Hj; apply quad0_wr; [exact Hn|now apply (cout_nz n Hn)]]).
        specialize (Q k ltac:(lia)). cbv beta in Q. rewrite HP in Q.
        rewrite <- (qsolve_state true (m k) (quad_0 n (m k * x k)) (g k)); [|now apply rm_nz|apply quad0_wr; [exact Hn|apply (cin_nz n Hn l0 rest Hst); lia]]. rewrite Q. unfold qsolve, qstate, qF, qG. cbn [fst snd]. pose proof Ci_neq0. pose proof (rm_nz l0 rest Hst (S k)). apply (f_equal2 pair); field; split; assumption. }
      pose proof (Back (S L) (le_n _) G) as Z. apply (f_equal snd) in Z. cbn in Z. injection Z. lra.
    Qed.
  End Stack.
End Static.
Lemma pot_scale n c A B r : potential n (c * A, c * B) r = c * potential n (A, B) r. Proof. unfold potential. cbn [fst snd]. unfold Cdiv. ring. Qed.
Lemma slope_scale n c A B r : slope n (c * A, c * B) r = c * slope n (A, B) r. Proof. unfold slope. cbn [fst snd]. unfold Cdiv. ring. Qed.
Theorem statics_unique n l0 rest P P' : (1 <= n)%nat -> nonzero_stack (l0 :: rest) -> static_solution n l0 rest P -> static_solution n l0 rest P' -> forall i, (i <= S (length rest))%nat -> P i = P' i.
Proof.
  intros Hn Hst H H' i Hi. destruct (static_grow n Hn l0 rest Hst P H) as [_ G]. destruct (static_grow n Hn l0 rest Hst P' H') as [_ G'].
  rewrite <- (static_of_amp n Hn (index_at (l0 :: rest) i) (P i)), <- (static_of_amp n Hn (index_at (l0 :: rest) i) (P' i)) by now apply rm_nz. now rewrite G, G'.
Qed.
Definition static_field n l0 rest (i : nat) : C * C := let g := grown n l0 rest in let c := / fst (g (S (length rest))) in (c * fst (g i), c * snd (g i)).
Theorem static_field_solves n l0 rest : (1 <= n)%nat -> passive_stack (l0 :: rest) -> no_lossless_metal (l0 :: rest) -> static_solution n l0 rest (static_field n l0 rest).
Proof.
  intros Hn Hp Hl. unfold static_field. set (g := grown n l0 rest). pose proof (grown_last n Hn l0 rest Hp Hl) as G1. fold g in G1. set (c := / fst (g (S (length rest)))). cbv zeta.
  split; [cbn [snd]; replace (snd (g 0%nat)) with (RtoC 0) by (symmetry; apply grown_0); ring|]. split; [cbn [fst]; unfold c; field; exact G1|].
  intros i Hi. cbv zeta. rewrite !pot_scale, !slope_scale, <- !surjective_pairing. destruct (grown_matched n Hn l0 rest Hp i Hi) as [E1 E2]. fold g in E1, E2. rewrite E1. split; [reflexivity|].
  transitivity (c * (index_at (l0 :: rest) i * index_at (l0 :: rest) i * slope n (g i) (size_at (l0 :: rest) i))); [ring|rewrite E2; ring].
Qed.
Theorem statics_well_posed n l0 rest : (1 <= n)%nat -> passive_stack (l0 :: rest) -> no_lossless_metal (l0 :: rest) ->
  exists P, static_solution n l0 rest P /\ forall P', static_solution n l0 rest P' -> forall i, (i <= S (length rest))%nat -> P' i = P i.
Proof.
  intros Hn Hp Hl. pose proof (static_field_solves n l0 rest Hn Hp Hl) as HS. exists (static_field n l0 rest). split; [exact HS|]. intros P' H' i Hi. exact (statics_unique n l0 rest P' _ Hn (passive_nonzero l0 rest Hp) H' HS i Hi).
Qed.

(** closed forms *)
(* homogeneous sphere: -n (eps - 1) / (n eps + n + 1) r^(2n+1) *)
Theorem static_sphere n (m r : C) : (1 <= n)%nat -> r <> RtoC 0 -> RtoC (INR n) * (m * m) + RtoC (INR (n + 1)) <> RtoC 0 ->
  exists P, static_solution n (m, r) [] P /\ induced [] P = - (RtoC (INR n) * (m * m - RtoC 1) / (RtoC (INR n) * (m * m) + RtoC (INR (n + 1)))) * Cpow_n r (2 * n + 1).
Proof.
  intros Hn Hr HD. set (N := RtoC (INR n)) in *. set (N1 := RtoC (INR (n + 1))) in *. set (D := N * (m * m) + N1) in *. set (B := - (N * (m * m - RtoC 1) / D) * Cpow_n r (2 * n + 1)).
  exists (fun i => match i with O => ((N + N1) / D, RtoC 0) | _ => (RtoC 1, B) end). split; [|reflexivity]. split; [reflexivity|]. split; [reflexivity|].
  intros i Hi. assert (i = 0%nat) by (cbn in Hi; lia). subst i. cbv zeta. unfold size_at, index_at, potential, slope. cbn [nth fst snd length]. fold N. fold N1. unfold B. replace (2 * n + 1)%nat with (n + (n + 1))%nat by lia. rewrite (cpow_add r n (n + 1)).
  pose proof (cpow_nz r (n + 1) Hr) as Q. assert (E : N1 = D - N * (m * m)) by (unfold D; ring). clearbody D N1. subst N1. split; field; split; assumption.
Qed.
Theorem static_coated (m1 m2 r1 r2 : C) : m1 <> RtoC 0 -> m2 <> RtoC 0 -> r1 <> RtoC 0 -> r2 <> RtoC 0 ->
  (m2 * m2 + RtoC 2) * (m1 * m1 + RtoC 2 * (m2 * m2)) + Cpow_n r1 3 / Cpow_n r2 3 * (RtoC 2 * (m2 * m2) - RtoC 2) * (m1 * m1 - m2 * m2) <> RtoC 0 ->
  exists P, static_solution 1 (m1, r1) [(m2, r2)] P /\ induced [(m2, r2)] P = - (coated (m1 * m1) (m2 * m2) r1 r2) * Cpow_n r2 3.
Proof.
  intros H1 H2 R1 R2 HD. set (e1 := m1 * m1) in *. set (e2 := m2 * m2) in *. set (D := (e2 + RtoC 2) * (e1 + RtoC 2 * e2) + Cpow_n r1 3 / Cpow_n r2 3 * (RtoC 2 * e2 - RtoC 2) * (e1 - e2)) in *.
  set (B := - (coated e1 e2 r1 r2) * Cpow_n r2 3).
  assert (T2 : RtoC 2 = RtoC 1 + RtoC 1) by (apply C_eq; cbn; ring). assert (T3 : RtoC 3 = RtoC 1 + RtoC 1 + RtoC 1) by (apply C_eq; cbn; ring). assert (T6 : RtoC 6 = RtoC 2 * RtoC 3) by (apply C_eq; cbn; ring). assert (T9 : RtoC 9 = RtoC 3 * RtoC 3) by (apply C_eq; cbn; ring).
  exists (fun i => match i with O => (RtoC 9 * e2 / D, RtoC 0) | S O => (RtoC 3 * (e1 + RtoC 2 * e2) / D, - (RtoC 3 * (e1 - e2) * Cpow_n r1 3 / D)) | _ => (RtoC 1, B) end). split; [|reflexivity]. split; [reflexivity|]. split; [reflexivity|].
  intros i Hi. destruct i as [|[|i]]; [| |cbn in Hi; lia]; cbv zeta; unfold size_at, index_at, potential, slope; cbn [nth fst snd length Nat.add]; fold e1 e2.
  - change (INR 1) with 1%R. replace (RtoC (INR 2)) with (RtoC 2) by (cbn; reflexivity). cbn [Cpow_n]. rewrite T9, T3, T2. split; field; split; assumption.
  - unfold B, coated. cbv zeta. fold D. change (INR 1) with 1%R. replace (RtoC (INR 2)) with (RtoC 2) by (cbn; reflexivity). set (f := Cpow_n r1 3 / Cpow_n r2 3) in *. assert (Ef : Cpow_n r1 3 = f * Cpow_n r2 3) by (unfold f; field; now apply cpow_nz). rewrite Ef. cbn [Cpow_n].
    split; (eapply Cmult_eq_reg_l; [exact HD|]).
    + transitivity ((RtoC 3 * (e1 + RtoC 2 * e2) - RtoC 3 * (e1 - e2) * f) * r2); [rewrite T3, T2; field; split; assumption|].
      transitivity ((D - ((e2 - RtoC 1) * (e1 + RtoC 2 * e2) + f * (e1 - e2) * (RtoC 1 + RtoC 2 * e2))) * r2); [unfold D; rewrite ?T6, T3, T2; ring|field; split; assumption].
    + transitivity (e2 * (RtoC 3 * (e1 + RtoC 2 * e2) + RtoC 6 * (e1 - e2) * f) * r2); [rewrite T6, T3, T2; field; split; assumption|].
      transitivity ((D + RtoC 2 * ((e2 - RtoC 1) * (e1 + RtoC 2 * e2) + f * (e1 - e2) * (RtoC 1 + RtoC 2 * e2))) * r2); [unfold D; rewrite ?T6, T3, T2; ring|rewrite T2; field; split; assumption].
Qed.
