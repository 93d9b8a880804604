(** Real part of the surface admittance in a passive layered particle: the state (p, q) continuous at the interfaces
    satisfies p' = u q, q' = v p, and Re (w p conj q) cannot decrease outwards once the order is large. *)
From Coq Require Import Reals ZArith Lra Lia Bool List Arith.
From Coquelicot Require Import Coquelicot.
From Verif Require Import Ops ROps Spec StackSpec CLemmas CTrig ComplexDiff BesselSpec BesselTrue ConvergeSpec BesselMinimal ModelSpecial ModelMie AngularIntegral
  ExampleStack TorchConverge ModelNear NearSpec MaxwellSpec MaxwellProofs NearLimitSpec PlaneExp PassiveSpec Passive PassiveStack.
Import ListNotations.
Open Scope C_scope.

Definition rflux (w : C) (s : C * C) : R := fst (w * (fst s * Cconj (snd s))).
Definition nsq (c : C) : R := (fst c * fst c + snd c * snd c)%R.
Definition total (s : C * C) : R := (nsq (fst s) + nsq (snd s))%R.
Lemma nsq_mod c : nsq c = (Cmod c * Cmod c)%R.
Proof. rewrite Cmod_sqr. unfold nsq. ring. Qed.
Lemma nsq_ge c : (0 <= nsq c)%R. Proof. unfold nsq. nra. Qed.

Lemma d_re (w : C) (p q : R -> C) t p' q' : RCderive p t p' -> RCderive q t q' ->
  is_derive (fun s => fst (w * (p s * Cconj (q s)))) t (fst (w * (p' * Cconj (q t) + p t * Cconj q'))).
Proof.
  intros [P1 P2] [Q1 Q2].
  apply (is_derive_ext (fun s => (fst w * (fst (p s) * fst (q s) + snd (p s) * snd (q s)) - snd w * (snd (p s) * fst (q s) - fst (p s) * snd (q s)))%R)); [intros s; cbn; match goal with |- ?a = ?b => change (@eq R a b) end; ring|].
  pose proof (is_derive_scal _ _ (fst w) _ (is_derive_plus _ _ _ _ _ (is_derive_mult _ _ _ _ _ P1 Q1 Rmult_comm) (is_derive_mult _ _ _ _ _ P2 Q2 Rmult_comm))) as D1.
  pose proof (is_derive_scal _ _ (snd w) _ (is_derive_minus _ _ _ _ _ (is_derive_mult _ _ _ _ _ P2 Q1 Rmult_comm) (is_derive_mult _ _ _ _ _ P1 Q2 Rmult_comm))) as D2.
  pose proof (is_derive_minus _ _ _ _ _ D1 D2) as D.
  match type of D with is_derive _ _ ?v => match goal with |- is_derive _ _ ?u => replace u with v; [exact D|] end end.
  cbn. unfold minus, plus, opp, mult, scal. cbn. unfold plus, mult, opp. cbn. match goal with |- ?a = ?b => change (@eq R a b) end. ring.
Qed.
Lemma d_nsq (p : R -> C) t p' : RCderive p t p' -> is_derive (fun s => nsq (p s)) t (2 * fst (p' * Cconj (p t))%C)%R.
Proof.
  intros H. pose proof (d_re (RtoC 1) p p t p' p' H H) as D.
  apply (is_derive_ext (fun s => fst (RtoC 1 * (p s * Cconj (p s))))); [intros s; unfold nsq; cbn; match goal with |- ?a = ?b => change (@eq R a b) end; ring|].
  match type of D with is_derive _ _ ?v => match goal with |- is_derive _ _ ?u => replace u with v; [exact D|] end end. cbn. ring.
Qed.

Section Order.
  Variable n : nat.
  Hypothesis Hn : (1 <= n)%nat.
  Notation rf := (true_rf n).
  Notation state := (state n).
  Definition NN : C := RtoC (INR n) * (RtoC (INR n) + RtoC 1).
  Definition urate (tm : bool) (m : C) (x : R) : C := if tm then NN / (m * RtoC x * (m * RtoC x)) - RtoC 1 else NN / (RtoC x * RtoC x) - m * m.
  Definition vrate (tm : bool) (m : C) : C := if tm then m * m else RtoC 1.
  Lemma state_derive tm m AB x : m <> RtoC 0 -> (0 < x)%R ->
    RCderive (fun s => fst (state tm m AB s)) x (urate tm m x * snd (state tm m AB x)) /\ RCderive (fun s => snd (state tm m AB s)) x (vrate tm m * fst (state tm m AB x)).
  Proof.
    intros Hm Hx. destruct (fld_derive n Hn m AB x Hm Hx) as [D1 D2]. assert (Hx' : RtoC x <> RtoC 0) by (intros Q; injection Q; lra).
    assert (V : forall f a b, RCderive f x a -> a = b -> RCderive f x b) by (intros f a b H <-; exact H).
    unfold Passive.state, urate, vrate, NN. destruct tm; cbn [fst snd].
    - pose proof (rc_scal (/ m) _ _ _ D2) as D3. apply (rc_ext _ (fun s => dFld rf AB (m * RtoC s) / m)) in D3; [|intros; unfold Cdiv; ring].
      split; [eapply V; [exact D3|]|eapply V; [exact D1|]]; field; auto.
    - pose proof (rc_scal (/ m) _ _ _ D1) as D3. apply (rc_ext _ (fun s => Fld rf AB (m * RtoC s) / m)) in D3; [|intros; unfold Cdiv; ring].
      split; [eapply V; [exact D2|]|eapply V; [exact D3|]]; field; auto.
  Qed.
  (* rates of the weighted flux *)
  Definition arate (w : C) (tm : bool) (m : C) (x : R) : R := fst (w * urate tm m x).
  Definition brate (w : C) (tm : bool) (m : C) : R := fst (w * Cconj (vrate tm m)).
  Lemma rflux_derive w tm m AB x : m <> RtoC 0 -> (0 < x)%R ->
    is_derive (fun s => rflux w (state tm m AB s)) x (arate w tm m x * nsq (snd (state tm m AB x)) + brate w tm m * nsq (fst (state tm m AB x)))%R.
  Proof.
    intros Hm Hx. destruct (state_derive tm m AB x Hm Hx) as [D1 D2]. pose proof (d_re w _ _ _ _ _ D1 D2) as D. unfold rflux.
    match type of D with is_derive _ _ ?v => match goal with |- is_derive _ _ ?u => replace u with v; [exact D|] end end.
    unfold arate, brate, nsq. generalize (urate tm m x) (vrate tm m) (state tm m AB x). intros [u1 u2] [v1 v2] [[p1 p2] [q1 q2]]. destruct w as [w1 w2]. cbn. ring.
  Qed.
  Lemma total_derive tm m AB x : m <> RtoC 0 -> (0 < x)%R ->
    is_derive (fun s => total (state tm m AB s)) x (2 * fst ((urate tm m x + Cconj (vrate tm m)) * (snd (state tm m AB x) * Cconj (fst (state tm m AB x))))%C)%R.
  Proof.
    intros Hm Hx. destruct (state_derive tm m AB x Hm Hx) as [D1 D2]. pose proof (is_derive_plus _ _ _ _ _ (d_nsq _ _ _ D1) (d_nsq _ _ _ D2)) as D. unfold total.
    match type of D with is_derive _ _ ?v => match goal with |- is_derive _ _ ?u => replace u with v; [exact D|] end end.
    generalize (urate tm m x) (vrate tm m) (state tm m AB x). intros [u1 u2] [v1 v2] [[p1 p2] [q1 q2]]. cbn. unfold plus. cbn. ring.
  Qed.
  (* monotonicity of kappa * rflux + total and of rflux *)
  Lemma mono_gen (f df : R -> R) s t : (0 < s <= t)%R -> (forall x, (s <= x <= t)%R -> is_derive f x (df x)) -> (forall x, (s <= x <= t)%R -> 0 <= df x)%R -> (f s <= f t)%R.
  Proof.
    intros Hst Hd Hp. destruct (Req_dec s t) as [->|Hne]; [lra|].
    destruct (MVT_gen f s t df) as (c & Hc & E).
    - intros x Hx. rewrite Rmin_left, Rmax_right in Hx by lra. apply Hd; lra.
    - intros x Hx. rewrite Rmin_left, Rmax_right in Hx by lra. apply continuity_pt_filterlim. apply (ex_derive_continuous (V := R_NormedModule)). eexists. apply Hd; lra.
    - rewrite Rmin_left, Rmax_right in Hc by lra. pose proof (Hp c Hc). nra.
  Qed.
  Lemma rflux_mono w tm m AB s t : m <> RtoC 0 -> (0 < s <= t)%R -> (forall x, (s <= x <= t)%R -> 0 <= arate w tm m x)%R -> (0 <= brate w tm m)%R ->
    (rflux w (state tm m AB s) <= rflux w (state tm m AB t))%R.
  Proof.
    intros Hm Hst Ha Hb. apply (mono_gen (fun x => rflux w (state tm m AB x)) (fun x => arate w tm m x * nsq (snd (state tm m AB x)) + brate w tm m * nsq (fst (state tm m AB x)))%R); [exact Hst| |].
    - intros x Hx. apply rflux_derive; [exact Hm|lra].
    - intros x Hx. pose proof (nsq_ge (snd (state tm m AB x))). pose proof (nsq_ge (fst (state tm m AB x))). specialize (Ha x Hx). nra.
  Qed.
  Lemma total_mono w kap tm m AB s t : m <> RtoC 0 -> (0 < s <= t)%R -> 
    (forall x, (s <= x <= t)%R -> Cmod (urate tm m x) + Cmod (vrate tm m) <= kap * arate w tm m x /\ Cmod (urate tm m x) + Cmod (vrate tm m) <= kap * brate w tm m)%R ->
    (kap * rflux w (state tm m AB s) + total (state tm m AB s) <= kap * rflux w (state tm m AB t) + total (state tm m AB t))%R.
  Proof.
    intros Hm Hst Hk.
    apply (mono_gen (fun x => kap * rflux w (state tm m AB x) + total (state tm m AB x))%R (fun x => (kap * (arate w tm m x * nsq (snd (state tm m AB x)) + brate w tm m * nsq (fst (state tm m AB x)))) + (2 * fst ((urate tm m x + Cconj (vrate tm m)) * (snd (state tm m AB x) * Cconj (fst (state tm m AB x))))%C))%R); [exact Hst| |].
    - intros x Hx. apply (is_derive_plus (V := R_NormedModule)); [|apply total_derive; [exact Hm|lra]]. apply is_derive_scal. apply rflux_derive; [exact Hm|lra].
    - intros x Hx. destruct (Hk x Hx) as [K1 K2]. set (p := fst (state tm m AB x)) in *. set (q := snd (state tm m AB x)) in *. set (S := (Cmod (urate tm m x) + Cmod (vrate tm m))%R) in *.
      assert (B : (Rabs (fst ((urate tm m x + Cconj (vrate tm m)) * (q * Cconj p))%C) <= S * (Cmod q * Cmod p))%R).
      { eapply Rle_trans; [apply PlaneExp.fst_le|]. rewrite !Cmod_mult. replace (Cmod (Cconj p)) with (Cmod p) by (unfold Cmod, Cconj; f_equal; cbn; ring).
        apply Rmult_le_compat_r; [apply Rmult_le_pos; apply Cmod_ge_0|]. eapply Rle_trans; [apply Cmod_triangle|]. replace (Cmod (Cconj (vrate tm m))) with (Cmod (vrate tm m)) by (unfold Cmod, Cconj; f_equal; cbn; ring). apply Rle_refl. }
      rewrite !nsq_mod. pose proof (Cmod_ge_0 p) as P0. pose proof (Cmod_ge_0 q) as Q0. set (P := Cmod p) in *. set (Q := Cmod q) in *.
      assert (S0 : (0 <= S)%R) by (unfold S; pose proof (Cmod_ge_0 (urate tm m x)); pose proof (Cmod_ge_0 (vrate tm m)); lra).
      apply Rabs_le_between in B. assert (X1 : (S * (Q * Q) <= kap * arate w tm m x * (Q * Q))%R) by (apply Rmult_le_compat_r; [nra|exact K1]).
      assert (X2 : (S * (P * P) <= kap * brate w tm m * (P * P))%R) by (apply Rmult_le_compat_r; [nra|exact K2]).
      assert (X3 : (0 <= S * ((P - Q) * (P - Q)))%R) by (apply Rmult_le_pos; [exact S0|apply Rle_0_sqr]).
      set (F := fst ((urate tm m x + Cconj (vrate tm m)) * (q * Cconj p))%C) in *. clearbody F S P Q. destruct B as [B _]. ring_simplify in X3. ring_simplify in B. ring_simplify in X1. ring_simplify in X2. ring_simplify. lra.
  Qed.
  Lemma rflux_bound w s : (Rabs (rflux w s) <= Cmod w * (Cmod (fst s) * Cmod (snd s)))%R.
  Proof. unfold rflux. eapply Rle_trans; [apply PlaneExp.fst_le|]. rewrite !Cmod_mult. replace (Cmod (Cconj (snd s))) with (Cmod (snd s)) by (unfold Cmod, Cconj; f_equal; cbn; ring). apply Rle_refl. Qed.
  Lemma rflux_core w tm m B x : m <> RtoC 0 -> (0 < x)%R -> (forall y, (0 < y <= x)%R -> 0 <= arate w tm m y)%R -> (0 <= brate w tm m)%R -> (0 <= rflux w (state tm m (RtoC 0, B) x))%R.
  Proof.
    intros Hm Hx Ha Hb. destruct (psi_small n Hn (m * RtoC x) (mx_nz m x Hm Hx)) as (K & HK & HB).
    set (L := (Cmod w * (Cmod B * Cmod B * (K * K) * Cmod (/ m)))%R). pose proof (Cmod_ge_0 w) as W0.
    assert (HL : (0 <= L)%R) by (unfold L; pose proof (Cmod_ge_0 B); pose proof (Cmod_ge_0 (/ m)); apply Rmult_le_pos; [exact W0|]; apply Rmult_le_pos; [nra|assumption]).
    assert (S : forall t, (0 < t <= 1)%R -> (- (L * t) <= rflux w (state tm m (RtoC 0, B) x))%R).
    { intros t Ht. apply Rle_trans with (rflux w (state tm m (RtoC 0, B) (t * x))); [|apply rflux_mono; [exact Hm|nra|intros y Hy; apply Ha; nra|exact Hb]].
      destruct (HB t Ht) as [P1 P2]. replace (RtoC t * (m * RtoC x)) with (m * RtoC (t * x)) in P1, P2 by (rewrite RtoC_mult; ring).
      pose proof (Cmod_ge_0 (true_psi n (m * RtoC (t * x)))) as G1. pose proof (Cmod_ge_0 (true_dpsi n (m * RtoC (t * x)))) as G2.
      pose proof (Cmod_ge_0 B) as B0. pose proof (Cmod_ge_0 (/ m)) as M0.
      assert (PP : (Cmod (true_psi n (m * RtoC (t * x))) * Cmod (true_dpsi n (m * RtoC (t * x))) <= K * K * t)%R).
      { apply Rle_trans with (K * t * (K * t))%R; [apply Rmult_le_compat; assumption|]. assert (0 <= K * K)%R by nra. assert (t * t <= t)%R by nra. nra. }
      pose proof (rflux_bound w (state tm m (RtoC 0, B) (t * x))) as RB. apply Rabs_le_between in RB.
      assert (E : (Cmod (fst (state tm m (RtoC 0, B) (t * x))) * Cmod (snd (state tm m (RtoC 0, B) (t * x))) = Cmod B * Cmod B * Cmod (/ m) * (Cmod (true_psi n (m * RtoC (t * x))) * Cmod (true_dpsi n (m * RtoC (t * x)))))%R).
      { destruct tm; unfold Passive.state, Fld, dFld, Cdiv; cbn [fst snd true_rf rf_psi rf_zeta rf_dpsi rf_dzeta]; rewrite !Cmod_mult;
          (replace (B * true_psi n (m * RtoC (t * x)) - RtoC 0 * true_zeta n (m * RtoC (t * x))) with (B * true_psi n (m * RtoC (t * x))) by ring);
          (replace (B * true_dpsi n (m * RtoC (t * x)) - RtoC 0 * true_dzeta n (m * RtoC (t * x))) with (B * true_dpsi n (m * RtoC (t * x))) by ring); rewrite !Cmod_mult; ring. }
      rewrite E in RB. assert (Q : (Cmod w * (Cmod B * Cmod B * Cmod (/ m) * (Cmod (true_psi n (m * RtoC (t * x))) * Cmod (true_dpsi n (m * RtoC (t * x))))) <= L * t)%R).
      { unfold L. replace (Cmod w * (Cmod B * Cmod B * (K * K) * Cmod (/ m)) * t)%R with (Cmod w * (Cmod B * Cmod B * Cmod (/ m) * (K * K * t)))%R by ring. apply Rmult_le_compat_l; [exact W0|]. apply Rmult_le_compat_l; [|exact PP]. apply Rmult_le_pos; [nra|exact M0]. }
      eapply Rle_trans; [|exact (proj1 RB)]. apply Ropp_le_contravar. exact Q. }
    apply Rnot_lt_le. intros Q. set (f := rflux w (state tm m (RtoC 0, B) x)) in *.
    set (t := Rmin 1 (- f / (2 * (L + 1)))). assert (T0 : (0 < - f / (2 * (L + 1)))%R) by (apply Rdiv_lt_0_compat; lra). assert (Ht : (0 < t <= 1)%R) by (unfold t; split; [apply Rmin_glb_lt; lra|apply Rmin_l]).
    pose proof (S t Ht) as W. assert (T : (t <= - f / (2 * (L + 1)))%R) by apply Rmin_r.
    assert (X : (L * t <= (L + 1) * (- f / (2 * (L + 1))))%R) by (apply Rmult_le_compat; lra). replace ((L + 1) * (- f / (2 * (L + 1))))%R with (- f / 2)%R in X by (field; lra). lra.
  Qed.

  Section Stack.
    Variables (l0 : C * C) (rest : list (C * C)) (w : C) (tm : bool).
    Hypothesis Hp : passive_stack (l0 :: rest).
    Notation L := (length rest).
    Notation m i := (index_at (l0 :: rest) i). Notation x i := (fst (size_at (l0 :: rest) i)).
    Hypothesis Ha : forall i y, (i <= L)%nat -> (0 < y <= x L)%R -> (0 <= arate w tm (m i) y)%R.
    Hypothesis Hb : forall i, (i <= L)%nat -> (0 <= brate w tm (m i))%R.
    Notation matched := (matched n l0 rest).
    Lemma x_le i j : (i <= j)%nat -> (j <= L)%nat -> (x i <= x j)%R.
    Proof. intros H Hj. induction H as [|j H IH]; [lra|]. eapply Rle_trans; [apply IH; lia|]. eapply (x_mono n Hn l0 rest Hp); lia. Qed.
    Lemma rchain P : matched tm P -> fst (P 0%nat) = RtoC 0 -> forall i, (i <= L)%nat -> (0 <= rflux w (state tm (m i) (P i) (x i)))%R.
    Proof.
      intros HM H0. assert (Hx : forall i, (i <= L)%nat -> (0 < x i <= x L)%R) by (intros i Hi; split; [apply (x_pos n Hn l0 rest Hp i Hi)|apply x_le; lia]).
      induction i as [|i IH]; intros Hi.
      - destruct (P 0%nat) as [a b]. cbn in H0. subst a. apply rflux_core; [apply (m_pass l0 rest Hp)|apply Hx; lia| |apply Hb; lia]. intros y Hy. apply Ha; [lia|]. pose proof (Hx 0%nat ltac:(lia)). lra.
      - specialize (IH ltac:(lia)). rewrite HM in IH by lia. eapply Rle_trans; [exact IH|]. pose proof (Hx i ltac:(lia)). pose proof (Hx (S i) ltac:(lia)). apply rflux_mono; [apply (m_pass l0 rest Hp)| | |apply Hb; lia].
        + split; [lra|]. apply x_le; lia.
        + intros y Hy. apply Ha; [lia|]. lra.
    Qed.
    (* inside region i, from radius s outwards *)
    Lemma rflux_inside P i s : matched tm P -> fst (P 0%nat) = RtoC 0 -> (i <= L)%nat -> (0 < s <= x i)%R -> (match i with O => 0 | S j => x j end <= s)%R ->
      (0 <= rflux w (state tm (m i) (P i) s))%R.
    Proof.
      intros HM H0 Hi Hs Hl. pose proof (x_le i L Hi (le_n _)) as XL. destruct i as [|j].
      - destruct (P 0%nat) as [a b]. cbn in H0. subst a. apply rflux_core; [apply (m_pass l0 rest Hp)|lra| |apply Hb; lia]. intros y Hy. apply Ha; [lia|lra].
      - pose proof (rchain P HM H0 j ltac:(lia)) as Q. rewrite HM in Q by lia. eapply Rle_trans; [exact Q|]. pose proof (x_pos n Hn l0 rest Hp j ltac:(lia)).
        apply rflux_mono; [apply (m_pass l0 rest Hp)|lra| |apply Hb; lia]. intros y Hy. apply Ha; [lia|lra].
    Qed.
    Lemma total_inside P kap i s : matched tm P -> fst (P 0%nat) = RtoC 0 -> (0 <= kap)%R -> (i <= L)%nat -> (0 < s <= x i)%R -> (match i with O => 0 | S j => x j end <= s)%R ->
      (forall j y, (j <= L)%nat -> (s <= y <= x L)%R -> Cmod (urate tm (m j) y) + Cmod (vrate tm (m j)) <= kap * arate w tm (m j) y /\ Cmod (urate tm (m j) y) + Cmod (vrate tm (m j)) <= kap * brate w tm (m j))%R ->
      (total (state tm (m i) (P i) s) <= kap * rflux w (state tm (m (S L)) (P (S L)) (x L)) + total (state tm (m (S L)) (P (S L)) (x L)))%R.
    Proof.
      intros HM H0 Hk0 Hi Hs Hl Hk. pose proof (rflux_inside P i s HM H0 Hi Hs Hl) as R0.
      assert (G : forall d j, (i <= j)%nat -> (j + d = L)%nat -> (kap * rflux w (state tm (m j) (P j) (x j)) + total (state tm (m j) (P j) (x j)) <= kap * rflux w (state tm (m (S L)) (P (S L)) (x L)) + total (state tm (m (S L)) (P (S L)) (x L)))%R).
      { induction d as [|d IH]; intros j Hij Hj.
        - replace j with L by lia. rewrite HM by lia. apply Rle_refl.
        - eapply Rle_trans; [|apply (IH (S j)); lia]. rewrite HM by lia. apply total_mono; [apply (m_pass l0 rest Hp)| |].
          + split; [apply (x_pos n Hn l0 rest Hp); lia|apply x_le; lia].
          + intros y Hy. apply Hk; [lia|]. pose proof (x_le i j Hij ltac:(lia)). pose proof (x_le (S j) L ltac:(lia) (le_n _)). lra. }
      eapply Rle_trans; [|apply (G (L - i)%nat i); lia].
      eapply Rle_trans; [|apply (total_mono w kap tm (m i) (P i) s (x i)); [apply (m_pass l0 rest Hp)|exact Hs|]].
      - assert (0 <= kap * rflux w (state tm (m i) (P i) s))%R by (apply Rmult_le_pos; assumption). lra.
      - intros y Hy. apply Hk; [exact Hi|]. pose proof (x_le i L Hi (le_n _)). lra.
    Qed.
    Lemma rflux_surface P : matched tm P -> fst (P 0%nat) = RtoC 0 -> (0 <= rflux w (state tm (RtoC 1) (P (S L)) (x L)))%R.
    Proof. intros HM H0. pose proof (rchain P HM H0 L (le_n L)) as Q. rewrite HM in Q by lia. now rewrite (m_last n Hn l0 rest) in Q. Qed.
  End Stack.
End Order.
