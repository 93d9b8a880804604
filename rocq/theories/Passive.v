(** Energy flow in a passive layered particle: the exact boundary-value problem is well posed and does not emit. *)
From Coq Require Import Reals ZArith Lra Lia Bool List Arith.
From Coquelicot Require Import Coquelicot.
From Verif Require Import Ops ROps Spec StackSpec CLemmas CTrig ComplexDiff BesselSpec BesselTrue ConvergeSpec BesselMinimal ModelSpecial ModelMie AngularIntegral
  ExampleStack TorchConverge ModelNear NearSpec MaxwellSpec MaxwellProofs NearLimitSpec PlaneExp PassiveSpec.
Import ListNotations.
Open Scope C_scope.
Arguments Cmod x%C_scope.
Arguments true_psi n%nat_scope z%C_scope.
Arguments true_dpsi n%nat_scope z%C_scope.
Arguments true_zeta n%nat_scope z%C_scope.
Arguments true_dzeta n%nat_scope z%C_scope.
Arguments true_j n%nat_scope z%C_scope.

Section Order.
  Variable n : nat.
  Hypothesis Hn : (1 <= n)%nat.
  Notation rf := (true_rf n).
  (* the two quantities continuous across interfaces *)
  Definition state (tm : bool) (m : C) (AB : C * C) (x : R) : C * C :=
    let w := Fld rf AB (m * RtoC x) in let d := dFld rf AB (m * RtoC x) in if tm then (d / m, w) else (d, w / m).
  Definition flux (s : C * C) : R := snd (fst s * Cconj (snd s)).
  Lemma iface_state tm x m AB m' AB' : interface_ok tm (RtoC x) rf m AB rf m' AB' <-> state tm m AB x = state tm m' AB' x.
  Proof.
    unfold interface_ok, state. destruct tm; split.
    - intros [A B]. now rewrite A, B.
    - intros E. split; [exact (f_equal snd E)|exact (f_equal fst E)].
    - intros [A B]. now rewrite A, B.
    - intros E. split; [exact (f_equal snd E)|exact (f_equal fst E)].
  Qed.
  Lemma mx_nz m x : m <> RtoC 0 -> (0 < x)%R -> m * RtoC x <> RtoC 0.
  Proof. intros Hm Hx. apply Cmult_neq_0; [exact Hm|intros Q; injection Q; lra]. Qed.
  (** ** the derivative of the flux *)
  Lemma d_pq (p q : R -> C) t p' q' : RCderive p t p' -> RCderive q t q' ->
    is_derive (fun s => snd (p s * Cconj (q s))) t (snd (p' * Cconj (q t))%C + snd (p t * Cconj q')%C)%R.
  Proof.
    intros [P1 P2] [Q1 Q2]. apply (is_derive_ext (fun s => snd (p s) * fst (q s) - fst (p s) * snd (q s))%R); [intros s; cbn; match goal with |- ?a = ?b => change (@eq R a b) end; ring|].
    pose proof (is_derive_minus _ _ _ _ _ (is_derive_mult _ _ _ _ _ P2 Q1 Rmult_comm) (is_derive_mult _ _ _ _ _ P1 Q2 Rmult_comm)) as D.
    match type of D with is_derive _ _ ?v => match goal with |- is_derive _ _ ?u => replace u with v; [exact D|] end end.
    cbn. unfold minus, plus, opp, mult. cbn. unfold plus. cbn. match goal with |- ?a = ?b => change (@eq R a b) end. ring.
  Qed.
  Lemma fld_derive m AB x : m <> RtoC 0 -> (0 < x)%R ->
    RCderive (fun s => Fld rf AB (m * RtoC s)) x (m * dFld rf AB (m * RtoC x)) /\
    RCderive (fun s => dFld rf AB (m * RtoC s)) x (m * ((RtoC (INR n) * (RtoC (INR n) + RtoC 1) / (m * RtoC x * (m * RtoC x)) - RtoC 1) * Fld rf AB (m * RtoC x))).
  Proof.
    intros Hm Hx. pose proof (mx_nz m x Hm Hx) as Hz. destruct (riccati_psi n Hn _ Hz) as [P1 P2]. destruct (riccati_zeta n Hn _ Hz) as [Z1 Z2].
    unfold Fld, dFld. cbn [true_rf rf_psi rf_zeta rf_dpsi rf_dzeta]. split.
    - apply (rc_radial (fun z => snd AB * true_psi n z - fst AB * true_zeta n z)). apply Cderive_minus; apply Cderive_scal; assumption.
    - apply (rc_radial (fun z => snd AB * true_dpsi n z - fst AB * true_dzeta n z)). eapply Cderive_val; [|apply Cderive_minus; apply Cderive_scal; [exact P2|exact Z2]]. ring.
  Qed.
  Definition passive (m : C) : Prop := m <> RtoC 0 /\ (0 <= snd (m * m)%C)%R.
  Definition dflux (tm : bool) (m w d : C) (x : R) : R :=
    if tm then (snd (((RtoC (INR n) * (RtoC (INR n) + RtoC 1) / (m * RtoC x * (m * RtoC x)) - RtoC 1) * w) * Cconj w)%C + snd (d / m * Cconj (m * d))%C)%R
    else (snd (m * ((RtoC (INR n) * (RtoC (INR n) + RtoC 1) / (m * RtoC x * (m * RtoC x)) - RtoC 1) * w) * Cconj (w / m))%C + snd (d * Cconj d)%C)%R.
  Lemma flux_derive tm m AB x : m <> RtoC 0 -> (0 < x)%R ->
    is_derive (fun s => flux (state tm m AB s)) x (dflux tm m (Fld rf AB (m * RtoC x)) (dFld rf AB (m * RtoC x)) x).
  Proof.
    intros Hm Hx. destruct (fld_derive m AB x Hm Hx) as [D1 D2]. unfold flux, state, dflux. destruct tm; cbn [fst snd].
    - pose proof (rc_scal (/ m) _ _ _ D2) as D3. apply (rc_ext _ (fun s => dFld rf AB (m * RtoC s) / m)) in D3; [|intros; unfold Cdiv; ring].
      pose proof (d_pq _ _ _ _ _ D3 D1) as D. eapply (is_derive_ext); [intros; reflexivity|].
      match type of D with is_derive _ _ ?v => match goal with |- is_derive _ _ ?u => replace u with v; [exact D|] end end.
      f_equal. f_equal. f_equal. match goal with |- ?a = ?b => change (@eq C a b) end. field. split; [intros Q; injection Q; lra|exact Hm].
    - pose proof (rc_scal (/ m) _ _ _ D1) as D3. apply (rc_ext _ (fun s => Fld rf AB (m * RtoC s) / m)) in D3; [|intros; unfold Cdiv; ring].
      pose proof (d_pq _ _ _ _ _ D2 D3) as D.
      match type of D with is_derive _ _ ?v => match goal with |- is_derive _ _ ?u => replace u with v; [exact D|] end end.
      f_equal. f_equal. f_equal. f_equal. match goal with |- ?a = ?b => change (@eq C a b) end. field. exact Hm.
  Qed.
  Lemma dflux_neg tm m w d x : passive m -> (0 < x)%R -> (dflux tm m w d x <= 0)%R.
  Proof.
    intros [Hm Hp] Hx. assert (Hmod : (0 < fst m * fst m + snd m * snd m)%R).
    { destruct m as [a b]. cbn. destruct (Req_dec a 0) as [->|Ha]; [|nra]. destruct (Req_dec b 0) as [->|Hb]; [|nra]. exfalso. apply Hm. reflexivity. }
    destruct m as [a b], w as [w1 w2], d as [d1 d2]. cbn in Hp, Hmod.
    assert (Hab : (0 <= a * b)%R) by lra. pose proof (pos_INR n) as Hi.
    assert (Hx2 : (0 < x * x)%R) by nra. set (M := (a * a + b * b)%R) in *.
    assert (E : dflux tm (a, b) (w1, w2) (d1, d2) x = (- (2 * (a * b)) * (if tm then INR n * (INR n + 1) * (w1 * w1 + w2 * w2) / (x * x * (M * M)) + (d1 * d1 + d2 * d2) / M else (w1 * w1 + w2 * w2) / M))%R).
    { unfold dflux, M. destruct tm; cbn; field; repeat split; try lra; unfold M in Hmod; try nra;
      match goal with |- ?e <> _ => replace e with ((x * x * (a * a + b * b)) * (x * x * (a * a + b * b)))%R by ring end; assert (0 < x * x * (a * a + b * b))%R by (apply Rmult_lt_0_compat; assumption); nra. }
    rewrite E. assert (0 <= / M)%R by (left; apply Rinv_0_lt_compat; exact Hmod). 
    assert (V : (0 <= if tm then INR n * (INR n + 1) * (w1 * w1 + w2 * w2) / (x * x * (M * M)) + (d1 * d1 + d2 * d2) / M else (w1 * w1 + w2 * w2) / M)%R).
    { assert (0 <= (w1 * w1 + w2 * w2))%R by nra. assert (0 <= (d1 * d1 + d2 * d2))%R by nra. 
      destruct tm; [|unfold Rdiv; apply Rmult_le_pos; assumption]. apply Rplus_le_le_0_compat; [|unfold Rdiv; apply Rmult_le_pos; assumption].
      unfold Rdiv. apply Rmult_le_pos; [apply Rmult_le_pos; [nra|assumption]|]. left. apply Rinv_0_lt_compat. apply Rmult_lt_0_compat; [exact Hx2|nra]. }
    nra.
  Qed.
  Lemma flux_mono tm m AB s t : passive m -> (0 < s <= t)%R -> (flux (state tm m AB t) <= flux (state tm m AB s))%R.
  Proof.
    intros Hp Hst. destruct (Req_dec s t) as [->|Hne]; [lra|].
    destruct (MVT_gen (fun x => flux (state tm m AB x)) s t (fun x => dflux tm m (Fld rf AB (m * RtoC x)) (dFld rf AB (m * RtoC x)) x)) as (c & Hc & E).
    - intros x Hx. rewrite Rmin_left, Rmax_right in Hx by lra. apply flux_derive; [exact (proj1 Hp)|lra].
    - intros x Hx. rewrite Rmin_left, Rmax_right in Hx by lra. apply continuity_pt_filterlim. apply (ex_derive_continuous (V := R_NormedModule)). eexists. apply flux_derive; [exact (proj1 Hp)|lra].
    - rewrite Rmin_left, Rmax_right in Hc by lra. cbv beta in E. pose proof (dflux_neg tm m (Fld rf AB (m * RtoC c)) (dFld rf AB (m * RtoC c)) c Hp ltac:(lra)). nra.
  Qed.
  Lemma flux_bound (p q : C) : (flux (p, q) <= Cmod p * Cmod q)%R.
  Proof. unfold flux. cbn [fst snd]. replace (Cmod q) with (Cmod (Cconj q)) by (unfold Cmod, Cconj; f_equal; cbn; ring). rewrite <- Cmod_mult. eapply Rle_trans; [apply Rle_abs|apply snd_le]. Qed.
  (* psi_n and psi_n' at t z are O(t) *)
  Lemma psi_small (z : C) : z <> RtoC 0 -> exists K, (0 < K)%R /\ forall t, (0 < t <= 1)%R -> (Cmod (true_psi n (RtoC t * z)) <= K * t)%R /\ (Cmod (true_dpsi n (RtoC t * z)) <= K * t)%R.
  Proof.
    intros Hz. pose proof (bb_pos z n) as B1. pose proof (bb_pos z (n - 1)) as B2. assert (M0 : (0 < Cmod z)%R) by (apply Cmod_gt_0; exact Hz).
    pose proof (pow_lt (Cmod z) n M0) as P1. pose proof (pow_lt (Cmod z) (n - 1) M0) as P2. pose proof (pos_INR n) as Hi.
    set (c1 := (bb z n * Cmod z ^ n)%R). set (c2 := (bb z (n - 1) * Cmod z ^ (n - 1))%R).
    assert (C1 : (0 < c1)%R) by (apply Rmult_lt_0_compat; assumption). assert (C2 : (0 < c2)%R) by (apply Rmult_lt_0_compat; assumption).
    exists (Cmod z * c1 + Cmod z * c2 + INR n * c1)%R. split; [nra|]. intros t Ht.
    pose proof (j_pow z Hz n t Ht) as J1. pose proof (j_pow z Hz (n - 1) t Ht) as J2. rewrite Rpow_mult_distr in J1, J2.
    assert (T1 : (t ^ n <= t)%R). { replace n with (S (n - 1)) by lia. cbn [pow]. assert (t ^ (n - 1) <= 1)%R by (rewrite <- (pow1 (n - 1)); apply pow_incr; lra). pose proof (pow_lt t (n - 1) (proj1 Ht)). nra. }
    assert (T2 : (t ^ (n - 1) <= 1)%R) by (rewrite <- (pow1 (n - 1)); apply pow_incr; lra).
    assert (J1' : (Cmod (true_j n (RtoC t * z)) <= c1 * t)%R) by (eapply Rle_trans; [exact J1|]; unfold c1; apply Rle_trans with (bb z n * (t * Cmod z ^ n))%R; [apply Rmult_le_compat_l; [lra|]; apply Rmult_le_compat_r; lra|right; ring]).
    assert (J2' : (Cmod (true_j (n - 1) (RtoC t * z)) <= c2)%R) by (eapply Rle_trans; [exact J2|]; unfold c2; apply Rle_trans with (bb z (n - 1) * (1 * Cmod z ^ (n - 1)))%R; [apply Rmult_le_compat_l; [lra|]; apply Rmult_le_compat_r; lra|right; ring]).
    pose proof (Cmod_ge_0 (true_j n (RtoC t * z))) as G1. pose proof (Cmod_ge_0 (true_j (n - 1) (RtoC t * z))) as G2.
    assert (Ew : Cmod (RtoC t * z) = (t * Cmod z)%R) by (rewrite Cmod_mult, Cmod_R, Rabs_pos_eq; lra).
    pose proof (ray_nz z Hz t (proj1 Ht)) as Hw.
    split.
    - unfold true_psi. rewrite Cmod_mult, Ew. apply Rle_trans with (t * Cmod z * c1)%R.
      + apply Rmult_le_compat_l; [apply Rmult_le_pos; lra|]. eapply Rle_trans; [exact J1'|]. nra.
      + assert (0 <= Cmod z * c2)%R by (apply Rmult_le_pos; lra). assert (0 <= INR n * c1)%R by (apply Rmult_le_pos; lra). nra.
    - unfold true_dpsi, true_psi. replace (RtoC t * z * true_j (n - 1) (RtoC t * z) - RtoC (INR n) / (RtoC t * z) * (RtoC t * z * true_j n (RtoC t * z))) with (RtoC t * z * true_j (n - 1) (RtoC t * z) + - (RtoC (INR n) * true_j n (RtoC t * z))).
      + eapply Rle_trans; [apply Cmod_triangle|]. rewrite Cmod_opp, !Cmod_mult, !Cmod_R, (Rabs_pos_eq t), (Rabs_pos_eq (INR n)) by lra.
        assert (t * Cmod z * Cmod (true_j (n - 1) (RtoC t * z)) <= t * Cmod z * c2)%R by (apply Rmult_le_compat_l; [apply Rmult_le_pos; lra|exact J2']).
        assert (INR n * Cmod (true_j n (RtoC t * z)) <= INR n * (c1 * t))%R by (apply Rmult_le_compat_l; [lra|exact J1']).
        assert (0 <= Cmod z * c1 * t)%R by (apply Rmult_le_pos; [nra|lra]). nra.
      + field. split; [exact Hz|intros Q; injection Q; lra].
  Qed.
  Lemma flux_core tm m B x : passive m -> (0 < x)%R -> (flux (state tm m (RtoC 0, B) x) <= 0)%R.
  Proof.
    intros Hp Hx. pose proof (proj1 Hp) as Hm. destruct (psi_small (m * RtoC x) (mx_nz m x Hm Hx)) as (K & HK & HB).
    set (L := (Cmod B * Cmod B * (K * K) * Cmod (/ m))%R). assert (HL : (0 <= L)%R) by (unfold L; pose proof (Cmod_ge_0 B); pose proof (Cmod_ge_0 (/ m)); apply Rmult_le_pos; [nra|assumption]).
    assert (S : forall t, (0 < t <= 1)%R -> (flux (state tm m (RtoC 0, B) x) <= L * t)%R).
    { intros t Ht. apply Rle_trans with (flux (state tm m (RtoC 0, B) (t * x))); [apply flux_mono; [exact Hp|nra]|].
      destruct (HB t Ht) as [P1 P2]. replace (RtoC t * (m * RtoC x)) with (m * RtoC (t * x)) in P1, P2 by (rewrite RtoC_mult; ring).
      pose proof (Cmod_ge_0 (true_psi n (m * RtoC (t * x)))) as G1. pose proof (Cmod_ge_0 (true_dpsi n (m * RtoC (t * x)))) as G2.
      pose proof (Cmod_ge_0 B) as B0. pose proof (Cmod_ge_0 (/ m)) as M0.
      assert (PP : (Cmod (true_psi n (m * RtoC (t * x))) * Cmod (true_dpsi n (m * RtoC (t * x))) <= K * K * t)%R).
      { apply Rle_trans with (K * t * (K * t))%R; [apply Rmult_le_compat; assumption|]. assert (0 <= K * K)%R by nra. assert (t * t <= t)%R by nra. nra. }
      apply Rle_trans with (Cmod B * Cmod B * Cmod (/ m) * (Cmod (true_psi n (m * RtoC (t * x))) * Cmod (true_dpsi n (m * RtoC (t * x)))))%R.
      - destruct tm; unfold state; (eapply Rle_trans; [apply flux_bound|]); unfold Fld, dFld, Cdiv; cbn [fst snd true_rf rf_psi rf_zeta rf_dpsi rf_dzeta];
          rewrite !Cmod_mult; right;
          (replace (B * true_psi n (m * RtoC (t * x)) - RtoC 0 * true_zeta n (m * RtoC (t * x))) with (B * true_psi n (m * RtoC (t * x))) by ring);
          (replace (B * true_dpsi n (m * RtoC (t * x)) - RtoC 0 * true_dzeta n (m * RtoC (t * x))) with (B * true_dpsi n (m * RtoC (t * x))) by ring); rewrite !Cmod_mult; ring.
      - unfold L. replace (Cmod B * Cmod B * (K * K) * Cmod (/ m) * t)%R with (Cmod B * Cmod B * Cmod (/ m) * (K * K * t))%R by ring. apply Rmult_le_compat_l; [|exact PP]. apply Rmult_le_pos; [nra|exact M0]. }
    destruct (Rle_dec (flux (state tm m (RtoC 0, B) x)) 0) as [Q|Q]; [exact Q|]. exfalso. apply Rnot_le_lt in Q. set (f := flux (state tm m (RtoC 0, B) x)) in *.
    set (t := Rmin 1 (f / (2 * (L + 1)))). assert (0 < f / (2 * (L + 1)))%R by (apply Rdiv_lt_0_compat; lra). assert (Ht : (0 < t <= 1)%R) by (unfold t; split; [apply Rmin_glb_lt; lra|apply Rmin_l]).
    pose proof (S t Ht) as W. assert (T : (t <= f / (2 * (L + 1)))%R) by apply Rmin_r.
    assert (L * t <= (L + 1) * (f / (2 * (L + 1))))%R by (apply Rmult_le_compat; lra). replace ((L + 1) * (f / (2 * (L + 1))))%R with (f / 2)%R in H0 by (field; lra). lra.
  Qed.
End Order.
