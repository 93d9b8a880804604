From Coq Require Import Reals List Arith Lra Lia.
From Coquelicot Require Import Complex.
From Verif Require Import Ops ROps Tensor ModelSpecial ModelMie ModelNear GeomProofs MirrorSpec.
Import ListNotations.
Open Scope R_scope.
Notation vec := (@vec3 R).

Ltac Cring := lazymatch goal with |- @eq _ ?a ?b => let H := fresh in assert (H : @eq C a b); [ring|exact H] end.
Ltac C3 := repeat apply f_equal2; apply injective_projections; cbn; ring.

(** the spherical components at azimuth ph, from those at 0 and pi/2 *)
Definition turn (c s : R) (F : vec) : vec := ((RtoC c * v1 F)%C, (RtoC c * v2 F)%C, (RtoC s * v3 F)%C).
Definition mix (F G : vec) : vec := (v1 F, v2 F, v3 G).

Section Orders.
  Variables (n_max n_add : nat) (k0 : R) (env : C) (core : R * C) (shells : list (R * C)) (E0 : C) (r th : R).
  Definition pt (ph : R) : @point R := {| pt_r := r; pt_theta := th; pt_phi := ph |}.
  Notation EO ph := (@E_order R ROps n_max n_add k0 env core shells E0 (pt ph)).
  Notation HO ph := (@H_order R ROps n_max n_add k0 env core shells E0 (pt ph)).
  Lemma E_order_turn ph li n : EO ph li n = turn (cos ph) (sin ph) (mix (EO 0 li n) (EO (PI / 2) li n)).
  Proof.
    unfold E_order, vsh_pena, pt. cbn [pt_r pt_theta pt_phi].
    set (z3 := cdiv (pzeta _ _ _ _) _). set (z1 := cdiv (ppsi _ _ _ _) _). set (rho := rho_at _ _ _).
    set (d3 := cmul (pD3 _ _ _ _) _). set (d1 := cmul (pD1 _ _ _ _) _). set (A := nth _ _ _).
    clearbody z3 z1 rho d3 d1 A. unfold E_region. generalize (@pw_factor R ROps n E0). intros En. unfold vsh_of.
    cbn [rsin rcos ROps M_o M_e N_o N_e]. rewrite cos_0, sin_0, cos_PI2, sin_PI2.
    generalize (@pi_n R ROps (cos th) n) (@tau_n R ROps (cos th) n). intros pn tn.
    destruct (Nat.eqb li _); unfold turn, mix, vscale, vsub, vadd, v1, v2, v3; cbn [fst snd];
      change (@cmul R ROps) with Cmult; change (@cadd R ROps) with Cplus; change (@csub R ROps) with Cminus; change (@copp R ROps) with Copp; change (@czero R ROps) with (RtoC 0);
      change (@cofr R ROps) with RtoC; generalize (@cdiv R ROps z3 rho) (@cdiv R ROps z1 rho); intros q3 q1; (apply f_equal2; [apply f_equal2|]); Cring.
  Qed.
  Lemma H_order_turn ph li n : HO ph li n = turn (sin ph) (cos ph) (mix (HO (PI / 2) li n) (HO 0 li n)).
  Proof.
    unfold H_order, vsh_pena, pt. cbn [pt_r pt_theta pt_phi].
    generalize (n_medium env core shells li). intros nm.
    set (z3 := cdiv (pzeta _ _ _ _) _). set (z1 := cdiv (ppsi _ _ _ _) _). set (rho := rho_at _ _ _).
    set (d3 := cmul (pD3 _ _ _ _) _). set (d1 := cmul (pD1 _ _ _ _) _). set (A := nth _ _ _).
    clearbody z3 z1 rho d3 d1 A. unfold H_region. generalize (@pw_factor R ROps n E0). intros En. unfold vsh_of.
    cbn [rsin rcos ROps M_o M_e N_o N_e]. rewrite cos_0, sin_0, cos_PI2, sin_PI2.
    generalize (@pi_n R ROps (cos th) n) (@tau_n R ROps (cos th) n). intros pn tn.
    destruct (Nat.eqb li _); unfold turn, mix, vscale, vsub, vadd, v1, v2, v3; cbn [fst snd];
      change (@cmul R ROps) with Cmult; change (@cadd R ROps) with Cplus; change (@csub R ROps) with Cminus; change (@copp R ROps) with Copp; change (@czero R ROps) with (RtoC 0);
      change (@cofr R ROps) with RtoC; generalize (@cdiv R ROps z3 rho) (@cdiv R ROps z1 rho); intros q3 q1; (apply f_equal2; [apply f_equal2|]); Cring.
  Qed.

  (** sums over regions and orders *)
  Notation MK ph := (@masked R ROps core shells (pt ph)).
  Lemma masked_turn ph c s (f : nat -> vec) : MK ph (fun li => turn c s (f li)) = turn c s (MK 0 f).
  Proof.
    unfold masked. cbn [pt pt_r].
    assert (Z : @vzero R ROps = turn c s (@vzero R ROps)). { unfold turn, vzero, v1, v2, v3. cbn [fst snd]. (apply f_equal2; [apply f_equal2|]); change (@czero R ROps) with (RtoC 0); Cring. }
    rewrite Z at 1. generalize (@vzero R ROps). generalize (seq 0 (S (length (@radii R core shells)))). induction l as [|li l IH]; intros acc; [reflexivity|].
    cbn [fold_left]. destruct (in_region (radii core shells) r li); apply IH.
  Qed.
  Lemma masked_ext ph (f g : nat -> vec) : (forall li, f li = g li) -> MK ph f = MK ph g.
  Proof.
    intros H. unfold masked. generalize (@vzero R ROps). generalize (seq 0 (S (length (@radii R core shells)))). induction l as [|li l IH]; intros acc; [reflexivity|].
    cbn [fold_left]. rewrite H. apply IH.
  Qed.
  Lemma e_xyz ph (F : vec) : @field_to_xyz R ROps th ph (turn (cos ph) (sin ph) F) =
    e_azimuth (v1 F * RtoC (sin th) + v2 F * RtoC (cos th))%C (v1 F * RtoC (cos th) - v2 F * RtoC (sin th))%C (v3 F) ph.
  Proof.
    destruct F as [[[a a'] [b b']] [c c']]. unfold field_to_xyz, turn, e_azimuth, v1, v2, v3. cbn [fst snd rsin rcos rmul ropp rzero ROps].
    (apply f_equal2; [apply f_equal2|]); apply injective_projections; cbn; ring.
  Qed.
  Lemma h_xyz ph (F : vec) : @field_to_xyz R ROps th ph (turn (sin ph) (cos ph) F) =
    h_azimuth (v1 F * RtoC (sin th) + v2 F * RtoC (cos th))%C (v1 F * RtoC (cos th) - v2 F * RtoC (sin th))%C (- v3 F)%C ph.
  Proof.
    destruct F as [[[a a'] [b b']] [c c']]. unfold field_to_xyz, turn, h_azimuth, v1, v2, v3. cbn [fst snd rsin rcos rmul ropp rzero ROps].
    (apply f_equal2; [apply f_equal2|]); apply injective_projections; cbn; ring.
  Qed.
End Orders.

Lemma e_add u v w u' v' w' ph : @vadd R ROps (e_azimuth u v w ph) (e_azimuth u' v' w' ph) = e_azimuth (u + u')%C (v + v')%C (w + w')%C ph.
Proof. unfold vadd, e_azimuth, v1, v2, v3. cbn [fst snd]. change (@cadd R ROps) with Cplus. (apply f_equal2; [apply f_equal2|]); Cring. Qed.
Lemma h_add u v w u' v' w' ph : @vadd R ROps (h_azimuth u v w ph) (h_azimuth u' v' w' ph) = h_azimuth (u + u')%C (v + v')%C (w + w')%C ph.
Proof. unfold vadd, h_azimuth, v1, v2, v3. cbn [fst snd]. change (@cadd R ROps) with Cplus. (apply f_equal2; [apply f_equal2|]); Cring. Qed.
Lemma sum_azimuth (S : C -> C -> C -> R -> vec) (F : R -> nat -> vec) ns :
  (forall u v w u' v' w' ph, @vadd R ROps (S u v w ph) (S u' v' w' ph) = S (u + u')%C (v + v')%C (w + w')%C ph) ->
  (forall ph, @vzero R ROps = S (RtoC 0) (RtoC 0) (RtoC 0) ph) ->
  (forall n, exists u v w, forall ph, F ph n = S u v w ph) -> exists u v w, forall ph, @vsum R ROps (map (F ph) ns) = S u v w ph.
Proof.
  intros Ha Hz HF. unfold vsum.
  assert (G : forall u0 v0 w0, exists u v w, forall ph, fold_left (@vadd R ROps) (map (F ph) ns) (S u0 v0 w0 ph) = S u v w ph).
  { induction ns as [|n ns IH]; intros u0 v0 w0; [now exists u0, v0, w0|]. destruct (HF n) as (u1 & v1 & w1 & H1).
    destruct (IH (u0 + u1)%C (v0 + v1)%C (w0 + w1)%C) as (u & v & w & H). exists u, v, w. intros ph. cbn [map fold_left]. rewrite H1, Ha. apply H. }
  destruct (G (RtoC 0) (RtoC 0) (RtoC 0)) as (u & v & w & H). exists u, v, w. intros ph. rewrite (Hz ph). apply H.
Qed.

Theorem azimuth n_max n_add k0 env core shells E0 r th :
  (exists u v w, forall ph, @E_s R ROps n_max n_add k0 env core shells E0 {| pt_r := r; pt_theta := th; pt_phi := ph |} = e_azimuth u v w ph) /\
  (exists u v w, forall ph, @H_s R ROps n_max n_add k0 env core shells E0 {| pt_r := r; pt_theta := th; pt_phi := ph |} = h_azimuth u v w ph).
Proof.
  assert (Z : forall a b c : C, a = RtoC 0 -> b = RtoC 0 -> c = RtoC 0 -> @vzero R ROps = (a, b, c)) by (intros a b c -> -> ->; reflexivity).
  split.
  - apply (sum_azimuth e_azimuth (fun ph n => @field_to_xyz R ROps th ph (@masked R ROps core shells (pt r th ph) (fun li => @E_order R ROps n_max n_add k0 env core shells E0 (pt r th ph) li n)))).
    + intros. apply e_add.
    + intros ph. apply Z; ring.
    + intros n. do 3 eexists. intros ph. rewrite (masked_ext core shells r th ph _ _ (fun li => E_order_turn n_max n_add k0 env core shells E0 r th ph li n)).
      rewrite masked_turn, e_xyz. reflexivity.
  - apply (sum_azimuth h_azimuth (fun ph n => @field_to_xyz R ROps th ph (@masked R ROps core shells (pt r th ph) (fun li => @H_order R ROps n_max n_add k0 env core shells E0 (pt r th ph) li n)))).
    + intros. apply h_add.
    + intros ph. apply Z; ring.
    + intros n. do 3 eexists. intros ph. rewrite (masked_ext core shells r th ph _ _ (fun li => H_order_turn n_max n_add k0 env core shells E0 r th ph li n)).
      rewrite masked_turn, h_xyz. reflexivity.
Qed.
