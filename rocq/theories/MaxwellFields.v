(** The region expansions of the code, with the true radial functions, are
    exact solutions of Maxwell's equations. *)
From Coq Require Import Reals Lra Lia List Arith Bool.
From Coquelicot Require Import Coquelicot.
From Verif Require Import Ops ROps Spec StackSpec CLemmas CTrig ComplexDiff BesselSpec ConvergeSpec
  ModelSpecial ModelMie ModelNear AngularProofs MaxwellSpec MaxwellProofs.
Import ListNotations.
Open Scope C_scope.

Definition cos' (p : R) : R := (- sin p)%R.
Lemma d_sin p : is_derive sin p (cos p). Proof. apply is_derive_sin. Qed.
Lemma d_cos p : is_derive cos p (- sin p)%R. Proof. apply is_derive_cos. Qed.
Lemma d_cos' p : is_derive cos' p (- cos p)%R.
Proof. apply (is_derive_opp (K := R_AbsRing) (V := R_NormedModule) sin). apply is_derive_sin. Qed.
Definition rad (kind3 : bool) (n : nat) : C -> C := if kind3 then true_zeta n else true_psi n.
Definition drad (kind3 : bool) (n : nat) : C -> C := if kind3 then true_dzeta n else true_dpsi n.
Lemma riccati_rad kind3 n : (1 <= n)%nat -> riccati n (rad kind3 n) (drad kind3 n).
Proof. destruct kind3; [apply riccati_zeta|apply riccati_psi]. Qed.

Section Order.
  Variables (n : nat) (k : C) (kind3 : bool).
  Hypothesis Hn : (1 <= n)%nat.
  Hypothesis Hk : k <> RtoC 0.
  Notation f := (rad kind3 n). Notation df := (drad kind3 n).
  Lemma Mo_eq r th ph : M_o (true_vsh k n kind3 r th ph) = Mf n f k sin cos r th ph.
  Proof. unfold true_vsh, rad_vsh, vsh_of, Mf, rad, drad. cbn [M_o rsin rcos ROps]. toC. destruct kind3; reflexivity. Qed.
  Lemma Me_eq r th ph : M_e (true_vsh k n kind3 r th ph) = Mf n f k cos cos' r th ph.
  Proof.
    unfold true_vsh, rad_vsh, vsh_of, Mf, rad, drad, cos'. cbn [M_e rsin rcos ROps]. toC.
    apply cvec_eq; parts; rewrite ?RtoC_opp; destruct kind3; reflexivity.
  Qed.
  Lemma No_eq r th ph : N_o (true_vsh k n kind3 r th ph) = Nf n f df k sin cos r th ph.
  Proof. unfold true_vsh, rad_vsh, vsh_of, Nf, rad, drad. cbn [N_o rsin rcos ROps]. toC. destruct kind3; reflexivity. Qed.
  Lemma Ne_eq r th ph : N_e (true_vsh k n kind3 r th ph) = Nf n f df k cos cos' r th ph.
  Proof.
    unfold true_vsh, rad_vsh, vsh_of, Nf, rad, drad, cos'. cbn [N_e rsin rcos ROps]. toC.
    apply cvec_eq; parts; rewrite ?RtoC_opp; destruct kind3; try reflexivity; ring.
  Qed.
  Variables (r th ph : R).
  Hypothesis Hr : (0 < r)%R.
  Hypothesis Hs : sin th <> 0%R.
  Definition fMo : sph_field := fun r th ph => M_o (true_vsh k n kind3 r th ph).
  Definition fMe : sph_field := fun r th ph => M_e (true_vsh k n kind3 r th ph).
  Definition fNo : sph_field := fun r th ph => N_o (true_vsh k n kind3 r th ph).
  Definition fNe : sph_field := fun r th ph => N_e (true_vsh k n kind3 r th ph).
  Lemma curl_Mo : is_curl fMo r th ph (scale3 k (fNo r th ph)).
  Proof.
    eapply curl_ext; [intros; symmetry; apply Mo_eq| |apply (curl_M n f df k sin cos (riccati_rad kind3 n Hn) Hk d_cos r th ph Hr Hs)].
    unfold fNo. now rewrite No_eq.
  Qed.
  Lemma curl_Me : is_curl fMe r th ph (scale3 k (fNe r th ph)).
  Proof.
    eapply curl_ext; [intros; symmetry; apply Me_eq| |apply (curl_M n f df k cos cos' (riccati_rad kind3 n Hn) Hk d_cos' r th ph Hr Hs)].
    unfold fNe. now rewrite Ne_eq.
  Qed.
  Lemma curl_No : is_curl fNo r th ph (scale3 k (fMo r th ph)).
  Proof.
    eapply curl_ext; [intros; symmetry; apply No_eq| |apply (curl_N n f df k sin cos (riccati_rad kind3 n Hn) Hk d_sin r th ph Hr Hs)].
    unfold fMo. now rewrite Mo_eq.
  Qed.
  Lemma curl_Ne : is_curl fNe r th ph (scale3 k (fMe r th ph)).
  Proof.
    eapply curl_ext; [intros; symmetry; apply Ne_eq| |apply (curl_N n f df k cos cos' (riccati_rad kind3 n Hn) Hk d_cos r th ph Hr Hs)].
    unfold fMe. now rewrite Me_eq.
  Qed.
  Lemma div_Mo : is_div fMo r th ph (RtoC 0).
  Proof. eapply div_ext; [intros; symmetry; apply Mo_eq|]. apply (div_M n f k sin cos d_sin r th ph Hr Hs). Qed.
  Lemma div_Me : is_div fMe r th ph (RtoC 0).
  Proof. eapply div_ext; [intros; symmetry; apply Me_eq|]. apply (div_M n f k cos cos' d_cos r th ph Hr Hs). Qed.
  Lemma div_No : is_div fNo r th ph (RtoC 0).
  Proof. eapply div_ext; [intros; symmetry; apply No_eq|]. apply (div_N n f df k sin cos (riccati_rad kind3 n Hn) Hk d_cos r th ph Hr Hs). Qed.
  Lemma div_Ne : is_div fNe r th ph (RtoC 0).
  Proof. eapply div_ext; [intros; symmetry; apply Ne_eq|]. apply (div_N n f df k cos cos' (riccati_rad kind3 n Hn) Hk d_cos' r th ph Hr Hs). Qed.
End Order.

(** ** one order of one region *)
Definition comb4 (a1 a2 a3 a4 : C) (F1 F2 F3 F4 : sph_field) : sph_field := fun r th ph =>
  add3 (add3 (scale3 a1 (F1 r th ph)) (scale3 a2 (F2 r th ph))) (add3 (scale3 a3 (F3 r th ph)) (scale3 a4 (F4 r th ph))).
Lemma curl_comb4 (a1 a2 a3 a4 : C) F1 F2 F3 F4 r th ph u1 u2 u3 u4 : (0 < r)%R -> sin th <> 0%R ->
  is_curl F1 r th ph u1 -> is_curl F2 r th ph u2 -> is_curl F3 r th ph u3 -> is_curl F4 r th ph u4 ->
  is_curl (comb4 a1 a2 a3 a4 F1 F2 F3 F4) r th ph (add3 (add3 (scale3 a1 u1) (scale3 a2 u2)) (add3 (scale3 a3 u3) (scale3 a4 u4))).
Proof.
  intros Hr Hs H1 H2 H3 H4.
  exact (curl_add _ _ _ _ _ _ _ Hr Hs (curl_add _ _ _ _ _ _ _ Hr Hs (curl_scale a1 _ _ _ _ _ Hr Hs H1) (curl_scale a2 _ _ _ _ _ Hr Hs H2))
    (curl_add _ _ _ _ _ _ _ Hr Hs (curl_scale a3 _ _ _ _ _ Hr Hs H3) (curl_scale a4 _ _ _ _ _ Hr Hs H4))).
Qed.
Lemma div_comb4 (a1 a2 a3 a4 : C) F1 F2 F3 F4 r th ph : (0 < r)%R -> sin th <> 0%R ->
  is_div F1 r th ph (RtoC 0) -> is_div F2 r th ph (RtoC 0) -> is_div F3 r th ph (RtoC 0) -> is_div F4 r th ph (RtoC 0) ->
  is_div (comb4 a1 a2 a3 a4 F1 F2 F3 F4) r th ph (RtoC 0).
Proof.
  intros Hr Hs H1 H2 H3 H4.
  exact (div_add _ _ _ _ _ Hr Hs (div_add _ _ _ _ _ Hr Hs (div_scale a1 _ _ _ _ Hr Hs H1) (div_scale a2 _ _ _ _ Hr Hs H2))
    (div_add _ _ _ _ _ Hr Hs (div_scale a3 _ _ _ _ Hr Hs H3) (div_scale a4 _ _ _ _ Hr Hs H4))).
Qed.
Section Region.
  Variables (k0 : R) (m E0 : C) (out : bool) (A : @amps R) (n : nat).
  Hypothesis Hn : (1 <= n)%nat.
  Hypothesis Hk0 : k0 <> 0%R.
  Hypothesis Hm : m <> RtoC 0.
  Notation k := (RtoC k0 * m).
  Notation En := (@pw_factor R ROps n E0).
  Definition E1 : sph_field := fun r th ph => @E_region R ROps E0 out A (true_vsh k n false r th ph) (true_vsh k n true r th ph) n.
  Definition H1 : sph_field := fun r th ph => @H_region R ROps E0 m out A (true_vsh k n false r th ph) (true_vsh k n true r th ph) n.
  Notation s := (if out then RtoC 0 else RtoC 1).
  (* E = En (s c M_o1 - s i d N_e1 + t i a N_e3 - b M_o3): outside s = 0, t = 1; inside s = t = 1 *)
  Lemma E1_eq r th ph : E1 r th ph = comb4 (s * (En * nc A)) (- (s * (En * (Ci * nd A)))) (if out then En * (Ci * na A) else En * (Ci * na A)) (- (En * nb A))
    (fMo n k false) (fNe n k false) (fNe n k true) (fMo n k true) r th ph.
  Proof.
    unfold E1, E_region, comb4, fMo, fNe. destruct (true_vsh k n false r th ph) as [[[a1 a2] a3] [[b1 b2] b3] [[c1 c2] c3] [[d1 d2] d3]].
    destruct (true_vsh k n true r th ph) as [[[a1' a2'] a3'] [[b1' b2'] b3'] [[c1' c2'] c3'] [[d1' d2'] d3']]. cbn [M_o M_e N_o N_e].
    destruct out; unfold vscale, vsub, vadd, v1, v2, v3; toC; apply cvec_eq; parts; match goal with |- ?a = ?b => change (@eq C a b) end; ring.
  Qed.
  Lemma H1_eq r th ph : H1 r th ph = comb4 (- (s * (m * En * nd A))) (- (s * (m * En * (Ci * nc A)))) (m * En * (Ci * nb A)) (m * En * na A)
    (fMe n k false) (fNo n k false) (fNo n k true) (fMe n k true) r th ph.
  Proof.
    unfold H1, H_region, comb4, fMe, fNo. destruct (true_vsh k n false r th ph) as [[[a1 a2] a3] [[b1 b2] b3] [[c1 c2] c3] [[d1 d2] d3]].
    destruct (true_vsh k n true r th ph) as [[[a1' a2'] a3'] [[b1' b2'] b3'] [[c1' c2'] c3'] [[d1' d2'] d3']]. cbn [M_o M_e N_o N_e].
    destruct out; unfold vscale, vsub, vadd, v1, v2, v3; toC; apply cvec_eq; parts; match goal with |- ?a = ?b => change (@eq C a b) end; ring.
  Qed.
  Lemma k_nz : k <> RtoC 0.
  Proof. intros E. apply C_integral in E. destruct E as [E|E]; [revert E; now apply RtoC_neq|now apply Hm]. Qed.
  Variables (r th ph : R).
  Hypothesis Hr : (0 < r)%R.
  Hypothesis Hs : sin th <> 0%R.
  Lemma Ci2 : Ci * Ci = - RtoC 1. Proof. apply C_eq; cbn; ring. Qed.
  Lemma order_maxwell : maxwell k0 m E1 H1 r th ph.
  Proof.
    pose proof k_nz as Kz. split; [|split; [|split]].
    - eapply curl_ext; [intros; symmetry; apply E1_eq| |apply (curl_comb4 _ _ _ _ _ _ _ _ r th ph _ _ _ _ Hr Hs
        (curl_Mo n k false Hn Kz r th ph Hr Hs) (curl_Ne n k false Hn Kz r th ph Hr Hs) (curl_Ne n k true Hn Kz r th ph Hr Hs) (curl_Mo n k true Hn Kz r th ph Hr Hs))].
      rewrite H1_eq. unfold comb4. generalize (fNo n k false r th ph), (fMe n k false r th ph), (fMe n k true r th ph), (fNo n k true r th ph).
      intros [[a1 a2] a3] [[b1 b2] b3] [[c1 c2] c3] [[d1 d2] d3]. pose proof Ci2 as I2.
      destruct out; apply cvec_eq; parts; ring [I2].
    - eapply curl_ext; [intros; symmetry; apply H1_eq| |apply (curl_comb4 _ _ _ _ _ _ _ _ r th ph _ _ _ _ Hr Hs
        (curl_Me n k false Hn Kz r th ph Hr Hs) (curl_No n k false Hn Kz r th ph Hr Hs) (curl_No n k true Hn Kz r th ph Hr Hs) (curl_Me n k true Hn Kz r th ph Hr Hs))].
      rewrite E1_eq. unfold comb4. generalize (fNe n k false r th ph), (fMo n k false r th ph), (fMo n k true r th ph), (fNe n k true r th ph).
      intros [[a1 a2] a3] [[b1 b2] b3] [[c1 c2] c3] [[d1 d2] d3]. pose proof Ci2 as I2.
      destruct out; apply cvec_eq; parts; ring [I2].
    - eapply div_ext; [intros; symmetry; apply E1_eq|]. apply div_comb4; try assumption;
        [apply div_Mo|apply div_Ne|apply div_Ne|apply div_Mo]; assumption.
    - eapply div_ext; [intros; symmetry; apply H1_eq|]. apply div_comb4; try assumption;
        [apply div_Me|apply div_No|apply div_No|apply div_Me]; assumption.
  Qed.
End Region.

(** ** sums over the orders *)
Lemma maxwell_add k0 m E H E' H' r th ph : (0 < r)%R -> sin th <> 0%R -> maxwell k0 m E H r th ph -> maxwell k0 m E' H' r th ph ->
  maxwell k0 m (fun r th ph => add3 (E r th ph) (E' r th ph)) (fun r th ph => add3 (H r th ph) (H' r th ph)) r th ph.
Proof.
  intros Hr Hs (A1 & A2 & A3 & A4) (B1 & B2 & B3 & B4). split; [|split; [|split]].
  - eapply curl_ext; [intros; reflexivity| |apply (curl_add _ _ _ _ _ _ _ Hr Hs A1 B1)]. apply cvec_eq; parts; ring.
  - eapply curl_ext; [intros; reflexivity| |apply (curl_add _ _ _ _ _ _ _ Hr Hs A2 B2)]. apply cvec_eq; parts; ring.
  - now apply div_add.
  - now apply div_add.
Qed.
Lemma maxwell_zero k0 m r th ph : (0 < r)%R -> sin th <> 0%R ->
  maxwell k0 m (fun _ _ _ => (RtoC 0, RtoC 0, RtoC 0)) (fun _ _ _ => (RtoC 0, RtoC 0, RtoC 0)) r th ph.
Proof.
  intros Hr Hs. split; [|split; [|split]]; try (now apply div_zero);
    (eapply curl_ext; [intros; reflexivity| |apply (curl_zero _ _ _ Hr Hs)]); apply cvec_eq; parts; ring.
Qed.
Lemma maxwell_ext k0 m E H E' H' r th ph : (forall a b c, E a b c = E' a b c) -> (forall a b c, H a b c = H' a b c) ->
  maxwell k0 m E H r th ph -> maxwell k0 m E' H' r th ph.
Proof.
  intros X Y (A1 & A2 & A3 & A4). split; [|split; [|split]].
  - eapply curl_ext; [exact X| |exact A1]. now rewrite Y.
  - eapply curl_ext; [exact Y| |exact A2]. now rewrite X.
  - eapply div_ext; [exact X|exact A3].
  - eapply div_ext; [exact Y|exact A4].
Qed.
Lemma vadd_add3 u v : @vadd R ROps u v = add3 u v. Proof. reflexivity. Qed.
Lemma maxwell_sum k0 m (E H : nat -> sph_field) l r th ph : (0 < r)%R -> sin th <> 0%R -> (forall n, In n l -> maxwell k0 m (E n) (H n) r th ph) ->
  forall E' H', maxwell k0 m E' H' r th ph ->
  maxwell k0 m (fun r th ph => fold_left (@vadd R ROps) (map (fun n => E n r th ph) l) (E' r th ph))
    (fun r th ph => fold_left (@vadd R ROps) (map (fun n => H n r th ph) l) (H' r th ph)) r th ph.
Proof.
  intros Hr Hs. induction l as [|n l IH]; intros Hl E' H' H0; [exact H0|]. cbn [map fold_left].
  apply (IH (fun j Hj => Hl j (or_intror Hj)) (fun r th ph => @vadd R ROps (E' r th ph) (E n r th ph)) (fun r th ph => @vadd R ROps (H' r th ph) (H n r th ph))).
  apply (maxwell_add _ _ _ _ _ _ _ _ _ Hr Hs H0). apply Hl. now left.
Qed.
Theorem fields_maxwell k0 m E0 out A N r th ph : k0 <> 0%R -> m <> RtoC 0 -> (0 < r)%R -> sin th <> 0%R ->
  maxwell k0 m (true_E k0 m E0 out A N) (true_H k0 m E0 out A N) r th ph.
Proof.
  intros Hk0 Hm Hr Hs. unfold true_E, true_H, rad_E, rad_H, vsum.
  apply (maxwell_sum k0 m (fun n => E1 k0 m E0 out (A n) n) (fun n => H1 k0 m E0 out (A n) n) (orders N) r th ph Hr Hs).
  - intros n Hin. apply order_maxwell; try assumption. unfold orders in Hin. apply in_seq in Hin. lia.
  - exact (maxwell_zero k0 m r th ph Hr Hs).
Qed.
