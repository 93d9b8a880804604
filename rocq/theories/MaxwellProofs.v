(** The vector harmonics and the region expansions satisfy Maxwell's equations. *)
From Coq Require Import Reals Lra Lia List Arith Bool.
From Coquelicot Require Import Coquelicot.
From Verif Require Import Ops ROps Spec StackSpec CLemmas CTrig ComplexDiff BesselProofs BesselSpec BesselTrue BesselMinimal ConvergeSpec
  ModelSpecial ModelMie ModelNear AngularProofs MaxwellSpec.
Import ListNotations.
Open Scope C_scope.

(** ** derivatives of complex functions of a real variable *)
Lemma rc_val f t d d' : d = d' -> RCderive f t d -> RCderive f t d'. Proof. now intros ->. Qed.
Lemma rc_ext f g t d : (forall s, f s = g s) -> RCderive f t d -> RCderive g t d.
Proof. intros E [H1 H2]. split; [apply (is_derive_ext (fun s => fst (f s)))|apply (is_derive_ext (fun s => snd (f s)))]; try assumption; intros; now rewrite E. Qed.
Lemma rc_ext_loc f g t d : locally t (fun s => f s = g s) -> RCderive f t d -> RCderive g t d.
Proof.
  intros E [H1 H2]. split; [apply (is_derive_ext_loc (fun s => fst (f s)))|apply (is_derive_ext_loc (fun s => snd (f s)))]; try assumption;
    eapply filter_imp; [|exact E| |exact E]; intros s Hs; cbv beta in Hs; now rewrite Hs.
Qed.
Lemma rc_const (c : C) t : RCderive (fun _ => c) t (RtoC 0).
Proof. split; apply @is_derive_const. Qed.
Lemma rc_plus (f g : R -> C) t (a b : C) : RCderive f t a -> RCderive g t b -> RCderive (fun s => f s + g s) t (a + b).
Proof. intros [H1 H2] [K1 K2]. split; cbn [fst snd Cplus]; apply (@is_derive_plus R_AbsRing R_NormedModule); assumption. Qed.
Lemma rc_scal (c : C) (f : R -> C) t (a : C) : RCderive f t a -> RCderive (fun s => c * f s) t (c * a).
Proof.
  intros [H1 H2]. destruct c as [u v]. split; cbn [fst snd Cmult].
  - apply (@is_derive_minus R_AbsRing R_NormedModule); apply is_derive_scal; assumption.
  - apply (@is_derive_plus R_AbsRing R_NormedModule); apply is_derive_scal; assumption.
Qed.
Lemma rc_real (g : R -> R) t d : is_derive g t d -> RCderive (fun s => RtoC (g s)) t (RtoC d).
Proof. intros H. split; cbn [fst snd RtoC]; [exact H|apply @is_derive_const]. Qed.
Lemma rc_real_scal (c : C) (g : R -> R) (f : R -> C) t d : is_derive g t d -> (forall s, f s = c * RtoC (g s)) -> RCderive f t (c * RtoC d).
Proof. intros H E. apply (rc_ext (fun s => c * RtoC (g s))); [intros; now rewrite E|]. now apply rc_scal, rc_real. Qed.
Lemma rc_radial (F : C -> C) (k l : C) r : Cderive F (k * RtoC r) l -> RCderive (fun s => F (k * RtoC s)) r (k * l).
Proof.
  intros H. destruct (ray_derive F k (RtoC 0) l r) as [H1 H2].
  - replace (RtoC 0 + RtoC r * k) with (k * RtoC r) by ring. exact H.
  - assert (E : forall s : R, RtoC 0 + RtoC s * k = k * RtoC s) by (intros; ring).
    split; [apply (is_derive_ext (fun s => fst (F (RtoC 0 + RtoC s * k))))|apply (is_derive_ext (fun s => snd (F (RtoC 0 + RtoC s * k))))]; try assumption; intros; now rewrite E.
Qed.

(** ** the Riccati-Bessel equation *)
Definition riccati (n : nat) (f df : C -> C) : Prop := forall z, z <> RtoC 0 ->
  Cderive f z (df z) /\ Cderive df z ((RtoC (INR n) * (RtoC (INR n) + RtoC 1) / (z * z) - RtoC 1) * f z).
Section Second.
  Variables (f g : nat -> C -> C).
  Hypothesis Hd : forall n z, z <> RtoC 0 -> Cderive (f n) z (RtoC (INR (S n)) / z * f n z - f (S n) z).
  Hypothesis Hr : forall n z, z <> RtoC 0 -> f (S (S n)) z = RtoC (INR (2 * n + 3)) / z * f (S n) z - f n z.
  Lemma second_derive n z : z <> RtoC 0 ->
    Cderive (fun w => f n w - RtoC (INR (S n)) / w * f (S n) w) z
      ((RtoC (INR (S n)) * (RtoC (INR (S n)) + RtoC 1) / (z * z) - RtoC 1) * f (S n) z).
  Proof.
    intros Hz. eapply Cderive_val; [|apply Cderive_minus; [apply Hd, Hz|apply Cderive_mult; [|apply Hd, Hz]]].
    2:{ apply (Cderive_ext (fun w => RtoC (INR (S n)) * / w)); [reflexivity|]. apply Cderive_scal, Cderive_inv, Hz. }
    cbv beta. rewrite Hr by exact Hz.
    replace (INR (2 * n + 3)) with (INR (S n) + INR (S n) + 1)%R by (rewrite plus_INR, mult_INR, S_INR; simpl; ring).
    replace (INR (S (S n))) with (INR (S n) + 1)%R by (rewrite (S_INR (S n)); reflexivity).
    rewrite !RtoC_plus. match goal with |- ?a = ?b => change (@eq C a b) end. field. exact Hz.
  Qed.
End Second.
Lemma psi_down n z : z <> RtoC 0 -> Cderive (true_psi n) z (RtoC (INR (S n)) / z * true_psi n z - true_psi (S n) z).
Proof.
  intros Hz. destruct n as [|n].
  - eapply Cderive_val; [|apply d_times_z, Cderive_true_j0, Hz]. unfold true_psi. simpl (INR 1). match goal with |- ?a = ?b => change (@eq C a b) end. field. exact Hz.
  - eapply Cderive_val; [|apply Cderive_true_psi; [exact Hz|lia]]. unfold true_dpsi. replace (S n - 1)%nat with n by lia. rewrite true_psi_rec.
    replace (INR (2 * n + 3)) with (INR (S n) + INR (S (S n)))%R by (rewrite plus_INR, mult_INR, !S_INR; simpl; ring).
    rewrite RtoC_plus. match goal with |- ?a = ?b => change (@eq C a b) end. field. exact Hz.
Qed.
Lemma zeta_down n z : z <> RtoC 0 -> Cderive (true_zeta n) z (RtoC (INR (S n)) / z * true_zeta n z - true_zeta (S n) z).
Proof.
  intros Hz. destruct n as [|n].
  - eapply Cderive_val; [|apply d_times_z, Cderive_plus; [apply Cderive_true_j0, Hz|apply Cderive_scal, Cderive_true_y0, Hz]].
    unfold true_zeta. simpl (INR 1). match goal with |- ?a = ?b => change (@eq C a b) end. field. exact Hz.
  - eapply Cderive_val; [|apply Cderive_true_zeta; [exact Hz|lia]]. unfold true_dzeta. replace (S n - 1)%nat with n by lia. rewrite true_zeta_rec.
    replace (INR (2 * n + 3)) with (INR (S n) + INR (S (S n)))%R by (rewrite plus_INR, mult_INR, !S_INR; simpl; ring).
    rewrite RtoC_plus. match goal with |- ?a = ?b => change (@eq C a b) end. field. exact Hz.
Qed.
Lemma riccati_psi n : (1 <= n)%nat -> riccati n (true_psi n) (true_dpsi n).
Proof.
  intros Hn z Hz. split; [now apply Cderive_true_psi|]. destruct n as [|n]; [lia|].
  apply (Cderive_ext (fun w => true_psi n w - RtoC (INR (S n)) / w * true_psi (S n) w)); [intros; unfold true_dpsi; now replace (S n - 1)%nat with n by lia|].
  apply second_derive; [exact psi_down|intros; apply true_psi_rec|exact Hz].
Qed.
Lemma riccati_zeta n : (1 <= n)%nat -> riccati n (true_zeta n) (true_dzeta n).
Proof.
  intros Hn z Hz. split; [now apply Cderive_true_zeta|]. destruct n as [|n]; [lia|].
  apply (Cderive_ext (fun w => true_zeta n w - RtoC (INR (S n)) / w * true_zeta (S n) w)); [intros; unfold true_dzeta; now replace (S n - 1)%nat with n by lia|].
  apply second_derive; [exact zeta_down|intros; apply true_zeta_rec|exact Hz].
Qed.

(** ** the angular equation *)
Lemma sin_tau_derive n t : is_derive (fun u => sin u * tau_ (cos u) n)%R t (pi_ (cos t) n - INR n * (INR n + 1) * (sin t * sin t) * pi_ (cos t) n)%R.
Proof.
  apply is_derive_ext with (fun u => INR n * (INR n + 1) * (sin u * legendre n (cos u)) - cos u * (sin u * pi_ (cos u) n))%R.
  { intros u. rewrite tau_leg. match goal with |- ?a = ?b => change (@eq R a b) end. ring. }
  pose proof (sin_pi_derive n t) as HP. pose proof (leg_cos_derive n t) as HL.
  assert (D1 : is_derive (fun u => sin u * legendre n (cos u))%R t (cos t * legendre n (cos t) + sin t * - (sin t * pi_ (cos t) n))%R).
  { apply (is_derive_mult (K := R_AbsRing) sin (fun u => legendre n (cos u))); [apply is_derive_sin|exact HL|intros; apply Rmult_comm]. }
  assert (D2 : is_derive (fun u => cos u * (sin u * pi_ (cos u) n))%R t (- sin t * (sin t * pi_ (cos t) n) + cos t * tau_ (cos t) n)%R).
  { apply (is_derive_mult (K := R_AbsRing) cos (fun u => sin u * pi_ (cos u) n)%R); [apply is_derive_cos|exact HP|intros; apply Rmult_comm]. }
  pose proof (@is_derive_minus R_AbsRing R_NormedModule _ _ _ _ _ (is_derive_scal _ _ (INR n * (INR n + 1))%R _ D1) D2) as D.
  match type of D with is_derive _ _ ?v => replace (pi_ (cos t) n - INR n * (INR n + 1) * (sin t * sin t) * pi_ (cos t) n)%R with v; [exact D|] end.
  cbn. rewrite tau_leg. pose proof (sin2_cos2 t) as H2. unfold Rsqr in H2.
  replace (sin t * sin t)%R with (1 - cos t * cos t)%R by lra.
  replace (- sin t * (sin t * pi_ (cos t) n))%R with (- (1 - cos t * cos t) * pi_ (cos t) n)%R by (replace (1 - cos t * cos t)%R with (sin t * sin t)%R by lra; ring).
  replace (sin t * - (sin t * pi_ (cos t) n))%R with (- (1 - cos t * cos t) * pi_ (cos t) n)%R by (replace (1 - cos t * cos t)%R with (sin t * sin t)%R by lra; ring).
  unfold minus, plus, opp; cbn. ring.
Qed.

(** ** curl and divergence of one harmonic *)
Lemma cvec_eq (u v : cvec) : c_r u = c_r v -> c_th u = c_th v -> c_ph u = c_ph v -> u = v.
Proof. destruct u as [[a b] c], v as [[d e] f]. cbn. now intros -> -> ->. Qed.
Section Harmonic.
  Variables (n : nat) (f df : C -> C) (k : C) (g dg : R -> R).
  Hypothesis Hric : riccati n f df.
  Hypothesis Hk : k <> RtoC 0.
  Hypothesis Hg : forall p, is_derive g p (dg p).
  Hypothesis Hdg : forall p, is_derive dg p (- g p)%R.
  Notation nn := (RtoC (INR n) * (RtoC (INR n) + RtoC 1)).
  Notation rho r := (k * RtoC r).
  Definition Mf : sph_field := fun r th ph =>
    (RtoC 0, RtoC (dg ph) * RtoC (pi_ (cos th) n) * (f (rho r) / rho r), - (RtoC (g ph) * RtoC (tau_ (cos th) n) * (f (rho r) / rho r))).
  Definition Nf : sph_field := fun r th ph =>
    (RtoC (g ph) * nn * RtoC (sin th) * RtoC (pi_ (cos th) n) * (f (rho r) / rho r / rho r),
     RtoC (g ph) * RtoC (tau_ (cos th) n) * (df (rho r) / rho r), RtoC (dg ph) * RtoC (pi_ (cos th) n) * (df (rho r) / rho r)).
  Section Point.
    Variables (r th ph : R).
    Hypothesis Hr : (0 < r)%R.
    Hypothesis Hs : sin th <> 0%R.
    Lemma rho_nz s : (0 < s)%R -> rho s <> RtoC 0.
    Proof. intros H E. apply C_integral in E. destruct E as [E|E]; [now apply Hk|]. revert E. apply RtoC_neq. lra. Qed.
    Lemma near_pos (P : R -> Prop) : (forall s, (0 < s)%R -> P s) -> locally r P.
    Proof.
      intros H. assert (Hp : (0 < r / 2)%R) by lra. exists (mkposreal _ Hp). intros y Hy. apply H.
      unfold ball in Hy; cbn in Hy. unfold AbsRing_ball, abs, minus, plus, opp in Hy; cbn in Hy.
      apply Rabs_def2 in Hy. lra.
    Qed.
    Lemma d_f (c : C) : RCderive (fun s => RtoC s * (c * (f (rho s) / rho s))) r (c * df (rho r)).
    Proof.
      apply (rc_ext_loc (fun s => c / k * f (rho s))).
      - apply near_pos. intros s Hsp. match goal with |- ?a = ?b => change (@eq C a b) end. field. split; [apply RtoC_neq; lra|exact Hk].
      - eapply rc_val; [|exact (rc_scal _ _ _ _ (rc_radial f k _ r (proj1 (Hric _ (rho_nz r Hr)))))]. match goal with |- ?a = ?b => change (@eq C a b) end. field. exact Hk.
    Qed.
    Lemma d_df (c : C) : RCderive (fun s => RtoC s * (c * (df (rho s) / rho s))) r (c * ((nn / (rho r * rho r) - RtoC 1) * f (rho r))).
    Proof.
      apply (rc_ext_loc (fun s => c / k * df (rho s))).
      - apply near_pos. intros s Hsp. match goal with |- ?a = ?b => change (@eq C a b) end. field. split; [apply RtoC_neq; lra|exact Hk].
      - eapply rc_val; [|exact (rc_scal _ _ _ _ (rc_radial df k _ r (proj2 (Hric _ (rho_nz r Hr)))))]. match goal with |- ?a = ?b => change (@eq C a b) end.
        pose proof (rho_nz r Hr). field. split; [apply RtoC_neq; lra|exact Hk].
    Qed.
    Lemma d_rf (c : C) : RCderive (fun s => RtoC (s * s) * (c * (f (rho s) / rho s / rho s))) r (c * (df (rho r) / k)).
    Proof.
      apply (rc_ext_loc (fun s => c / (k * k) * f (rho s))).
      - apply near_pos. intros s Hsp. rewrite RtoC_mult. match goal with |- ?a = ?b => change (@eq C a b) end. field. split; [apply RtoC_neq; lra|exact Hk].
      - eapply rc_val; [|exact (rc_scal _ _ _ _ (rc_radial f k _ r (proj1 (Hric _ (rho_nz r Hr)))))]. match goal with |- ?a = ?b => change (@eq C a b) end. field. exact Hk.
    Qed.
    Lemma rC_nz : RtoC r <> RtoC 0. Proof. apply RtoC_neq. lra. Qed.
    Lemma sC_nz : RtoC (sin th) <> RtoC 0. Proof. now apply RtoC_neq. Qed.
    Lemma curl_M : is_curl Mf r th ph (scale3 k (Nf r th ph)).
    Proof.
      set (z := f (rho r) / rho r).
      exists (- (RtoC (g ph) * z) * RtoC (pi_ (cos th) n - INR n * (INR n + 1) * (sin th * sin th) * pi_ (cos th) n)),
        (RtoC (pi_ (cos th) n) * z * RtoC (- g ph)), (RtoC 0), (- (RtoC (g ph) * RtoC (tau_ (cos th) n)) * df (rho r)),
        (RtoC (dg ph) * RtoC (pi_ (cos th) n) * df (rho r)), (RtoC 0).
      split; [|split; [|split; [|split; [|split; [|split]]]]].
      - apply (rc_real_scal _ _ _ _ _ (sin_tau_derive n th)). intros s. unfold Mf, c_ph, z. cbn [fst snd]. rewrite RtoC_mult. ring.
      - apply (rc_real_scal _ _ _ _ _ (Hdg ph)). intros s. unfold Mf, c_th, z. cbn [fst snd]. ring.
      - apply (rc_ext (fun _ => RtoC 0)); [intros; reflexivity|exact (rc_const (RtoC 0) _)].
      - eapply rc_ext; [|apply d_f]. intros s. unfold Mf, c_ph. cbn [fst snd]. ring.
      - eapply rc_ext; [|apply d_f]. intros s. unfold Mf, c_th. cbn [fst snd]. ring.
      - apply (rc_ext (fun _ => RtoC 0)); [intros; reflexivity|exact (rc_const (RtoC 0) _)].
      - unfold scale3, Nf, c_r, c_th, c_ph, z. cbn [fst snd]. pose proof rC_nz as R1. pose proof sC_nz as R2.
        repeat split.
        + rewrite !RtoC_minus, !RtoC_mult, RtoC_plus, RtoC_opp. field. repeat split; assumption.
        + field. repeat split; assumption.
        + field. repeat split; assumption.
    Qed.
    Lemma curl_N : is_curl Nf r th ph (scale3 k (Mf r th ph)).
    Proof.
      set (w := df (rho r) / rho r). set (y := f (rho r) / rho r / rho r).
      exists (RtoC (dg ph) * w * RtoC (tau_ (cos th) n)), (RtoC (tau_ (cos th) n) * w * RtoC (dg ph)),
        (nn * RtoC (sin th) * RtoC (pi_ (cos th) n) * y * RtoC (dg ph)),
        (RtoC (dg ph) * RtoC (pi_ (cos th) n) * ((nn / (rho r * rho r) - RtoC 1) * f (rho r))),
        (RtoC (g ph) * RtoC (tau_ (cos th) n) * ((nn / (rho r * rho r) - RtoC 1) * f (rho r))),
        (RtoC (g ph) * nn * y * RtoC (tau_ (cos th) n)).
      split; [|split; [|split; [|split; [|split; [|split]]]]].
      - apply (rc_real_scal _ _ _ _ _ (sin_pi_derive n th)). intros s. unfold Nf, c_ph, w. cbn [fst snd]. rewrite RtoC_mult. ring.
      - apply (rc_real_scal _ _ _ _ _ (Hg ph)). intros s. unfold Nf, c_th, w. cbn [fst snd]. ring.
      - apply (rc_real_scal _ _ _ _ _ (Hg ph)). intros s. unfold Nf, c_r, y. cbn [fst snd]. ring.
      - eapply rc_ext; [|apply d_df]. intros s. unfold Nf, c_ph. cbn [fst snd]. reflexivity.
      - eapply rc_ext; [|apply d_df]. intros s. unfold Nf, c_th. cbn [fst snd]. reflexivity.
      - apply (rc_real_scal _ _ _ _ _ (sin_pi_derive n th)). intros s. unfold Nf, c_r, y. cbn [fst snd]. rewrite RtoC_mult. ring.
      - unfold scale3, Mf, c_r, c_th, c_ph, w, y. cbn [fst snd]. pose proof rC_nz as R1. pose proof sC_nz as R2.
        repeat split; field; repeat split; assumption.
    Qed.
    Lemma div_M : is_div Mf r th ph (RtoC 0).
    Proof.
      set (z := f (rho r) / rho r).
      exists (RtoC 0), (RtoC (dg ph) * z * RtoC (tau_ (cos th) n)), (- (RtoC (tau_ (cos th) n) * z) * RtoC (dg ph)).
      split; [|split; [|split]].
      - eapply rc_ext; [|apply (rc_const (RtoC 0))]. intros s. unfold Mf, c_r. cbn [fst snd]. ring.
      - apply (rc_real_scal _ _ _ _ _ (sin_pi_derive n th)). intros s. unfold Mf, c_th, z. cbn [fst snd]. rewrite RtoC_mult. ring.
      - apply (rc_real_scal _ _ _ _ _ (Hg ph)). intros s. unfold Mf, c_ph, z. cbn [fst snd]. ring.
      - pose proof rC_nz as R1. pose proof sC_nz as R2. rewrite RtoC_mult. field. repeat split; assumption.
    Qed.
    Lemma div_N : is_div Nf r th ph (RtoC 0).
    Proof.
      set (w := df (rho r) / rho r).
      exists (RtoC (g ph) * nn * RtoC (sin th) * RtoC (pi_ (cos th) n) * (df (rho r) / k)),
        (RtoC (g ph) * w * RtoC (pi_ (cos th) n - INR n * (INR n + 1) * (sin th * sin th) * pi_ (cos th) n)),
        (RtoC (pi_ (cos th) n) * w * RtoC (- g ph)).
      split; [|split; [|split]].
      - eapply rc_ext; [|apply d_rf]. intros s. unfold Nf, c_r. cbn [fst snd]. reflexivity.
      - apply (rc_real_scal _ _ _ _ _ (sin_tau_derive n th)). intros s. unfold Nf, c_th, w. cbn [fst snd]. rewrite RtoC_mult. ring.
      - apply (rc_real_scal _ _ _ _ _ (Hdg ph)). intros s. unfold Nf, c_ph, w. cbn [fst snd]. ring.
      - pose proof rC_nz as R1. pose proof sC_nz as R2. rewrite !RtoC_minus, !RtoC_mult, RtoC_plus, RtoC_opp. unfold w. field. repeat split; assumption.
    Qed.
  End Point.
End Harmonic.

(** ** linearity *)
Definition add3 (u v : cvec) : cvec := (c_r u + c_r v, c_th u + c_th v, c_ph u + c_ph v).
Ltac parts := unfold add3, scale3, c_r, c_th, c_ph; cbn [fst snd].
Lemma curl_add F G r th ph u v : (0 < r)%R -> sin th <> 0%R -> is_curl F r th ph u -> is_curl G r th ph v ->
  is_curl (fun r th ph => add3 (F r th ph) (G r th ph)) r th ph (add3 u v).
Proof.
  intros Hr Hs (a1 & a2 & b1 & b2 & d1 & d2 & A1 & A2 & A3 & A4 & A5 & A6 & E1 & E2 & E3) (a1' & a2' & b1' & b2' & d1' & d2' & B1 & B2 & B3 & B4 & B5 & B6 & F1 & F2 & F3).
  assert (R1 : RtoC r <> RtoC 0) by (apply RtoC_neq; lra). assert (R2 : RtoC (sin th) <> RtoC 0) by now apply RtoC_neq.
  exists (a1 + a1'), (a2 + a2'), (b1 + b1'), (b2 + b2'), (d1 + d1'), (d2 + d2').
  split; [|split; [|split; [|split; [|split; [|split]]]]].
  - eapply rc_ext; [|apply (rc_plus _ _ _ _ _ A1 B1)]. intros s. parts. ring.
  - eapply rc_ext; [|apply (rc_plus _ _ _ _ _ A2 B2)]. intros s. parts. ring.
  - eapply rc_ext; [|apply (rc_plus _ _ _ _ _ A3 B3)]. intros s. parts. ring.
  - eapply rc_ext; [|apply (rc_plus _ _ _ _ _ A4 B4)]. intros s. parts. ring.
  - eapply rc_ext; [|apply (rc_plus _ _ _ _ _ A5 B5)]. intros s. parts. ring.
  - eapply rc_ext; [|apply (rc_plus _ _ _ _ _ A6 B6)]. intros s. parts. ring.
  - change (c_r (add3 u v)) with (c_r u + c_r v). change (c_th (add3 u v)) with (c_th u + c_th v). change (c_ph (add3 u v)) with (c_ph u + c_ph v).
    rewrite E1, E2, E3, F1, F2, F3. repeat split; field; repeat split; assumption.
Qed.
Lemma curl_scale (c : C) F r th ph u : (0 < r)%R -> sin th <> 0%R -> is_curl F r th ph u ->
  is_curl (fun r th ph => scale3 c (F r th ph)) r th ph (scale3 c u).
Proof.
  intros Hr Hs (a1 & a2 & b1 & b2 & d1 & d2 & A1 & A2 & A3 & A4 & A5 & A6 & E1 & E2 & E3).
  assert (R1 : RtoC r <> RtoC 0) by (apply RtoC_neq; lra). assert (R2 : RtoC (sin th) <> RtoC 0) by now apply RtoC_neq.
  exists (c * a1), (c * a2), (c * b1), (c * b2), (c * d1), (c * d2).
  split; [|split; [|split; [|split; [|split; [|split]]]]].
  - eapply rc_ext; [|apply (rc_scal _ _ _ _ A1)]. intros s. parts. ring.
  - eapply rc_ext; [|apply (rc_scal _ _ _ _ A2)]. intros s. parts. ring.
  - eapply rc_ext; [|apply (rc_scal _ _ _ _ A3)]. intros s. parts. ring.
  - eapply rc_ext; [|apply (rc_scal _ _ _ _ A4)]. intros s. parts. ring.
  - eapply rc_ext; [|apply (rc_scal _ _ _ _ A5)]. intros s. parts. ring.
  - eapply rc_ext; [|apply (rc_scal _ _ _ _ A6)]. intros s. parts. ring.
  - change (c_r (scale3 c u)) with (c * c_r u). change (c_th (scale3 c u)) with (c * c_th u). change (c_ph (scale3 c u)) with (c * c_ph u).
    rewrite E1, E2, E3. repeat split; field; repeat split; assumption.
Qed.
Lemma curl_zero r th ph : (0 < r)%R -> sin th <> 0%R -> is_curl (fun _ _ _ => (RtoC 0, RtoC 0, RtoC 0)) r th ph (RtoC 0, RtoC 0, RtoC 0).
Proof.
  intros Hr Hs. assert (R1 : RtoC r <> RtoC 0) by (apply RtoC_neq; lra). assert (R2 : RtoC (sin th) <> RtoC 0) by now apply RtoC_neq.
  exists (RtoC 0), (RtoC 0), (RtoC 0), (RtoC 0), (RtoC 0), (RtoC 0).
  split; [|split; [|split; [|split; [|split; [|split]]]]]; try (eapply rc_ext; [|apply (rc_const (RtoC 0))]; intros s; parts; ring).
  parts. repeat split; field; repeat split; assumption.
Qed.
Lemma curl_ext F G r th ph u v : (forall a b c, F a b c = G a b c) -> u = v -> is_curl F r th ph u -> is_curl G r th ph v.
Proof.
  intros E <- (a1 & a2 & b1 & b2 & d1 & d2 & A1 & A2 & A3 & A4 & A5 & A6 & E1). exists a1, a2, b1, b2, d1, d2.
  split; [|split; [|split; [|split; [|split; [|split]]]]]; [eapply rc_ext; [|exact A1]|eapply rc_ext; [|exact A2]|eapply rc_ext; [|exact A3]|eapply rc_ext; [|exact A4]|eapply rc_ext; [|exact A5]|eapply rc_ext; [|exact A6]|exact E1];
    intros s; cbv beta; now rewrite E.
Qed.
Lemma div_add F G r th ph : (0 < r)%R -> sin th <> 0%R -> is_div F r th ph (RtoC 0) -> is_div G r th ph (RtoC 0) ->
  is_div (fun r th ph => add3 (F r th ph) (G r th ph)) r th ph (RtoC 0).
Proof.
  intros Hr Hs (a & b & d & A1 & A2 & A3 & E) (a' & b' & d' & B1 & B2 & B3 & E').
  assert (R1 : RtoC r <> RtoC 0) by (apply RtoC_neq; lra). assert (R2 : RtoC (sin th) <> RtoC 0) by now apply RtoC_neq.
  exists (a + a'), (b + b'), (d + d'). split; [|split; [|split]].
  - eapply rc_ext; [|apply (rc_plus _ _ _ _ _ A1 B1)]. intros s. parts. ring.
  - eapply rc_ext; [|apply (rc_plus _ _ _ _ _ A2 B2)]. intros s. parts. ring.
  - eapply rc_ext; [|apply (rc_plus _ _ _ _ _ A3 B3)]. intros s. parts. ring.
  - replace (RtoC 0) with (RtoC 0 + RtoC 0) by ring. rewrite E at 1. rewrite E'. rewrite RtoC_mult. field. repeat split; assumption.
Qed.
Lemma div_scale (c : C) F r th ph : (0 < r)%R -> sin th <> 0%R -> is_div F r th ph (RtoC 0) -> is_div (fun r th ph => scale3 c (F r th ph)) r th ph (RtoC 0).
Proof.
  intros Hr Hs (a & b & d & A1 & A2 & A3 & E).
  assert (R1 : RtoC r <> RtoC 0) by (apply RtoC_neq; lra). assert (R2 : RtoC (sin th) <> RtoC 0) by now apply RtoC_neq.
  exists (c * a), (c * b), (c * d). split; [|split; [|split]].
  - eapply rc_ext; [|apply (rc_scal _ _ _ _ A1)]. intros s. parts. ring.
  - eapply rc_ext; [|apply (rc_scal _ _ _ _ A2)]. intros s. parts. ring.
  - eapply rc_ext; [|apply (rc_scal _ _ _ _ A3)]. intros s. parts. ring.
  - replace (RtoC 0) with (c * RtoC 0) by ring. rewrite E. rewrite RtoC_mult. field. repeat split; assumption.
Qed.
Lemma div_zero r th ph : (0 < r)%R -> sin th <> 0%R -> is_div (fun _ _ _ => (RtoC 0, RtoC 0, RtoC 0)) r th ph (RtoC 0).
Proof.
  intros Hr Hs. assert (R1 : RtoC r <> RtoC 0) by (apply RtoC_neq; lra). assert (R2 : RtoC (sin th) <> RtoC 0) by now apply RtoC_neq.
  exists (RtoC 0), (RtoC 0), (RtoC 0). split; [|split; [|split]]; try (eapply rc_ext; [|apply (rc_const (RtoC 0))]; intros s; parts; ring).
  rewrite RtoC_mult. field. repeat split; assumption.
Qed.
Lemma div_ext F G r th ph u : (forall a b c, F a b c = G a b c) -> is_div F r th ph u -> is_div G r th ph u.
Proof.
  intros E (a & b & d & A1 & A2 & A3 & E1). exists a, b, d.
  split; [|split; [|split]]; [eapply rc_ext; [|exact A1]|eapply rc_ext; [|exact A2]|eapply rc_ext; [|exact A3]|exact E1]; intros s; cbv beta; now rewrite E.
Qed.
