(** Far zone of the scattered expansion of the near-field code. *)
From Coq Require Import Reals ZArith Lra Lia Bool List Arith.
From Coquelicot Require Import Coquelicot.
From Verif Require Import Ops ROps Spec StackSpec CLemmas CTrig ModelSpecial ModelMie BesselSpec BesselTrue ConvergeSpec
  ModelNear NearSpec MaxwellSpec NearLimitSpec NearExact NearFieldLimit PlaneExp PlaneSum FarZoneSpec.
Import ListNotations.
Open Scope C_scope.

Lemma far_const c : far (fun _ => c) c.
Proof. intros eps He. exists 0%R. intros r _. replace (c - c) with (RtoC 0) by ring. rewrite Cmod_0. exact He. Qed.
Lemma far_ext f g l : (forall r, (0 < r)%R -> f r = g r) -> far f l -> far g l.
Proof. intros E H eps He. destruct (H eps He) as [M HM]. exists (Rmax M 0). intros r Hr. rewrite <- E by (eapply Rle_lt_trans; [apply Rmax_r|exact Hr]). apply HM. eapply Rle_lt_trans; [apply Rmax_l|exact Hr]. Qed.
Lemma far_val f l l' : l = l' -> far f l -> far f l'.
Proof. intros ->. exact (fun H => H). Qed.
Lemma far_plus f g l m : far f l -> far g m -> far (fun r => f r + g r) (l + m).
Proof.
  intros Hf Hg eps He. destruct (Hf (eps / 2)%R ltac:(lra)) as [M1 H1]. destruct (Hg (eps / 2)%R ltac:(lra)) as [M2 H2].
  exists (Rmax M1 M2). intros r Hr. assert (A : (M1 < r)%R) by (eapply Rle_lt_trans; [apply Rmax_l|exact Hr]). assert (B : (M2 < r)%R) by (eapply Rle_lt_trans; [apply Rmax_r|exact Hr]).
  replace (f r + g r - (l + m)) with ((f r - l) + (g r - m)) by ring. eapply Rle_lt_trans; [apply Cmod_triangle|]. pose proof (H1 r A). pose proof (H2 r B). lra.
Qed.
Lemma far_mult f g l m : far f l -> far g m -> far (fun r => f r * g r) (l * m).
Proof.
  intros Hf Hg eps He. pose proof (Cmod_ge_0 l) as L0. pose proof (Cmod_ge_0 m) as M0. set (K := (Cmod l + Cmod m + 1)%R). assert (HK : (0 < K)%R) by (unfold K; lra).
  set (d := Rmin 1 (eps / K)). assert (Hd : (0 < d)%R) by (unfold d; apply Rmin_glb_lt; [lra|apply Rdiv_lt_0_compat; lra]).
  assert (Hd1 : (d <= 1)%R) by apply Rmin_l. assert (Hd2 : (d * K <= eps)%R) by (pose proof (Rmin_r 1 (eps / K)) as Q; fold d in Q; apply (Rmult_le_compat_r K) in Q; [|lra]; replace (eps / K * K)%R with eps in Q by (field; lra); exact Q).
  destruct (Hf d Hd) as [M1 H1]. destruct (Hg d Hd) as [M2 H2].
  exists (Rmax M1 M2). intros r Hr. assert (A : (M1 < r)%R) by (eapply Rle_lt_trans; [apply Rmax_l|exact Hr]). assert (B : (M2 < r)%R) by (eapply Rle_lt_trans; [apply Rmax_r|exact Hr]).
  specialize (H1 r A). specialize (H2 r B).
  replace (f r * g r - l * m) with ((f r - l) * (g r - m) + (l * (g r - m) + m * (f r - l))) by ring.
  eapply Rle_lt_trans; [apply Cmod_triangle|]. eapply Rle_lt_trans; [apply Rplus_le_compat_l, Cmod_triangle|]. rewrite !Cmod_mult.
  pose proof (Cmod_ge_0 (f r - l)) as F0. pose proof (Cmod_ge_0 (g r - m)) as G0. set (u := Cmod (f r - l)) in *. set (v := Cmod (g r - m)) in *.
  apply Rlt_le_trans with (d * K)%R; [|exact Hd2].
  assert (u * v <= u * 1)%R by (apply Rmult_le_compat_l; lra). assert (Cmod l * v <= Cmod l * d)%R by (apply Rmult_le_compat_l; lra). assert (Cmod m * u <= Cmod m * d)%R by (apply Rmult_le_compat_l; lra).
  unfold K. nra.
Qed.
Lemma far_inv (k : C) : k <> RtoC 0 -> far (fun r => / (k * RtoC r)) (RtoC 0).
Proof.
  intros Hk eps He. assert (K : (0 < Cmod k)%R) by (apply Cmod_gt_0; exact Hk). exists (/ (Cmod k * eps))%R. intros r Hr.
  assert (P : (0 < / (Cmod k * eps))%R) by (apply Rinv_0_lt_compat; apply Rmult_lt_0_compat; lra). assert (Hr0 : (0 < r)%R) by lra.
  replace (/ (k * RtoC r) - RtoC 0) with (/ (k * RtoC r)) by ring. rewrite Cmod_inv by (apply Cmult_neq_0; [exact Hk|intros Q; injection Q; lra]).
  rewrite Cmod_mult, Cmod_R, Rabs_pos_eq by lra. rewrite <- (Rinv_inv eps). apply Rinv_lt_contravar.
  - apply Rmult_lt_0_compat; [apply Rinv_0_lt_compat; lra|apply Rmult_lt_0_compat; lra].
  - apply (Rmult_lt_compat_l (Cmod k)) in Hr; [|lra]. replace (Cmod k * / (Cmod k * eps))%R with (/ eps)%R in Hr by (field; lra). exact Hr.
Qed.
Lemma far_csum (f : nat -> R -> C) (l : nat -> C) N : (forall n, (1 <= n <= N)%nat -> far (f n) (l n)) ->
  far (fun r => csum_l (map (fun n => f n r) (orders N))) (csum_l (map l (orders N))).
Proof.
  unfold csum_l, orders. induction N as [|N IH]; intros H; [exact (far_const (RtoC 0))|].
  rewrite seq_S, map_app, fold_left_app. change (1 + N)%nat with (S N). cbn [map fold_left].
  apply (far_ext (fun r => fold_left Cplus (map (fun n => f n r) (seq 1 N)) (RtoC 0) + f (S N) r)); [intros r _; rewrite map_app, fold_left_app; reflexivity|].
  apply far_plus; [apply IH; intros n Hn; apply H; lia|apply H; lia].
Qed.

Lemma CiCi : Ci * Ci = - RtoC 1.
Proof. unfold Ci, Cmult, RtoC, Copp. cbn. f_equal; ring. Qed.
Section Far.
  Variable k : C.
  Hypothesis Hk : k <> RtoC 0.
  Notation w r := (Cexp (- (Ci * (k * RtoC r)))).
  Lemma kr_nz r : (0 < r)%R -> k * RtoC r <> RtoC 0.
  Proof. intros Hr. apply Cmult_neq_0; [exact Hk|intros Q; injection Q; lra]. Qed.
  Lemma far_zeta_pair n : far (fun r => true_zeta n (k * RtoC r) * w r) (Cpow_n (- Ci) (S n)) /\ far (fun r => true_zeta (S n) (k * RtoC r) * w r) (Cpow_n (- Ci) (S (S n))).
  Proof.
    pose proof (far_inv k Hk) as I0.
    assert (Z0 : forall r, (0 < r)%R -> true_zeta 0 (k * RtoC r) * w r = - Ci).
    { intros r Hr. pose proof (kr_nz r Hr) as Q. set (z := k * RtoC r) in *.
      transitivity (- Ci * (Cexp (Ci * z) * Cexp (- (Ci * z)))); [|rewrite Cexp_opp; ring]. rewrite Cexp_i. unfold true_zeta, true_j, true_y. cbn [three_term fst].
      replace (- Ci * ((Ccos z + Ci * Csin z) * Cexp (- (Ci * z)))) with (- (Ci * Ccos z + Ci * Ci * Csin z) * Cexp (- (Ci * z))) by ring. rewrite CiCi. field. exact Q. }
    induction n as [|n [IH1 IH2]].
    - split.
      + eapply far_ext; [intros r Hr; symmetry; apply Z0; exact Hr|]. eapply far_val; [|apply far_const]. cbn [Cpow_n]. ring.
      + apply (far_ext (fun r => - Ci * / (k * RtoC r) + (- RtoC 1))).
        { intros r Hr. pose proof (kr_nz r Hr) as Q. set (z := k * RtoC r) in *. set (e := Cexp (- (Ci * z))).
          transitivity ((- Ci * / z + - RtoC 1) * (Cexp (Ci * z) * e)); [unfold e; rewrite Cexp_opp; ring|]. rewrite Cexp_i. unfold true_zeta, true_j, true_y. cbn [three_term fst].
          replace ((- Ci * / z + - RtoC 1) * ((Ccos z + Ci * Csin z) * e)) with ((- (Ci * Ccos z + Ci * Ci * Csin z) / z - (Ccos z + Ci * Csin z)) * e) by (field; exact Q). rewrite CiCi. field. exact Q. }
        eapply far_val; [|exact (far_plus _ _ _ _ (far_mult _ _ _ _ (far_const (- Ci)) I0) (far_const (- RtoC 1)))].
        cbn [Cpow_n]. transitivity (Ci * Ci); [rewrite CiCi; ring|ring].
    - split; [exact IH2|].
      apply (far_ext (fun r => RtoC (INR (2 * n + 3)) * / (k * RtoC r) * (true_zeta (S n) (k * RtoC r) * w r) + - RtoC 1 * (true_zeta n (k * RtoC r) * w r))).
      { intros r Hr. rewrite true_zeta_rec. field. split; [intros Q; injection Q; lra|exact Hk]. }
      eapply far_val; [|exact (far_plus _ _ _ _ (far_mult _ _ _ _ (far_mult _ _ _ _ (far_const (RtoC (INR (2 * n + 3)))) I0) IH2) (far_mult _ _ _ _ (far_const (- RtoC 1)) IH1))].
      cbn [Cpow_n]. generalize (Cpow_n (- Ci) n). intros q. transitivity (- q * - Ci); [ring|]. transitivity (- (Ci * Ci) * (- Ci * - q)); [rewrite CiCi; ring|ring].
  Qed.
  Lemma far_zeta n : far (fun r => true_zeta n (k * RtoC r) * w r) (Cpow_n (- Ci) (S n)).
  Proof. exact (proj1 (far_zeta_pair n)). Qed.
  Lemma far_dzeta n : (1 <= n)%nat -> far (fun r => true_dzeta n (k * RtoC r) * w r) (Cpow_n (- Ci) n).
  Proof.
    intros Hn. apply (far_ext (fun r => true_zeta (n - 1) (k * RtoC r) * w r + - RtoC (INR n) * / (k * RtoC r) * (true_zeta n (k * RtoC r) * w r))).
    { intros r Hr. unfold true_dzeta. field. split; [intros Q; injection Q; lra|exact Hk]. }
    eapply far_val; [|exact (far_plus _ _ _ _ (far_zeta (n - 1)) (far_mult _ _ _ _ (far_mult _ _ _ _ (far_const (- RtoC (INR n))) (far_inv k Hk)) (far_zeta n)))].
    replace (S (n - 1)) with n by lia. ring.
  Qed.
End Far.

Lemma cpow_far n : @cpow R ROps Ci n * Cpow_n (- Ci) n = RtoC 1.
Proof.
  induction n as [|n IH]; [cbn; toC; ring|]. cbn [cpow Cpow_n]. toC. generalize dependent (@cpow R ROps Ci n). generalize (Cpow_n (- Ci) n). intros q p IH.
  transitivity (- (Ci * Ci) * (p * q)); [ring|]. rewrite CiCi, IH. ring.
Qed.
(* E_n of the near-field code against the weight of angular_scattering *)
Lemma pw_ang n (E0 : C) : (1 <= n)%nat -> @pw_factor R ROps n E0 * Cpow_n (- Ci) n = E0 * @ang_w R ROps n.
Proof.
  intros Hn. unfold pw_factor, ang_w. toC. pose proof (cpow_far n) as Q. generalize dependent (@cpow R ROps Ci n). intros p Q.
  assert (Z : RtoC (INR (n * (n + 1))) <> RtoC 0) by (intros W; injection W; apply not_0_INR; nia).
  assert (Z' : INR (n * (n + 1)) <> 0%R) by (apply not_0_INR; nia). rewrite !rofn_R. change (@rdiv R ROps) with Rdiv. rewrite (RtoC_div _ _ Z'). transitivity (E0 * (p * Cpow_n (- Ci) n) * (RtoC (INR (2 * n + 1)) / RtoC (INR (n * (n + 1))))); [field; exact Z|]. rewrite Q. ring.
Qed.
Section Fields.
  Variables (k0 : R) (m E0 : C) (A : nat -> @amps R) (N : nat) (th ph : R).
  Hypothesis Hk : RtoC k0 * m <> RtoC 0.
  Notation rho r := (RtoC k0 * m * RtoC r).
  Notation w r := (Cexp (- (Ci * (RtoC k0 * m * RtoC r)))).
  Notation S1' := (@S1 R ROps N (fun n => na (A n)) (fun n => nb (A n)) th).
  Notation S2' := (@S2 R ROps N (fun n => na (A n)) (fun n => nb (A n)) th).
  Notation cp := (RtoC (cos ph)). Notation sp := (RtoC (sin ph)).
  Definition eo n r : @vec3 R := @E_region R ROps E0 true (A n) (rad_vsh n false (rho r) th ph) (rad_vsh n true (rho r) th ph) n.
  Definition ho n r : @vec3 R := @H_region R ROps E0 m true (A n) (rad_vsh n false (rho r) th ph) (rad_vsh n true (rho r) th ph) n.
  Notation P n := (RtoC (@pi_n R ROps (cos th) n)). Notation T n := (RtoC (@tau_n R ROps (cos th) n)).
  Notation z n r := (true_zeta n (rho r) * w r). Notation d n r := (true_dzeta n (rho r) * w r).
  Notation F n := (@pw_factor R ROps n E0).
  Lemma order_parts n r : (1 <= n)%nat -> (0 < r)%R ->
    rho r * w r * v1 (eo n r) = F n * (Ci * na (A n)) * cp * (RtoC (INR n) * (RtoC (INR n) + RtoC 1)) * RtoC (sin th) * P n * (/ rho r * z n r) /\
    rho r * w r * v2 (eo n r) = F n * (Ci * na (A n) * cp * T n) * d n r + F n * (- nb (A n) * cp * P n) * z n r /\
    rho r * w r * v3 (eo n r) = F n * (- (Ci * na (A n)) * sp * P n) * d n r + F n * (nb (A n) * sp * T n) * z n r /\
    rho r * w r * v1 (ho n r) = m * F n * (Ci * nb (A n)) * sp * (RtoC (INR n) * (RtoC (INR n) + RtoC 1)) * RtoC (sin th) * P n * (/ rho r * z n r) /\
    rho r * w r * v2 (ho n r) = m * F n * (Ci * nb (A n) * sp * T n) * d n r + m * F n * (- na (A n) * sp * P n) * z n r /\
    rho r * w r * v3 (ho n r) = m * F n * (Ci * nb (A n) * cp * P n) * d n r + m * F n * (- na (A n) * cp * T n) * z n r.
  Proof.
    intros Hn Hr. pose proof (kr_nz _ Hk r Hr) as Q. unfold eo, ho, E_region, H_region, rad_vsh, vsh_of, vscale, vsub, vadd, v1, v2, v3. cbn [fst snd M_o N_e M_e N_o rsin rcos ROps].
    generalize (@pi_n R ROps (cos th) n) (@tau_n R ROps (cos th) n) (true_zeta n (rho r)) (true_dzeta n (rho r)) (F n) (w r) (na (A n)) (nb (A n)). intros p t x y f e a b.
    toC. generalize dependent (rho r). intros q Q. generalize (RtoC (INR n)) (RtoC (sin th)) cp sp (RtoC p) (RtoC t). intros c s c1 s1 p1 t1.
    repeat split; match goal with |- ?u = ?v => change (@eq C u v) end; field; exact Q.
  Qed.
  Lemma far_two n c1 c2 : (1 <= n)%nat -> far (fun r => c1 * d n r + c2 * z n r) ((c1 - Ci * c2) * Cpow_n (- Ci) n).
  Proof.
    intros Hn. eapply far_val; [|exact (far_plus _ _ _ _ (far_mult _ _ _ _ (far_const c1) (far_dzeta _ Hk n Hn)) (far_mult _ _ _ _ (far_const c2) (far_zeta _ Hk n)))].
    cbn [Cpow_n]. ring.
  Qed.
  Lemma far_rad n c : far (fun r => c * (/ rho r * z n r)) (RtoC 0).
  Proof.
    eapply far_val; [|exact (far_mult _ _ _ _ (far_const c) (far_mult _ _ _ _ (far_inv _ Hk) (far_zeta _ Hk n)))]. ring.
  Qed.
  Lemma far_sum (f : nat -> R -> C) (g : R -> C) c (l : nat -> C) (L : C) : (forall r, (0 < r)%R -> g r = rho r * w r * csum_l (map (fun n => f n r) (orders N))) ->
    (forall n, (1 <= n <= N)%nat -> far (fun r => rho r * w r * f n r) (c * l n)) -> L = c * csum_l (map l (orders N)) -> far g L.
  Proof.
    intros E H ->. rewrite <- csum_scal. eapply far_ext; [|exact (far_csum _ _ N H)]. intros r Hr. rewrite E, <- csum_scal by exact Hr. reflexivity.
  Qed.
  Lemma zero_sum : csum_l (map (fun _ => RtoC 0) (orders N)) = RtoC 0.
  Proof. unfold csum_l, orders. induction N as [|j IH]; [reflexivity|]. rewrite seq_S, map_app, fold_left_app, IH. cbn. ring. Qed.
  Theorem far_fields :
    far (fun r => rho r * w r * c_r (true_E k0 m E0 true A N r th ph)) (RtoC 0) /\
    far (fun r => rho r * w r * c_th (true_E k0 m E0 true A N r th ph)) (Ci * E0 * cp * S2') /\
    far (fun r => rho r * w r * c_ph (true_E k0 m E0 true A N r th ph)) (- (Ci * E0 * sp * S1')) /\
    far (fun r => rho r * w r * c_r (true_H k0 m E0 true A N r th ph)) (RtoC 0) /\
    far (fun r => rho r * w r * c_th (true_H k0 m E0 true A N r th ph)) (m * (Ci * E0 * sp * S1')) /\
    far (fun r => rho r * w r * c_ph (true_H k0 m E0 true A N r th ph)) (m * (Ci * E0 * cp * S2')).
  Proof.
    assert (X : forall n f l, (1 <= n)%nat -> f * Cpow_n (- Ci) n = E0 * @ang_w R ROps n -> f * l * Cpow_n (- Ci) n = E0 * @ang_w R ROps n * l) by (intros n f l _ E; rewrite <- E; ring).
    assert (S1E : S1' = csum_l (map (fun n => @ang_w R ROps n * (na (A n) * P n + nb (A n) * T n)) (orders N))) by reflexivity.
    assert (S2E : S2' = csum_l (map (fun n => @ang_w R ROps n * (na (A n) * T n + nb (A n) * P n)) (orders N))) by reflexivity.
    rewrite S1E, S2E. clear S1E S2E.
    split; [|split; [|split; [|split; [|split]]]].
    - eapply (far_sum (fun n r => v1 (eo n r)) _ (RtoC 1) (fun _ => RtoC 0)); [intros r _; apply f_equal; exact (proj1 (vsum_parts _ _))| |rewrite zero_sum; ring].
      intros n Hn. refine (far_ext _ _ _ (fun r Hr => eq_sym (proj1 (order_parts n r (proj1 Hn) Hr))) _). eapply far_val; [|apply far_rad]. ring.
    - eapply (far_sum (fun n r => v2 (eo n r)) _ (Ci * E0 * cp) (fun n => @ang_w R ROps n * (na (A n) * T n + nb (A n) * P n))); [intros r _; apply f_equal; exact (proj1 (proj2 (vsum_parts _ _)))| |reflexivity].
      intros n Hn. refine (far_ext _ _ _ (fun r Hr => eq_sym (proj1 (proj2 (order_parts n r (proj1 Hn) Hr)))) _). eapply far_val; [|apply far_two; lia]. pose proof (pw_ang n E0 ltac:(lia)) as Q.
      replace (Ci * E0 * cp * (@ang_w R ROps n * (na (A n) * T n + nb (A n) * P n))) with (E0 * @ang_w R ROps n * (Ci * cp * (na (A n) * T n + nb (A n) * P n))) by ring. rewrite <- Q. ring.
    - eapply (far_sum (fun n r => v3 (eo n r)) _ (- (Ci * E0 * sp)) (fun n => @ang_w R ROps n * (na (A n) * P n + nb (A n) * T n))); [intros r _; apply f_equal; exact (proj2 (proj2 (vsum_parts _ _)))| |ring].
      intros n Hn. refine (far_ext _ _ _ (fun r Hr => eq_sym (proj1 (proj2 (proj2 (order_parts n r (proj1 Hn) Hr))))) _). eapply far_val; [|apply far_two; lia]. pose proof (pw_ang n E0 ltac:(lia)) as Q.
      replace (- (Ci * E0 * sp) * (@ang_w R ROps n * (na (A n) * P n + nb (A n) * T n))) with (E0 * @ang_w R ROps n * (- (Ci * sp * (na (A n) * P n + nb (A n) * T n)))) by ring. rewrite <- Q. ring.
    - eapply (far_sum (fun n r => v1 (ho n r)) _ (RtoC 1) (fun _ => RtoC 0)); [intros r _; apply f_equal; exact (proj1 (vsum_parts _ _))| |rewrite zero_sum; ring].
      intros n Hn. refine (far_ext _ _ _ (fun r Hr => eq_sym (proj1 (proj2 (proj2 (proj2 (order_parts n r (proj1 Hn) Hr)))))) _). eapply far_val; [|apply far_rad]. ring.
    - eapply (far_sum (fun n r => v2 (ho n r)) _ (m * (Ci * E0 * sp)) (fun n => @ang_w R ROps n * (na (A n) * P n + nb (A n) * T n))); [intros r _; apply f_equal; exact (proj1 (proj2 (vsum_parts _ _)))| |ring].
      intros n Hn. refine (far_ext _ _ _ (fun r Hr => eq_sym (proj1 (proj2 (proj2 (proj2 (proj2 (order_parts n r (proj1 Hn) Hr))))))) _). eapply far_val; [|apply far_two; lia]. pose proof (pw_ang n E0 ltac:(lia)) as Q.
      replace (m * (Ci * E0 * sp) * (@ang_w R ROps n * (na (A n) * P n + nb (A n) * T n))) with (E0 * @ang_w R ROps n * (m * Ci * sp * (na (A n) * P n + nb (A n) * T n))) by ring. rewrite <- Q. ring.
    - eapply (far_sum (fun n r => v3 (ho n r)) _ (m * (Ci * E0 * cp)) (fun n => @ang_w R ROps n * (na (A n) * T n + nb (A n) * P n))); [intros r _; apply f_equal; exact (proj2 (proj2 (vsum_parts _ _)))| |ring].
      intros n Hn. refine (far_ext _ _ _ (fun r Hr => eq_sym (proj2 (proj2 (proj2 (proj2 (proj2 (order_parts n r (proj1 Hn) Hr))))))) _). eapply far_val; [|apply far_two; lia]. pose proof (pw_ang n E0 ltac:(lia)) as Q.
      replace (m * (Ci * E0 * cp) * (@ang_w R ROps n * (na (A n) * T n + nb (A n) * P n))) with (E0 * @ang_w R ROps n * (m * Ci * cp * (na (A n) * T n + nb (A n) * P n))) by ring. rewrite <- Q. ring.
  Qed.
End Fields.
