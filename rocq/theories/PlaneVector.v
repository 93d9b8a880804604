(** The incident expansion of the near-field code is the plane wave it returns as incident field. *)
From Coq Require Import Reals ZArith Lra Lia Bool List Arith.
From Coquelicot Require Import Coquelicot.
From Verif Require Import Ops ROps Spec StackSpec CLemmas CTrig ComplexDiff ModelSpecial ModelMie AngularProofs BesselProofs BesselSpec BesselTrue ConvergeSpec BesselMinimal BesselLimits
  ModelNear NearSpec MaxwellSpec NearLimitSpec NearExact NearFieldLimit PlaneExp PlaneSum PlaneLimit.
Import ListNotations.
Open Scope C_scope.

Lemma csum_sum0 (f : nat -> C) N : csum_l (map f (orders N)) = sum0 (fun k => f (S k)) N.
Proof.
  unfold csum_l, orders. induction N as [|N IH]; [reflexivity|]. rewrite seq_S, map_app, fold_left_app, IH. reflexivity.
Qed.
Lemma pw_fac k (E0 : C) : @pw_factor R ROps (S k) E0 = Ci * Cpow_n Ci k * E0 * ((RtoC (INR k) + RtoC (INR k) + 1 + 1 + 1) / ((RtoC (INR k) + 1) * (RtoC (INR k) + 1 + 1))).
Proof.
  unfold pw_factor. cbn [cpow]. toC. replace (@cpow R ROps Ci k) with (Cpow_n Ci k) by (induction k as [|j IH]; [reflexivity|cbn [cpow Cpow_n]; rewrite IH; reflexivity]).
  replace (INR (2 * S k + 1)) with (INR k + INR k + 1 + 1 + 1)%R by (rewrite plus_INR, mult_INR, !S_INR; simpl; ring).
  replace (INR (S k * (S k + 1))) with ((INR k + 1) * (INR k + 1 + 1))%R by (rewrite mult_INR, plus_INR, !S_INR; simpl; ring).
  rewrite !RtoC_plus, !RtoC_mult, !RtoC_plus. unfold Cdiv. ring.
Qed.
Section Inc.
  Variables (E0 m rho : C) (th ph : R).
  Hypothesis Hr : rho <> 0.
  Notation mu := (cos th).
  Notation V k := (rad_vsh (S k) false rho th ph).
  Notation cp := (RtoC (cos ph)). Notation sp := (RtoC (sin ph)). Notation st := (RtoC (sin th)).
  Lemma psi_over k : true_psi (S k) rho / rho = true_j (S k) rho.
  Proof. unfold true_psi. field. exact Hr. Qed.
  Lemma dpsi_over k : true_dpsi (S k) rho / rho = Dk rho k.
  Proof. unfold true_dpsi, true_psi, Dk. replace (S k - 1)%nat with k by lia. rewrite c_S. field. exact Hr. Qed.
  Definition e_s k : @vec3 R := @E_region R ROps E0 false incident_amps (V k) (rad_vsh (S k) true rho th ph) (S k).
  Definition h_s k : @vec3 R := @H_region R ROps E0 m false incident_amps (V k) (rad_vsh (S k) true rho th ph) (S k).
  Lemma e_parts k : @eq C (v1 (e_s k)) (E0 * cp * st * gk mu rho k) /\ @eq C (v2 (e_s k)) (E0 * cp * xt mu rho k) /\ @eq C (v3 (e_s k)) (- (E0 * sp) * xp mu rho k).
  Proof.
    unfold e_s, E_region, rad_vsh, vsh_of, vscale, vsub, vadd, v1, v2, v3, xt, xp, gk. cbn [fst snd M_o N_e incident_amps na nb nc nd rsin rcos ROps].
    rewrite pw_fac, psi_over, dpsi_over. generalize (@pi_n R ROps mu (S k)) (@tau_n R ROps mu (S k)) (Dk rho k) (true_j (S k) rho) (Cpow_n Ci k). intros p t D J q.
    toC. rewrite c_S. pose proof (c1_nz k). pose proof (c2_nz k).
    assert (X : forall u, Ci * q * u = Ci * (q * u)) by (intros; ring).
    repeat split.
    - replace (E0 * cp * st * (q * (RtoC (INR k) + RtoC (INR k) + 1 + 1 + 1) * RtoC p * (J / rho))) with (- (Ci * (Ci * (E0 * cp * st * (q * (RtoC (INR k) + RtoC (INR k) + 1 + 1 + 1) * RtoC p * (J / rho)))))) by (rewrite Ci2; ring). field. auto.
    - replace (Ci * RtoC p * J + RtoC t * D) with (Ci * RtoC p * J + - (Ci * (Ci * (RtoC t * D)))) by (rewrite Ci2; ring). field. auto.
    - replace (Ci * RtoC t * J + RtoC p * D) with (Ci * RtoC t * J + - (Ci * (Ci * (RtoC p * D)))) by (rewrite Ci2; ring). field. auto.
  Qed.
  Lemma h_parts k : @eq C (v1 (h_s k)) (m * E0 * sp * st * gk mu rho k) /\ @eq C (v2 (h_s k)) (m * E0 * sp * xt mu rho k) /\ @eq C (v3 (h_s k)) (m * E0 * cp * xp mu rho k).
  Proof.
    unfold h_s, H_region, rad_vsh, vsh_of, vscale, vsub, vadd, v1, v2, v3, xt, xp, gk. cbn [fst snd M_e N_o incident_amps na nb nc nd rsin rcos ROps].
    rewrite pw_fac, psi_over, dpsi_over. generalize (@pi_n R ROps mu (S k)) (@tau_n R ROps mu (S k)) (Dk rho k) (true_j (S k) rho) (Cpow_n Ci k). intros p t D J q.
    toC. rewrite c_S. pose proof (c1_nz k). pose proof (c2_nz k).
    repeat split.
    - replace (m * E0 * sp * st * (q * (RtoC (INR k) + RtoC (INR k) + 1 + 1 + 1) * RtoC p * (J / rho))) with (- (Ci * (Ci * (m * E0 * sp * st * (q * (RtoC (INR k) + RtoC (INR k) + 1 + 1 + 1) * RtoC p * (J / rho)))))) by (rewrite Ci2; ring). field. auto.
    - replace (Ci * RtoC p * J + RtoC t * D) with (Ci * RtoC p * J + - (Ci * (Ci * (RtoC t * D)))) by (rewrite Ci2; ring). field. auto.
    - replace (Ci * RtoC t * J + RtoC p * D) with (Ci * RtoC t * J + - (Ci * (Ci * (RtoC p * D)))) by (rewrite Ci2; ring). field. auto.
  Qed.
  Notation W := (pw mu rho).
  Lemma mu_ok : (-1 <= mu <= 1)%R. Proof. pose proof (COS_bound th). lra. Qed.
  Lemma part_tends (f : nat -> C) (x : nat -> C) c l : (forall k, f (S k) = c * x k) -> tends (fun N => sum0 x N) l -> tends (fun N => csum_l (map f (orders N))) (c * l).
  Proof.
    intros E H. eapply tends_ev; [|exact (tends_mult _ _ _ _ (tends_const c) H)]. exists 0%nat. intros N _. cbv beta. rewrite csum_sum0, <- sum0_scal. apply sum0_ext. intros k. symmetry. apply E.
  Qed.
  Lemma inc_spherical :
    tends_vec (fun N => rad_E E0 false (fun _ => incident_amps) N rho th ph) (E0 * cp * st * W, E0 * cp * (RtoC mu * W), - (E0 * sp) * W) /\
    tends_vec (fun N => rad_H m E0 false (fun _ => incident_amps) N rho th ph) (m * E0 * sp * st * W, m * E0 * sp * (RtoC mu * W), m * E0 * cp * W).
  Proof.
    pose proof (Gs_tends mu rho mu_ok Hr) as TG. pose proof (xt_tends mu rho mu_ok Hr) as TTh. pose proof (xp_tends mu rho mu_ok Hr) as TPh.
    assert (X : forall (u : nat -> C) (v : nat -> C) l, (forall N, u N = v N) -> tends v l -> tends u l) by (intros u v l E H; eapply tends_ev; [exists 0%nat; intros N _; symmetry; apply E|exact H]).
    split; (split; [|split]); unfold rad_E, rad_H.
    - eapply X; [intros N; apply (proj1 (vsum_parts _ _))|]. eapply part_tends; [|exact TG]. intros k. apply e_parts.
    - eapply X; [intros N; apply (proj1 (proj2 (vsum_parts _ _)))|]. eapply part_tends; [|exact TTh]. intros k. apply e_parts.
    - eapply X; [intros N; apply (proj2 (proj2 (vsum_parts _ _)))|]. eapply part_tends; [|exact TPh]. intros k. apply e_parts.
    - eapply X; [intros N; apply (proj1 (vsum_parts _ _))|]. eapply part_tends; [|exact TG]. intros k. apply h_parts.
    - eapply X; [intros N; apply (proj1 (proj2 (vsum_parts _ _)))|]. eapply part_tends; [|exact TTh]. intros k. apply h_parts.
    - eapply X; [intros N; apply (proj2 (proj2 (vsum_parts _ _)))|]. eapply part_tends; [|exact TPh]. intros k. apply h_parts.
  Qed.
  Theorem inc_cartesian : let cart := @field_to_xyz R ROps th ph in
    tends_vec (fun N => cart (rad_E E0 false (fun _ => incident_amps) N rho th ph)) (E0 * Cexp (Ci * rho * RtoC (cos th)), RtoC 0, RtoC 0) /\
    tends_vec (fun N => cart (rad_H m E0 false (fun _ => incident_amps) N rho th ph)) (RtoC 0, m * E0 * Cexp (Ci * rho * RtoC (cos th)), RtoC 0).
  Proof.
    intros cart. destruct inc_spherical as [TE TH]. apply (tv_xyz th ph) in TE. apply (tv_xyz th ph) in TH.
    replace (Cexp (Ci * rho * RtoC mu)) with W by (unfold pw; f_equal; ring).
    assert (S1 : st * st + RtoC mu * RtoC mu = RtoC 1) by (rewrite <- !RtoC_mult, <- RtoC_plus; f_equal; pose proof (sin2_cos2 th) as Q; unfold Rsqr in Q; exact Q).
    assert (S2 : sp * sp + cp * cp = RtoC 1) by (rewrite <- !RtoC_mult, <- RtoC_plus; f_equal; pose proof (sin2_cos2 ph) as Q; unfold Rsqr in Q; exact Q).
    assert (Y : forall (u : nat -> @vec3 R) a b, a = b -> tends_vec u a -> tends_vec u b) by (intros; subst; assumption).
    split; (eapply Y; [|first [exact TE|exact TH]]); clear TE TH; unfold field_to_xyz, v1, v2, v3; cbn [fst snd rsin rcos ROps rmul ropp rzero]; toC;
      rewrite ?RtoC_mult, ?RtoC_opp; generalize dependent W; intros w; f_equal; [f_equal| |f_equal|]; match goal with |- ?a = ?b => change (@eq C a b) end.
    - replace (E0 * w) with (E0 * w * (sp * sp + cp * cp * (st * st + RtoC mu * RtoC mu))) by (rewrite S1, Cmult_1_r, S2; ring). ring.
    - transitivity (E0 * w * cp * sp * (st * st + RtoC mu * RtoC mu - RtoC 1)); [ring|rewrite S1; ring].
    - ring.
    - transitivity (m * E0 * w * cp * sp * (st * st + RtoC mu * RtoC mu - RtoC 1)); [ring|rewrite S1; ring].
    - replace (m * E0 * w) with (m * E0 * w * (cp * cp + sp * sp * (st * st + RtoC mu * RtoC mu))) by (rewrite S1, Cmult_1_r, Cplus_comm, S2; ring). ring.
    - ring.
  Qed.
End Inc.
(** the incident field of the code *)
Theorem incident_expansion (k0 : R) (eps_env E0 : C) (P : @point R) :
  let n_env := @csqrt R ROps eps_env in let rho := RtoC k0 * n_env * RtoC (pt_r P) in rho <> RtoC 0 ->
  let cart := @field_to_xyz R ROps (pt_theta P) (pt_phi P) in
  tends_vec (fun N => cart (rad_E E0 false (fun _ => incident_amps) N rho (pt_theta P) (pt_phi P))) (@E_i R ROps k0 eps_env E0 P) /\
  tends_vec (fun N => cart (rad_H n_env E0 false (fun _ => incident_amps) N rho (pt_theta P) (pt_phi P))) (@H_i R ROps k0 eps_env E0 P).
Proof.
  intros n_env rho Hr cart. destruct (inc_cartesian E0 n_env rho (pt_theta P) (pt_phi P) Hr) as [TE TH].
  assert (Y : forall (u : nat -> @vec3 R) a b, a = b -> tends_vec u a -> tends_vec u b) by (intros; subst; assumption).
  assert (Ph : @phase R ROps k0 eps_env P = Cexp (Ci * rho * RtoC (cos (pt_theta P)))).
  { unfold phase, k_env, rho, n_env. toCT. cbn [rcos ROps]. apply f_equal. match goal with |- ?a = ?b => change (@eq C a b) end. ring. }
  split; (eapply Y; [|first [exact TE|exact TH]]); unfold E_i, H_i; rewrite Ph; [reflexivity|].
  assert (Q : forall X : C, n_env * E0 * X = E0 * n_env * X) by (intros; ring). rewrite Q. reflexivity.
Qed.
