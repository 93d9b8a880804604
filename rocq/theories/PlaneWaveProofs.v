(** Plane-wave expansion coefficients. *)
From Coq Require Import Reals ZArith List Bool Arith Lia Lra.
From Coquelicot Require Import Coquelicot.
From Verif Require Import Ops ROps CLemmas CTrig ModelSpecial ModelMie ModelNear.
Import ListNotations.
Open Scope R_scope.

Definition ipow (n : nat) : C := match (n mod 4)%nat with 0%nat => RtoC 1 | 1%nat => Ci | 2%nat => RtoC (-1) | _ => (- Ci)%C end.
Lemma ci_sq : (Ci * Ci)%C = RtoC (-1).
Proof. apply injective_projections; cbn; ring. Qed.
Lemma cpow_ci_4 n : @cpow R ROps ci (4 + n) = @cpow R ROps ci n.
Proof.
  cbn [cpow plus]. set (c := @cpow R ROps ci n : C). change (Ci * (Ci * (Ci * (Ci * c))) = c)%C.
  transitivity ((Ci * Ci) * (Ci * Ci) * c)%C; [ring|]. rewrite ci_sq, <- RtoC_mult. replace (-1 * -1) with 1 by ring. ring.
Qed.
Lemma cpow_ci n : @cpow R ROps ci n = ipow n.
Proof.
  induction n as [n IH] using lt_wf_ind. destruct n as [|[|[|[|n]]]]; try (cbn; apply injective_projections; cbn; ring).
  replace (S (S (S (S n)))) with (4 + n)%nat by lia. rewrite cpow_ci_4, IH by lia. unfold ipow. f_equal. replace (4 + n)%nat with (n + 1 * 4)%nat by lia. now rewrite Nat.mod_add by lia.
Qed.
Lemma ipow_mod n : Cmod (ipow n) = 1.
Proof.
  unfold ipow. destruct (n mod 4)%nat as [|[|[|]]]; rewrite ?Cmod_opp, ?Cmod_R, ?Rabs_R1; try reflexivity.
  - unfold Cmod. cbn. replace (0 * (0 * 1) + 1 * (1 * 1)) with 1 by ring. apply sqrt_1.
  - rewrite Rabs_left by lra. ring.
  - unfold Cmod. cbn. replace (0 * (0 * 1) + 1 * (1 * 1)) with 1 by ring. apply sqrt_1.
Qed.
Definition weight (j : nat) : R := (2 * INR j + 1) / (INR j * (INR j + 1)).
Lemma pw_coeff_eq j : (1 <= j)%nat -> @pw_coeff R ROps j = (ipow j * RtoC (weight j))%C.
Proof.
  intros Hj. unfold pw_coeff, weight. rewrite !cofn_C, cpow_ci. toC.
  assert (0 < INR j) by (apply lt_0_INR; lia). rewrite RtoC_div by nra. rewrite !plus_INR, !mult_INR, !plus_INR. cbn [INR].
  replace (1 + 1) with 2 by ring. match goal with |- ?x = ?y => change (@eq C x y) end.
  assert (H1 : RtoC (INR j * (INR j + 1)) <> RtoC 0) by (apply RtoC_neq; nra). field. exact H1.
Qed.
Lemma weight_pos j : (1 <= j)%nat -> 0 < weight j /\ weight j = 1 / INR j + 1 / (INR j + 1).
Proof. intros Hj. assert (0 < INR j) by (apply lt_0_INR; lia). unfold weight. split; [apply Rdiv_lt_0_compat; nra|field; lra]. Qed.
Lemma pw_ok n : (0 <= n)%Z -> exists l, @plane_wave_expansion R ROps n = Ok l /\ List.length l = Z.to_nat n /\
  forall j, (1 <= j <= Z.to_nat n)%nat -> nth (j - 1) l (RtoC 0) = (ipow j * RtoC (weight j))%C /\ Cmod (nth (j - 1) l (RtoC 0)) = weight j.
Proof.
  intros Hn. unfold plane_wave_expansion. destruct (Z.ltb_spec n 0); [lia|]. eexists. split; [reflexivity|]. split; [now rewrite map_length, seq_length|]. intros j Hj.
  assert (E : nth (j - 1) (map (@pw_coeff R ROps) (seq 1 (Z.to_nat n))) (RtoC 0) = (ipow j * RtoC (weight j))%C).
  { rewrite (nth_indep _ (RtoC 0) (@pw_coeff R ROps 0)) by (rewrite map_length, seq_length; lia). rewrite map_nth, seq_nth by lia. replace (1 + (j - 1))%nat with j by lia. apply pw_coeff_eq. lia. }
  split; [exact E|]. rewrite E, Cmod_mult, ipow_mod, Cmod_R, Rabs_pos_eq; [ring|]. left. apply weight_pos. lia.
Qed.
Lemma pw_neg n : (n < 0)%Z -> @plane_wave_expansion R ROps n = Err AssertionError.
Proof. intros Hn. unfold plane_wave_expansion. destruct (Z.ltb_spec n 0); [reflexivity|lia]. Qed.
Lemma pw_factor_eq n (E0 : C) : (1 <= n)%nat -> @pw_factor R ROps n E0 = (E0 * (ipow n * RtoC (weight n)))%C.
Proof.
  intros Hn. rewrite <- pw_coeff_eq by exact Hn. unfold pw_factor, pw_coeff. rewrite !cofn_C. toC.
  assert (0 < INR n) by (apply lt_0_INR; lia). assert (RtoC (INR (n * (n + 1))) <> RtoC 0) by (apply RtoC_neq; rewrite mult_INR, plus_INR; cbn [INR]; nra).
  match goal with |- ?x = ?y => change (@eq C x y) end. set (c := @cpow R ROps ci n : C). change (cpow ci n) with c. field. assumption.
Qed.
Lemma ipow_period n : ipow (n + 4) = ipow n.
Proof. unfold ipow. replace (n + 4)%nat with (n + 1 * 4)%nat by lia. now rewrite Nat.mod_add by lia. Qed.
