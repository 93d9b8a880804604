(** Complex exponential and trigonometric functions of the model. *)
From Coq Require Import Reals ZArith Lra Lia Bool List Arith.
From Coquelicot Require Import Coquelicot.
From Verif Require Import Ops ROps Spec CLemmas.
Open Scope R_scope.

Definition Cexp (z : C) : C := (exp (fst z) * cos (snd z), exp (fst z) * sin (snd z)).
Definition Csin (z : C) : C :=
  (sin (fst z) * ((exp (snd z) + exp (- snd z)) / 2), cos (fst z) * ((exp (snd z) - exp (- snd z)) / 2)).
Definition Ccos (z : C) : C :=
  (cos (fst z) * ((exp (snd z) + exp (- snd z)) / 2), - (sin (fst z) * ((exp (snd z) - exp (- snd z)) / 2))).

Lemma rtwo_R : @rtwo R ROps = 2. Proof. reflexivity. Qed.
Lemma cexp_C : @cexp R ROps = Cexp. Proof. reflexivity. Qed.
Lemma csin_C : @csin R ROps = Csin. Proof. reflexivity. Qed.
Lemma ccos_C : @ccos R ROps = Ccos. Proof. reflexivity. Qed.
Ltac toCT := toC; change (@cexp R ROps) with Cexp in *; change (@csin R ROps) with Csin in *;
  change (@ccos R ROps) with Ccos in *.

Lemma Cexp_plus x y : Cexp (x + y)%C = (Cexp x * Cexp y)%C.
Proof.
  unfold Cexp. destruct x as [a b], y as [c d]. cbn [fst snd Cplus].
  rewrite exp_plus, cos_plus, sin_plus. apply C_eq; cbn; ring.
Qed.
Lemma Cexp_0 : Cexp (RtoC 0) = RtoC 1.
Proof. unfold Cexp. cbn. rewrite exp_0, cos_0, sin_0. apply C_eq; cbn; ring. Qed.
Lemma Cexp_R (x : R) : Cexp (RtoC x) = RtoC (exp x).
Proof. unfold Cexp. cbn. rewrite cos_0, sin_0. apply C_eq; cbn; ring. Qed.
Lemma Cexp_opp z : (Cexp z * Cexp (- z))%C = RtoC 1.
Proof. rewrite <- Cexp_plus. replace (z + - z)%C with (RtoC 0) by ring. apply Cexp_0. Qed.
Lemma Cexp_neq0 z : Cexp z <> RtoC 0.
Proof.
  intros H. pose proof (Cexp_opp z) as E. rewrite H in E.
  assert (E' : RtoC 0 = RtoC 1) by (rewrite <- E; ring). apply RtoC_inj' in E'. lra.
Qed.
Lemma Cexp_i z : Cexp (Ci * z)%C = (Ccos z + Ci * Csin z)%C.
Proof.
  destruct z as [a b]. unfold Cexp, Ccos, Csin, Ci. cbn [fst snd Cmult Cplus].
  replace (0 * a - 1 * b) with (- b) by ring. replace (0 * b + 1 * a) with a by ring.
  apply C_eq; cbn; field.
Qed.
Lemma Cexp_mi z : Cexp (- (Ci * z))%C = (Ccos z - Ci * Csin z)%C.
Proof.
  destruct z as [a b]. unfold Cexp, Ccos, Csin, Ci. cbn [fst snd Cmult Cplus Copp].
  replace (- (0 * a - 1 * b)) with b by ring. replace (- (0 * b + 1 * a)) with (- a) by ring.
  rewrite cos_neg, sin_neg.
  apply C_eq; cbn; field.
Qed.
Lemma Ci_sqr : (Ci * Ci)%C = (- RtoC 1)%C.
Proof. apply C_eq; cbn; ring. Qed.
Lemma Ci_neq0 : Ci <> RtoC 0.
Proof. intros H. injection H. lra. Qed.
Lemma Csin2_Ccos2 z : (Csin z * Csin z + Ccos z * Ccos z)%C = RtoC 1.
Proof.
  pose proof (Cexp_opp (Ci * z)%C) as H. rewrite Cexp_i, Cexp_mi in H.
  rewrite <- H.
  replace (Csin z * Csin z + Ccos z * Ccos z)%C with (Ccos z * Ccos z - (- RtoC 1) * (Csin z * Csin z))%C by ring.
  rewrite <- Ci_sqr. ring.
Qed.
Lemma Csin_R (x : R) : Csin (RtoC x) = RtoC (sin x).
Proof. unfold Csin. cbn. rewrite Ropp_0, exp_0. apply C_eq; cbn; field. Qed.
Lemma Ccos_R (x : R) : Ccos (RtoC x) = RtoC (cos x).
Proof. unfold Ccos. cbn. rewrite Ropp_0, exp_0. apply C_eq; cbn; field. Qed.
Lemma Cmod_i_real (x : R) : Cmod (Cexp (Ci * RtoC x)%C) = 1.
Proof.
  rewrite Cexp_i, Csin_R, Ccos_R. unfold Cmod. cbn.
  transitivity (sqrt 1); [|apply sqrt_1]. apply (f_equal sqrt). pose proof (sin2_cos2 x) as H. unfold Rsqr in H.
  match goal with |- ?a = 1 => replace a with (sin x * sin x + cos x * cos x) by ring end. exact H.
Qed.

(** conjugation *)
Lemma Cconj_plus x y : Cconj (x + y)%C = (Cconj x + Cconj y)%C.
Proof. apply C_eq; cbn; ring. Qed.
Lemma Cconj_opp' x : Cconj (- x)%C = (- Cconj x)%C.
Proof. apply C_eq; cbn; ring. Qed.
Lemma Cconj_minus x y : Cconj (x - y)%C = (Cconj x - Cconj y)%C.
Proof. apply C_eq; cbn; ring. Qed.
Lemma Cconj_mult x y : Cconj (x * y)%C = (Cconj x * Cconj y)%C.
Proof. apply C_eq; cbn; ring. Qed.
Lemma Cconj_R (x : R) : Cconj (RtoC x) = RtoC x.
Proof. apply C_eq; cbn; ring. Qed.
Lemma Cconj_inv x : Cconj (/ x)%C = (/ Cconj x)%C.
Proof.
  destruct x as [a b]. apply C_eq; cbn;
    replace (- b * (- b * 1)) with (b * (b * 1)) by ring; unfold Rdiv; ring.
Qed.
Lemma Cconj_div x y : Cconj (x / y)%C = (Cconj x / Cconj y)%C.
Proof. unfold Cdiv. now rewrite Cconj_mult, Cconj_inv. Qed.

Lemma Cmod_pos_neq (e : R) (z : C) : 0 < e -> e <= Cmod z -> z <> RtoC 0.
Proof. intros He H E. rewrite E, Cmod_0 in H. lra. Qed.
Lemma Cmult_neq_l (x y : C) : (x * y)%C <> RtoC 0 -> x <> RtoC 0.
Proof. intros H E. apply H. rewrite E. ring. Qed.
Lemma Cmult_neq_r (x y : C) : (x * y)%C <> RtoC 0 -> y <> RtoC 0.
Proof. intros H E. apply H. rewrite E. ring. Qed.
Lemma Cmult_eq_reg_l (c x y : C) : c <> RtoC 0 -> (c * x)%C = (c * y)%C -> x = y.
Proof.
  intros Hc H. replace x with (/ c * (c * x))%C by (field; exact Hc).
  rewrite H. field. exact Hc.
Qed.
Lemma Cdiv_eq (x y z : C) : y <> RtoC 0 -> x = (z * y)%C -> (x / y)%C = z.
Proof. intros Hy ->. field. exact Hy. Qed.
Lemma Cdiv_eq' (x y z : C) : y <> RtoC 0 -> (x / y)%C = z -> x = (z * y)%C.
Proof. intros Hy <-. field. exact Hy. Qed.
Lemma C_integral (x y : C) : (x * y)%C = RtoC 0 -> x = RtoC 0 \/ y = RtoC 0.
Proof.
  intros H. destruct (Ceq_dec x (RtoC 0)) as [E|E]; [left; exact E|right].
  apply (Cmult_eq_reg_l x); [exact E|]. rewrite H. ring.
Qed.
Lemma Csub_eq0 (x y : C) : (x - y)%C = RtoC 0 -> x = y.
Proof. intros H. replace x with ((x - y) + y)%C by ring. rewrite H. ring. Qed.
Lemma C2_neq0 : (RtoC 1 + RtoC 1)%C <> RtoC 0.
Proof. intros H. injection H. lra. Qed.
Lemma RtoC2 : RtoC 2 = (RtoC 1 + RtoC 1)%C.
Proof. apply C_eq; simpl; ring. Qed.
Lemma Cinv_neq0 (x : C) : x <> RtoC 0 -> (/ x)%C <> RtoC 0.
Proof.
  intros H Hi. apply H. replace x with (x * x * / x)%C by (field; exact H). rewrite Hi. ring.
Qed.
Lemma Cdiv_neq0 (x y : C) : x <> RtoC 0 -> y <> RtoC 0 -> (x / y)%C <> RtoC 0.
Proof. intros Hx Hy. apply Cmult_neq_0; [exact Hx|now apply Cinv_neq0]. Qed.
