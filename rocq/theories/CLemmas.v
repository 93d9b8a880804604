(** Auxiliary facts on finite sums and complex numbers. *)
From Coq Require Import Reals ZArith Lra Lia Bool List Arith.
From Coquelicot Require Import Coquelicot.
From Verif Require Import Ops ROps Spec.
Import ListNotations.
Open Scope R_scope.

(* [cplx R] and Coquelicot's [C] are convertible but not syntactically equal *)
Definition cplx_field : @field_theory (cplx R) (RtoC 0) (RtoC 1) Cplus Cmult Cminus Copp Cdiv Cinv
  (@eq (cplx R)) := C_field_theory.
Add Field cplx_field_f : cplx_field.
Ltac cring := toC; match goal with |- @eq _ ?a ?b =>
  first [change (@eq C a b); ring | change (@eq (cplx R) a b); ring] end.
Ltac cfield := toC; match goal with |- @eq _ ?a ?b =>
  first [change (@eq C a b); field | change (@eq (cplx R) a b); field] end.

Lemma RtoC_inj' (x y : R) : RtoC x = RtoC y -> x = y.
Proof. intros H. injection H; auto. Qed.

Lemma C_eq (x y : C) : fst x = fst y -> snd x = snd y -> x = y.
Proof. destruct x, y; simpl; congruence. Qed.

(** ** Sums *)
Lemma fold_left_cadd (l : list C) (z : C) : fold_left Cplus l z = Cplus z (fold_left Cplus l (RtoC 0)).
Proof.
  revert z; induction l as [|x l IH]; intros z; simpl.
  - cring.
  - rewrite (IH (Cplus z x)), (IH (Cplus 0 x)). cring.
Qed.
Lemma csum_cons (x : C) (l : list C) : @csum R ROps (x :: l) = Cplus x (@csum R ROps l).
Proof. unfold csum. cbn [fold_left]. toC. rewrite fold_left_cadd. cring.
Qed.
Lemma csum_nil : @csum R ROps (@nil C) = RtoC 0. Proof. reflexivity. Qed.
Lemma csum_app (l l' : list C) : @csum R ROps (l ++ l') = Cplus (@csum R ROps l) (@csum R ROps l').
Proof.
  induction l as [|x l IH]; cbn [app].
  - rewrite csum_nil. cring.
  - rewrite !csum_cons, IH. cring.
Qed.

Lemma csum_seq (f : nat -> C) n : @csum R ROps (map f (seq 1 n)) = csum1 f n.
Proof.
  induction n as [|n IH]; [reflexivity|].
  rewrite seq_S, map_app, csum_app, IH. cbn [map csum1].
  rewrite csum_cons, csum_nil. replace (1 + n)%nat with (S n) by lia.
  cring.
Qed.

Lemma fst_csum1 f n : fst (csum1 f n) = sum1 (fun i => fst (f i)) n.
Proof. induction n as [|n IH]; simpl; [reflexivity|now rewrite IH]. Qed.
Lemma snd_csum1 f n : snd (csum1 f n) = sum1 (fun i => snd (f i)) n.
Proof. induction n as [|n IH]; simpl; [reflexivity|now rewrite IH]. Qed.

Lemma sum1_ext f g n : (forall i, (1 <= i <= n)%nat -> f i = g i) -> sum1 f n = sum1 g n.
Proof.
  induction n as [|n IH]; intros H; simpl; [reflexivity|].
  rewrite IH, H; auto; try lia. intros; apply H; lia.
Qed.
Lemma csum1_ext f g n : (forall i, (1 <= i <= n)%nat -> f i = g i) -> csum1 f n = csum1 g n.
Proof.
  induction n as [|n IH]; intros H; simpl; [reflexivity|].
  rewrite IH, H; auto; try lia. intros; apply H; lia.
Qed.
Lemma sum1_plus f g n : sum1 (fun i => f i + g i) n = sum1 f n + sum1 g n.
Proof. induction n as [|n IH]; simpl; [ring|rewrite IH; ring]. Qed.
Lemma sum1_minus f g n : sum1 (fun i => f i - g i) n = sum1 f n - sum1 g n.
Proof. induction n as [|n IH]; simpl; [ring|rewrite IH; ring]. Qed.
Lemma sum1_scal c f n : sum1 (fun i => c * f i) n = c * sum1 f n.
Proof. induction n as [|n IH]; simpl; [ring|rewrite IH; ring]. Qed.
Lemma csum1_plus f g n : csum1 (fun i => Cplus (f i) (g i)) n = Cplus (csum1 f n) (csum1 g n).
Proof. induction n as [|n IH]; simpl; [ring|rewrite IH; ring]. Qed.
Lemma csum1_scal c f n : csum1 (fun i => Cmult c (f i)) n = Cmult c (csum1 f n).
Proof. induction n as [|n IH]; simpl; [ring|rewrite IH; ring]. Qed.
Lemma csum1_opp f n : csum1 (fun i => Copp (f i)) n = Copp (csum1 f n).
Proof. induction n as [|n IH]; simpl; [ring|rewrite IH; ring]. Qed.
Lemma sum1_nonneg f n : (forall i, (1 <= i <= n)%nat -> 0 <= f i) -> 0 <= sum1 f n.
Proof.
  induction n as [|n IH]; intros H; simpl; [lra|].
  apply Rplus_le_le_0_compat; [apply IH; intros; apply H; lia|apply H; lia].
Qed.
Lemma sum1_zero f n : (forall i, (1 <= i <= n)%nat -> 0 <= f i) -> sum1 f n = 0 ->
  forall i, (1 <= i <= n)%nat -> f i = 0.
Proof.
  induction n as [|n IH]; intros H Hs i Hi; [lia|]. simpl in Hs.
  assert (H0 : 0 <= sum1 f n) by (apply sum1_nonneg; intros; apply H; lia).
  assert (H1 : 0 <= f (S n)) by (apply H; lia).
  destruct (Nat.eq_dec i (S n)) as [->|Hne]; [lra|].
  apply IH; try lia; try lra. intros; apply H; lia.
Qed.
Lemma sum1_le f g n : (forall i, (1 <= i <= n)%nat -> f i <= g i) -> sum1 f n <= sum1 g n.
Proof.
  induction n as [|n IH]; intros H; simpl; [lra|].
  apply Rplus_le_compat; [apply IH; intros; apply H; lia|apply H; lia].
Qed.
Lemma Cmod_csum1 f n : Cmod (csum1 f n) <= sum1 (fun i => Cmod (f i)) n.
Proof.
  induction n as [|n IH]; simpl; [rewrite Cmod_0; lra|].
  eapply Rle_trans; [apply Cmod_triangle|]. lra.
Qed.

(** ** Moduli *)
Lemma Cmod_sqr (z : C) : Cmod z * Cmod z = fst z * fst z + snd z * snd z.
Proof.
  unfold Cmod. rewrite sqrt_sqrt; [simpl; ring|].
  pose proof (pow2_ge_0 (fst z)). pose proof (pow2_ge_0 (snd z)). lra.
Qed.
Lemma rsqr_R (x : R) : @rsqr R ROps x = x * x.
Proof. unfold rsqr; cbn; ring. Qed.
Lemma RtoC_neq (x : R) : x <> 0 -> RtoC x <> RtoC 0.
Proof. intros H E; apply H, RtoC_inj', E. Qed.
Lemma INR_neq0 n : (0 < n)%nat -> INR n <> 0.
Proof. intros H; apply not_0_INR; lia. Qed.
Lemma Cdiv_R (x y : R) : y <> 0 -> Cdiv (RtoC x) (RtoC y) = RtoC (x / y).
Proof. intros H. now rewrite RtoC_div. Qed.
