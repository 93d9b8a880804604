(** Van der Corput numbers and the support points built from them (C105). *)
From Coq Require Import Reals ZArith List Bool Arith Lra Lia Psatz.
From Verif Require Import Ops ROps Tensor ModelMaterial ModelNear ModelGeom ModelSupport.
Import ListNotations.
Open Scope R_scope.

Notation V := (@van_der_corput R ROps).
Notation loop := (@vdc_loop R ROps).

Lemma inr_b b : (2 <= b)%nat -> 2 <= INR b.
Proof. intros H. apply le_INR in H. cbn [INR] in H. lra. Qed.

Lemma loop_lin b : (2 <= b)%nat -> forall i f f' w a, (i <= f)%nat -> (i <= f')%nat ->
  loop f b i w a = a + w * INR b * loop f' b i (1 / INR b) 0.
Proof.
  intros Hb. pose proof (inr_b b Hb) as HB. induction i as [i IH] using lt_wf_ind. intros f f' w a Hf Hf'.
  destruct (Nat.eq_dec i 0) as [->|Hi].
  { destruct f, f'; cbn [vdc_loop Nat.eqb]; lra. }
  destruct f as [|f]; [lia|]. destruct f' as [|f']; [lia|]. cbn [vdc_loop].
  destruct (Nat.eqb_spec i 0) as [|_]; [contradiction|].
  assert (Hq : (i / b < i)%nat) by (apply Nat.div_lt; lia).
  rewrite (IH (i / b)%nat Hq f f) by lia. rewrite (IH (i / b)%nat Hq f' f) by lia.
  rewrite rofn_R. cbn [radd rmul rdiv ROps]. rewrite rofn_R. field. lra.
Qed.

Lemma V_0 b : V b 0 = 0. Proof. reflexivity. Qed.
Lemma V_div b i : (2 <= b)%nat -> V b i = (INR (i mod b) + V b (i / b)) / INR b.
Proof.
  intros Hb. pose proof (inr_b b Hb) as HB. destruct (Nat.eq_dec i 0) as [->|Hi].
  { rewrite Nat.mod_0_l, Nat.div_0_l, V_0 by lia. cbn [INR]. field. lra. }
  unfold van_der_corput at 1. destruct i as [|i]; [contradiction|]. cbn [vdc_loop]. cbn [Nat.eqb].
  assert (Hq : (S i / b < S i)%nat) by (apply Nat.div_lt; lia).
  rewrite (loop_lin b Hb _ i (S i / b)%nat) by lia. unfold van_der_corput.
  cbn [radd rmul rdiv rone rzero ROps]. rewrite !rofn_R. field. lra.
Qed.
Lemma V_step b q r : (2 <= b)%nat -> (r < b)%nat -> V b (b * q + r) = (INR r + V b q) / INR b.
Proof.
  intros Hb Hr. rewrite V_div by assumption.
  replace ((b * q + r) mod b)%nat with r. 2: { rewrite Nat.add_comm, Nat.mul_comm, Nat.mod_add by lia. symmetry. now apply Nat.mod_small. }
  replace ((b * q + r) / b)%nat with q. 2: { rewrite Nat.add_comm, Nat.mul_comm, Nat.div_add by lia. now rewrite Nat.div_small. }
  reflexivity.
Qed.

Lemma V_range b : (2 <= b)%nat -> forall i, 0 <= V b i < 1.
Proof.
  intros Hb. pose proof (inr_b b Hb) as HB. induction i as [i IH] using lt_wf_ind.
  destruct (Nat.eq_dec i 0) as [->|Hi]; [rewrite V_0; lra|].
  rewrite V_div by assumption. destruct (IH (i / b)%nat) as [L U]. { apply Nat.div_lt; lia. }
  pose proof (Nat.mod_upper_bound i b ltac:(lia)) as Hm.
  assert (Hm' : INR (i mod b) + 1 <= INR b) by (rewrite <- S_INR; apply le_INR; lia).
  pose proof (pos_INR (i mod b)) as P.
  split.
  - apply Rmult_le_pos; [lra|]. left. apply Rinv_0_lt_compat. lra.
  - apply Rmult_lt_reg_r with (INR b); [lra|]. unfold Rdiv. rewrite Rmult_assoc, Rinv_l by lra. lra.
Qed.

Lemma V_inj b : (2 <= b)%nat -> forall n i j, (i < n)%nat -> (j < n)%nat -> V b i = V b j -> i = j.
Proof.
  intros Hb. pose proof (inr_b b Hb) as HB. induction n as [|n IH]; [lia|]. intros i j Hi Hj E.
  destruct (Nat.eq_dec i 0) as [Zi|Zi], (Nat.eq_dec j 0) as [Zj|Zj]; [lia| | |].
  all: assert (Qi : (i / b < n)%nat) by (destruct (Nat.eq_dec i 0) as [->|]; [rewrite Nat.div_0_l; lia|pose proof (Nat.div_lt i b); lia]).
  all: assert (Qj : (j / b < n)%nat) by (destruct (Nat.eq_dec j 0) as [->|]; [rewrite Nat.div_0_l; lia|pose proof (Nat.div_lt j b); lia]).
  all: rewrite (V_div b i), (V_div b j) in E by assumption.
  all: assert (E' : INR (i mod b) + V b (i / b) = INR (j mod b) + V b (j / b))
         by (apply (f_equal (fun x => x * INR b)) in E; unfold Rdiv in E; rewrite !Rmult_assoc, Rinv_l in E by lra; lra).
  all: pose proof (V_range b Hb (i / b)) as Ri; pose proof (V_range b Hb (j / b)) as Rj.
  all: assert (M : (i mod b = j mod b)%nat).
  1, 3, 5: destruct (Nat.lt_trichotomy (i mod b) (j mod b)) as [H|[H|H]]; [|exact H|];
         apply le_INR in H; rewrite S_INR in H; lra.
  all: rewrite M in E'; assert (Q : (i / b = j / b)%nat) by (apply IH; try assumption; lra).
  all: rewrite (Nat.div_mod_eq i b), (Nat.div_mod_eq j b), M, Q; reflexivity.
Qed.

(** ** sums *)
Fixpoint sumR (n : nat) (f : nat -> R) : R := match n with O => 0 | S n => sumR n f + f n end.
Lemma sumR_ext n f g : (forall i, (i < n)%nat -> f i = g i) -> sumR n f = sumR n g.
Proof. induction n as [|n IH]; intros H; [reflexivity|]. cbn [sumR]. rewrite IH by (intros; apply H; lia). rewrite H by lia. reflexivity. Qed.
Lemma sumR_scal n f c : sumR n (fun i => f i * c) = sumR n f * c.
Proof. induction n as [|n IH]; cbn [sumR]; [ring|]. rewrite IH. ring. Qed.

(** half of n minus the sum of the first n numbers *)
Definition defect (b n : nat) : R := INR n / 2 - sumR n (V b).
Lemma defect_S b n : defect b (S n) = defect b n + 1 / 2 - V b n.
Proof. unfold defect. cbn [sumR]. rewrite S_INR. field. Qed.
Lemma defect_inner b q : (2 <= b)%nat -> forall r, (r <= b)%nat ->
  defect b (b * q + r) = defect b (b * q) + INR r / 2 - INR r * (INR r - 1) / (2 * INR b) - INR r * V b q / INR b.
Proof.
  intros Hb. pose proof (inr_b b Hb) as HB. induction r as [|r IH]; intros Hr.
  { rewrite Nat.add_0_r. cbn [INR]. field. lra. }
  rewrite Nat.add_succ_r, defect_S, IH, V_step, S_INR by lia. field. lra.
Qed.
Lemma defect_mul b q : (2 <= b)%nat -> defect b (b * q) = defect b q.
Proof.
  intros Hb. pose proof (inr_b b Hb) as HB. induction q as [|q IH]; [now rewrite Nat.mul_0_r|].
  replace (b * S q)%nat with (b * q + b)%nat by lia. rewrite defect_inner, IH, defect_S by lia. field. lra.
Qed.
Lemma defect_div b n : (2 <= b)%nat -> let r := INR (n mod b) in
  defect b n = defect b (n / b) + (r * (INR b + 1 - r) - 2 * r * V b (n / b)) / (2 * INR b).
Proof.
  intros Hb r. pose proof (inr_b b Hb) as HB. rewrite (Nat.div_mod_eq n b) at 1.
  rewrite defect_inner, defect_mul by (try apply Nat.lt_le_incl, Nat.mod_upper_bound; lia). fold r. field. lra.
Qed.
Lemma defect_pos b : (2 <= b)%nat -> forall n, 0 <= defect b n.
Proof.
  intros Hb. pose proof (inr_b b Hb) as HB. induction n as [n IH] using lt_wf_ind.
  destruct (Nat.eq_dec n 0) as [->|Hn]; [unfold defect; cbn [INR sumR]; lra|].
  rewrite defect_div by assumption. specialize (IH (n / b)%nat ltac:(apply Nat.div_lt; lia)).
  pose proof (V_range b Hb (n / b)) as [L U]. pose proof (Nat.mod_upper_bound n b ltac:(lia)) as Hm.
  assert (Hm' : INR (n mod b) + 1 <= INR b) by (rewrite <- S_INR; apply le_INR; lia).
  pose proof (pos_INR (n mod b)) as P. set (r := INR (n mod b)) in *.
  assert (0 <= (r * (INR b + 1 - r) - 2 * r * V b (n / b)) / (2 * INR b)); [|lra].
  apply Rmult_le_pos; [|left; apply Rinv_0_lt_compat; lra]. nra.
Qed.
Lemma defect_grow b n : (2 <= b)%nat -> defect b n <= defect b (n / b) + (INR b + 1) * (INR b + 1) / (8 * INR b).
Proof.
  intros Hb. pose proof (inr_b b Hb) as HB. rewrite (defect_div b n Hb). apply Rplus_le_compat_l.
  pose proof (V_range b Hb (n / b)) as [L U]. pose proof (pos_INR (n mod b)) as P. set (r := INR (n mod b)) in *.
  apply Rmult_le_reg_r with (8 * INR b); [lra|]. unfold Rdiv.
  replace ((r * (INR b + 1 - r) - 2 * r * V b (n / b)) * / (2 * INR b) * (8 * INR b)) with (4 * (r * (INR b + 1 - r) - 2 * r * V b (n / b))) by (field; lra).
  replace ((INR b + 1) * (INR b + 1) * / (8 * INR b) * (8 * INR b)) with ((INR b + 1) * (INR b + 1)) by (field; lra).
  assert (0 <= r * V b (n / b)) by nra. pose proof (Rle_0_sqr (INR b + 1 - 2 * r)) as S. unfold Rsqr in S. nra.
Qed.

(** ** integers: digits of i < b^k reversed *)
Fixpoint rev_digits (k b i : nat) : Z :=
  match k with O => 0 | S k => Z.of_nat (i mod b) * Z.of_nat b ^ Z.of_nat k + rev_digits k b (i / b) end%Z.
Lemma V_digits b : (2 <= b)%nat -> forall k i, (i < b ^ k)%nat -> V b i = IZR (rev_digits k b i) / INR b ^ k.
Proof.
  intros Hb. pose proof (inr_b b Hb) as HB. induction k as [|k IH]; intros i Hi.
  { cbn in Hi. replace i with 0%nat by lia. rewrite V_0. cbn. field. }
  rewrite V_div, (IH (i / b)%nat) by (try apply Nat.div_lt_upper_bound; cbn in Hi; lia).
  cbn [rev_digits pow]. rewrite plus_IZR, mult_IZR, <- !INR_IZR_INZ. rewrite <- (Nat2Z.inj_pow b k), <- INR_IZR_INZ, pow_INR.
  field. split; [apply pow_nonzero|]; lra.
Qed.
Fixpoint sumZ (n : nat) (f : nat -> Z) : Z := match n with O => 0 | S n => sumZ n f + f n end%Z.
Lemma sumZ_R n f g c : (forall i, (i < n)%nat -> g i = IZR (f i) * c) -> sumR n g = IZR (sumZ n f) * c.
Proof.
  induction n as [|n IH]; intros H; cbn [sumR sumZ]; [rewrite Rmult_0_l; reflexivity|].
  rewrite IH by (intros; apply H; lia). rewrite H by lia. rewrite plus_IZR. ring.
Qed.

(* numerators over 30^5 *)
Definition num (b i : nat) : Z := (rev_digits 5 b i * Z.of_nat (30 / b) ^ 5)%Z.
Definition base (b : nat) : Prop := b = 2%nat \/ b = 3%nat \/ b = 5%nat.
Lemma V_num b i : base b -> (i < 32)%nat -> V b i = IZR (num b i) * / 24300000.
Proof.
  intros B Hi. rewrite (V_digits b ltac:(destruct B as [->|[->| ->]]; lia) 5).
  2: { apply Nat.lt_le_trans with 32%nat; [assumption|]. destruct B as [->|[->| ->]]; cbn; lia. }
  unfold num. rewrite mult_IZR. destruct B as [->|[->| ->]].
  - change (Z.of_nat (30 / 2) ^ 5)%Z with 759375%Z. cbn [INR pow]. field.
  - change (Z.of_nat (30 / 3) ^ 5)%Z with 100000%Z. cbn [INR pow]. field.
  - change (Z.of_nat (30 / 5) ^ 5)%Z with 7776%Z. cbn [INR pow]. field.
Qed.
Definition small_ok (b n : nat) : bool :=
  (25 * Z.of_nat n * 24300000 - 50 * sumZ n (num b) <=? (50 + 2 * Z.of_nat n) * 24300000)%Z.
Lemma small_all : forallb (fun n => small_ok 2 n && small_ok 3 n && small_ok 5 n) (seq 0 30) = true.
Proof. vm_compute. reflexivity. Qed.
Lemma defect_small b n : base b -> (n < 30)%nat -> defect b n <= 1 + INR n / 25.
Proof.
  intros B Hn. pose proof small_all as A. rewrite forallb_forall in A. specialize (A n ltac:(apply in_seq; lia)).
  apply andb_prop in A. destruct A as [A A5]. apply andb_prop in A. destruct A as [A2 A3].
  assert (S : small_ok b n = true) by (destruct B as [->|[->| ->]]; assumption). clear A2 A3 A5.
  unfold small_ok in S. apply Z.leb_le, IZR_le in S. rewrite minus_IZR, !mult_IZR, plus_IZR, mult_IZR, <- INR_IZR_INZ in S.
  unfold defect. rewrite (sumZ_R n (num b) (V b) (/ 24300000)) by (intros; apply V_num; [assumption|lia]). lra.
Qed.
Lemma defect_le b : base b -> forall n, defect b n <= 1 + INR n / 25.
Proof.
  intros B. assert (Hb : (2 <= b)%nat) by (destruct B as [->|[->| ->]]; lia). induction n as [n IH] using lt_wf_ind.
  destruct (Nat.lt_ge_cases n 30) as [Hn|Hn]; [now apply defect_small|].
  pose proof (defect_grow b n Hb) as G. specialize (IH (n / b)%nat ltac:(apply Nat.div_lt; lia)).
  pose proof (Nat.div_mod_eq n b) as E. apply (f_equal INR) in E. rewrite plus_INR, mult_INR in E. pose proof (pos_INR (n mod b)) as P.
  assert (Q : 30 / INR b <= INR (n / b)).
  { assert (H : (30 / b <= n / b)%nat) by (apply Nat.div_le_mono; lia). apply le_INR in H.
    replace (30 / INR b) with (INR (30 / b)); [assumption|]. destruct B as [->|[->| ->]]; cbn; lra. }
  destruct B as [->|[->| ->]]; cbn [INR] in *; lra.
Qed.

(** ** points relative to their mean *)
Definition mean (b n : nat) : R := sumR n (V b) / INR n.
Definition dist2 (n i : nat) : R :=
  (V 2 i - mean 2 n) * (V 2 i - mean 2 n) + (V 3 i - mean 3 n) * (V 3 i - mean 3 n) + (V 5 i - mean 5 n) * (V 5 i - mean 5 n).
Definition norm2 (i : nat) : R := V 2 i * V 2 i + V 3 i * V 3 i + V 5 i * V 5 i.

Definition zsq (x : Z) : Z := (x * x)%Z.
Definition inside_ok (n i k : nat) : bool :=
  (let d b := zsq (Z.of_nat n * num b i - sumZ n (num b)) in
   169 * (d 2%nat + d 3%nat + d 5%nat) <=? 81 * zsq (Z.of_nat n) * (zsq (num 2 k) + zsq (num 3 k) + zsq (num 5 k)))%Z.
Lemma inside_all : forallb (fun n => forallb (fun i => existsb (inside_ok n i) (seq 0 n)) (seq 0 n)) (seq 1 23) = true.
Proof. vm_compute. reflexivity. Qed.
Lemma dist_small n i : (n < 24)%nat -> (i < n)%nat -> exists k, (k < n)%nat /\ 169 / 100 * dist2 n i <= 81 / 100 * norm2 k.
Proof.
  intros Hn Hi. pose proof inside_all as A. rewrite forallb_forall in A. specialize (A n ltac:(apply in_seq; lia)).
  rewrite forallb_forall in A. specialize (A i ltac:(apply in_seq; lia)). apply existsb_exists in A. destruct A as (k & Hk & A).
  apply in_seq in Hk. exists k. split; [lia|]. unfold inside_ok in A. apply Z.leb_le, IZR_le in A. unfold zsq in A.
  rewrite !mult_IZR, !plus_IZR, !mult_IZR, !minus_IZR, !mult_IZR, <- !INR_IZR_INZ in A.
  assert (Hn' : 0 < INR n) by (apply lt_0_INR; lia).
  unfold dist2, norm2, mean.
  rewrite (sumZ_R n (num 2) (V 2) (/ 24300000)), (sumZ_R n (num 3) (V 3) (/ 24300000)), (sumZ_R n (num 5) (V 5) (/ 24300000))
    by (intros; apply V_num; [unfold base; tauto|lia]).
  rewrite !V_num by (unfold base; tauto || lia).
  set (c := / 24300000). assert (Hc : 0 < c) by (unfold c; lra).
  set (a2 := IZR (num 2 i)) in *. set (a3 := IZR (num 3 i)) in *. set (a5 := IZR (num 5 i)) in *.
  set (s2 := IZR (sumZ n (num 2))) in *. set (s3 := IZR (sumZ n (num 3))) in *. set (s5 := IZR (sumZ n (num 5))) in *.
  set (k2 := IZR (num 2 k)) in *. set (k3 := IZR (num 3 k)) in *. set (k5 := IZR (num 5 k)) in *. clearbody c a2 a3 a5 s2 s3 s5 k2 k3 k5.
  set (N := INR n) in *. clearbody N.
  apply Rmult_le_reg_r with (N * N); [nra|].
  replace (169 / 100 * ((a2 * c - s2 * c / N) * (a2 * c - s2 * c / N) + (a3 * c - s3 * c / N) * (a3 * c - s3 * c / N) + (a5 * c - s5 * c / N) * (a5 * c - s5 * c / N)) * (N * N))
    with (/ 100 * (c * c) * (169 * ((N * a2 - s2) * (N * a2 - s2) + (N * a3 - s3) * (N * a3 - s3) + (N * a5 - s5) * (N * a5 - s5)))) by (field; lra).
  replace (81 / 100 * (k2 * c * (k2 * c) + k3 * c * (k3 * c) + k5 * c * (k5 * c)) * (N * N))
    with (/ 100 * (c * c) * (81 * (N * N) * (k2 * k2 + k3 * k3 + k5 * k5))) by (field; lra).
  apply Rmult_le_compat_l; [nra|exact A].
Qed.
Lemma coord_big b n i : base b -> (24 <= n)%nat -> (V b i - mean b n) * (V b i - mean b n) <= 3388 / 10000.
Proof.
  intros B Hn. assert (Hb : (2 <= b)%nat) by (destruct B as [->|[->| ->]]; lia).
  assert (HN : 24 <= INR n) by (apply le_INR in Hn; cbn [INR] in Hn; lra).
  pose proof (V_range b Hb i) as [L U]. pose proof (defect_pos b Hb n) as P. pose proof (defect_le b B n) as Q.
  unfold defect in P, Q. unfold mean. set (s := sumR n (V b)) in *. set (N := INR n) in *. clearbody s N.
  assert (M : s = s / N * N) by (field; lra). set (m := s / N) in *. clearbody m. subst s.
  assert (m <= 1 / 2) by nra. assert (1 - m <= 582 / 1000) by nra. assert (-(582/1000) <= V b i - m <= 582 / 1000) by nra. nra.
Qed.
Lemma norm2_23 : 21245 / 10000 <= norm2 23.
Proof.
  unfold norm2. rewrite !V_num by (unfold base; tauto || lia).
  replace (num 2 23) with 22021875%Z by (vm_compute; reflexivity).
  replace (num 3 23) with 20700000%Z by (vm_compute; reflexivity).
  replace (num 5 23) with 18468000%Z by (vm_compute; reflexivity). lra.
Qed.
Lemma dist_le n i : (i < n)%nat -> exists k, (k < n)%nat /\ 169 / 100 * dist2 n i <= 81 / 100 * norm2 k.
Proof.
  intros Hi. destruct (Nat.lt_ge_cases n 24) as [Hn|Hn]; [now apply dist_small|].
  exists 23%nat. split; [lia|]. unfold dist2. pose proof (coord_big 2 n i ltac:(unfold base; tauto) Hn).
  pose proof (coord_big 3 n i ltac:(unfold base; tauto) Hn). pose proof (coord_big 5 n i ltac:(unfold base; tauto) Hn). pose proof norm2_23. lra.
Qed.
