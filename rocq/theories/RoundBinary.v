(** p-bit binary arithmetic is an arithmetic of precision 2^-p (C97). *)
From Coq Require Import Reals ZArith Lra Lia List Bool Arith.
From Coquelicot Require Import Coquelicot.
From Verif Require Import Ops ROps Spec ModelRound RoundSpec RoundOps.
Open Scope R_scope.
Arguments Cmod x%C_scope.

Lemma exponent_ok x : x <> 0 -> powerRZ 2 (exponent x) <= Rabs x < powerRZ 2 (exponent x + 1).
Proof.
  intros Hx. pose proof (Rabs_pos_lt x Hx) as Hp. assert (L2 : 0 < ln 2) by (rewrite <- ln_1; apply ln_increasing; lra).
  rewrite !powerRZ_Rpower by lra. unfold Rpower. pose proof (base_Int_part (ln (Rabs x) / ln 2)) as [B1 B2]. fold (exponent x) in B1, B2. rewrite plus_IZR.
  assert (E : ln (Rabs x) / ln 2 * ln 2 = ln (Rabs x)) by (field; lra). split.
  - rewrite <- (exp_ln (Rabs x) Hp) at 1. destruct (Rle_lt_or_eq_dec _ _ B1) as [L|L]; [|rewrite L, E; lra]. left. apply exp_increasing. rewrite <- E. now apply Rmult_lt_compat_r.
  - rewrite <- (exp_ln (Rabs x) Hp) at 1. apply exp_increasing. rewrite <- E at 1. apply Rmult_lt_compat_r; lra.
Qed.
Lemma ulp_pos p x : 0 < ulp p x. Proof. apply powerRZ_lt. lra. Qed.
Lemma ulp_eq p x : powerRZ 2 (exponent x) = ulp p x * 2 ^ p.
Proof. unfold ulp. rewrite pow_powerRZ, <- powerRZ_add by lra. f_equal. lia. Qed.
Lemma cut_err p x : rel ((1 / 2) ^ p) (cut p x) x.
Proof.
  unfold rel, cut. destruct (Req_EM_T x 0) as [->|Hx]; [rewrite Rminus_eq_0, Rabs_R0; lra|].
  pose proof (ulp_pos p x) as U. pose proof (exponent_ok x Hx) as [E1 _]. rewrite (ulp_eq p) in E1. pose proof (base_Int_part (x / ulp p x)) as [B1 B2].
  assert (P : (1 / 2) ^ p * 2 ^ p = 1) by (rewrite <- Rpow_mult_distr; replace (1 / 2 * 2) with 1 by field; apply pow1).
  assert (H0 : 0 < (1 / 2) ^ p) by (apply pow_lt; lra).
  assert (K : ulp p x <= (1 / 2) ^ p * Rabs x). { apply Rle_trans with ((1 / 2) ^ p * (ulp p x * 2 ^ p)); [|apply Rmult_le_compat_l; lra]. replace ((1 / 2) ^ p * (ulp p x * 2 ^ p)) with (ulp p x * ((1 / 2) ^ p * 2 ^ p)) by ring. rewrite P. lra. }
  eapply Rle_trans; [|exact K]. replace (IZR (Int_part (x / ulp p x)) * ulp p x - x) with ((IZR (Int_part (x / ulp p x)) - x / ulp p x) * ulp p x) by (field; lra).
  rewrite Rabs_mult, (Rabs_pos_eq (ulp p x)) by lra. assert (D : Rabs (IZR (Int_part (x / ulp p x)) - x / ulp p x) <= 1) by (apply Rabs_le; split; lra). apply Rle_trans with (1 * ulp p x); [apply Rmult_le_compat_r; lra|lra].
Qed.
(* its results have at most p + 1 binary digits *)
Lemma cut_bits p x : exists m q : Z, (Z.abs m <= 2 ^ Z.of_nat (p + 1))%Z /\ cut p x = IZR m * powerRZ 2 q.
Proof.
  unfold cut. destruct (Req_EM_T x 0) as [->|Hx]; [exists 0%Z, 0%Z; split; [apply Z.pow_nonneg; lia|ring]|].
  exists (Int_part (x / ulp p x)), (exponent x - Z.of_nat p)%Z. split; [|reflexivity].
  pose proof (ulp_pos p x) as U. pose proof (exponent_ok x Hx) as [_ E2]. rewrite powerRZ_add, (ulp_eq p) in E2 by lra. change (powerRZ 2 1) with (2 * 1) in E2. pose proof (base_Int_part (x / ulp p x)) as [B1 B2].
  set (y := x / ulp p x) in *. assert (Ex : x = y * ulp p x) by (unfold y; field; lra). rewrite Ex, Rabs_mult, (Rabs_pos_eq (ulp p x)) in E2 by lra.
  assert (Ey : Rabs y < 2 ^ (p + 1)). { rewrite pow_add, pow_1. apply (Rmult_lt_reg_r (ulp p x)); [exact U|]. rewrite <- Ex in E2. lra. }
  assert (P2 : IZR (2 ^ Z.of_nat (p + 1)) = 2 ^ (p + 1)) by (rewrite <- pow_IZR; reflexivity).
  apply Rabs_def2 in Ey. apply Z.abs_le. split; apply le_IZR || (apply Z.lt_succ_r, lt_IZR; rewrite succ_IZR).
  - rewrite opp_IZR, P2. assert (L : (- 2 ^ Z.of_nat (p + 1) < Int_part y + 1)%Z) by (apply lt_IZR; rewrite opp_IZR, plus_IZR, P2; lra). rewrite <- P2, <- opp_IZR. apply IZR_le. lia.
  - rewrite P2. lra.
Qed.
Lemma cut_root p (z : C) : Cmod ((cut p (fst z), cut p (snd z)) - z)%C <= (1 / 2) ^ p * Cmod z.
Proof.
  assert (H0 : 0 < (1 / 2) ^ p) by (apply pow_lt; lra). pose proof (cut_err p (fst z)) as H1. pose proof (cut_err p (snd z)) as H2. unfold rel in H1, H2. set (u := (1 / 2) ^ p) in *.
  unfold Cmod. rewrite <- (sqrt_square u) by lra. rewrite <- sqrt_mult; [|nra|nra]. apply sqrt_le_1_alt. cbn [fst snd Cminus Cplus Copp].
  set (a := cut p (fst z) - fst z) in *. set (b := cut p (snd z) - snd z) in *. change (cut p (fst z) + - fst z) with a. change (cut p (snd z) + - snd z) with b.
  assert (S : forall s t, Rabs s <= u * Rabs t -> s ^ 2 <= u * u * t ^ 2).
  { intros s t H. rewrite <- (pow2_abs s), <- (pow2_abs t). pose proof (Rabs_pos s). pose proof (Rabs_pos t). assert (0 <= u * Rabs t) by (apply Rmult_le_pos; lra). nra. }
  pose proof (S _ _ H1). pose proof (S _ _ H2). lra.
Qed.
Lemma binary_precise p : precise ((1 / 2) ^ p) (binary p).
Proof. split; try reflexivity; try (intros; apply cut_err). intros z. apply cut_root. Qed.
Lemma exact_precise u : 0 <= u -> precise u exact_arithmetic.
Proof.
  intros Hu. assert (H : forall x, rel u x x). { intros x. unfold rel. rewrite Rminus_eq_0, Rabs_R0. apply Rmult_le_pos; [exact Hu|apply Rabs_pos]. }
  split; try reflexivity; try (intros; apply H). intros z. cbn [ar_root exact_arithmetic]. replace (@csqrt R ROps z - @csqrt R ROps z)%C with (RtoC 0) by (apply CLemmas.C_eq; cbn; ring). rewrite Cmod_0. apply Rmult_le_pos; [exact Hu|apply Cmod_ge_0].
Qed.
Lemma ev_bits P : eventually P -> exists p0, forall p, (p0 <= p)%nat -> P (binary p).
Proof.
  intros (u & Hu & H). destruct (pow_lt_1_zero (1 / 2) ltac:(rewrite Rabs_pos_eq; lra) u Hu) as [p0 K]. exists p0. intros p Hp. apply H. eapply precise_mono; [|exact (binary_precise p)].
  specialize (K p Hp). rewrite Rabs_pos_eq in K by (apply pow_le; lra). lra.
Qed.
