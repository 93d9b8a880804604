(** Rounding to nearest is precise and absorbing (C98). *)
From Coq Require Import Reals ZArith Lra Lia List Bool Arith.
From Coquelicot Require Import Coquelicot.
From Verif Require Import Ops ROps Spec ModelRound RoundSpec RoundOps RoundBinary SmallSpec.
Open Scope R_scope.
Arguments Cmod x%C_scope.

Lemma half_pos p : 0 < (1 / 2) ^ p. Proof. apply pow_lt; lra. Qed.
Lemma half_two p : (1 / 2) ^ p * 2 ^ p = 1. Proof. rewrite <- Rpow_mult_distr. replace (1 / 2 * 2) with 1 by field. apply pow1. Qed.
Lemma ulp_le p x : x <> 0 -> ulp p x <= (1 / 2) ^ p * Rabs x.
Proof.
  intros Hx. pose proof (half_pos p). pose proof (half_two p) as P. pose proof (exponent_ok x Hx) as [E1 _]. rewrite (ulp_eq p) in E1.
  apply Rle_trans with ((1 / 2) ^ p * (ulp p x * 2 ^ p)); [|apply Rmult_le_compat_l; lra]. replace ((1 / 2) ^ p * (ulp p x * 2 ^ p)) with (ulp p x * ((1 / 2) ^ p * 2 ^ p)) by ring. rewrite P. lra.
Qed.
Lemma near_err p x : rel ((1 / 2) ^ p) (near p x) x.
Proof.
  unfold rel, near. destruct (Req_EM_T x 0) as [->|Hx]; [rewrite Rminus_eq_0, Rabs_R0; lra|].
  pose proof (ulp_pos p x) as U. eapply Rle_trans; [|exact (ulp_le p x Hx)]. pose proof (base_Int_part (x / ulp p x + 1 / 2)) as [B1 B2].
  set (i := IZR (Int_part (x / ulp p x + 1 / 2))) in *. replace (i * ulp p x - x) with ((i - x / ulp p x) * ulp p x) by (field; lra).
  rewrite Rabs_mult, (Rabs_pos_eq (ulp p x)) by lra. assert (D : Rabs (i - x / ulp p x) <= 1) by (apply Rabs_le; split; lra). apply Rle_trans with (1 * ulp p x); [apply Rmult_le_compat_r; lra|lra].
Qed.
Lemma near_root p (z : C) : Cmod ((near p (fst z), near p (snd z)) - z)%C <= (1 / 2) ^ p * Cmod z.
Proof.
  pose proof (half_pos p) as H0. pose proof (near_err p (fst z)) as H1. pose proof (near_err p (snd z)) as H2. unfold rel in H1, H2. set (u := (1 / 2) ^ p) in *.
  unfold Cmod. rewrite <- (sqrt_square u) by lra. rewrite <- sqrt_mult; [|nra|nra]. apply sqrt_le_1_alt. cbn [fst snd Cminus Cplus Copp].
  set (a := near p (fst z) - fst z) in *. set (b := near p (snd z) - snd z) in *. change (near p (fst z) + - fst z) with a. change (near p (snd z) + - snd z) with b.
  assert (S : forall s t, Rabs s <= u * Rabs t -> s ^ 2 <= u * u * t ^ 2).
  { intros s t H. rewrite <- (pow2_abs s), <- (pow2_abs t). pose proof (Rabs_pos s). pose proof (Rabs_pos t). assert (0 <= u * Rabs t) by (apply Rmult_le_pos; lra). nra. }
  pose proof (S _ _ H1). pose proof (S _ _ H2). lra.
Qed.
Lemma nearest_precise p : precise ((1 / 2) ^ p) (nearest p).
Proof. split; try reflexivity; try (intros; apply near_err). intros z. apply near_root. Qed.

Lemma pz_mono a b : (a <= b)%Z -> powerRZ 2 a <= powerRZ 2 b.
Proof. intros H. destruct (Z.eq_dec a b) as [->|N]; [lra|]. rewrite !powerRZ_Rpower by lra. left. apply Rpower_lt; [lra|]. apply IZR_lt. lia. Qed.
Lemma pz_inv a b : powerRZ 2 a < powerRZ 2 b -> (a < b)%Z.
Proof. intros H. destruct (Z_lt_le_dec a b) as [L|L]; [exact L|]. pose proof (pz_mono b a L). lra. Qed.
Lemma pz_pos a : 0 < powerRZ 2 a. Proof. apply powerRZ_lt. lra. Qed.
Lemma pz_int a b : (b <= a)%Z -> powerRZ 2 a = IZR (2 ^ (a - b)) * powerRZ 2 b.
Proof. intros H. replace a with ((a - b) + b)%Z at 1 by lia. rewrite powerRZ_add by lra. f_equal. rewrite <- (Z2Nat.id (a - b)) by lia. rewrite <- pow_IZR, <- pow_powerRZ. reflexivity. Qed.
Lemma near_bits p x : exists m q : Z, (Z.abs m <= 2 ^ Z.of_nat (p + 1))%Z /\ near p x = IZR m * powerRZ 2 q.
Proof.
  unfold near. destruct (Req_EM_T x 0) as [->|Hx]; [exists 0%Z, 0%Z; split; [apply Z.pow_nonneg; lia|ring]|].
  exists (Int_part (x / ulp p x + 1 / 2)), (exponent x - Z.of_nat p)%Z. split; [|reflexivity].
  pose proof (ulp_pos p x) as U. pose proof (exponent_ok x Hx) as [_ E2]. rewrite powerRZ_add, (ulp_eq p) in E2 by lra. change (powerRZ 2 1) with (2 * 1) in E2. pose proof (base_Int_part (x / ulp p x + 1 / 2)) as [B1 B2].
  set (y := x / ulp p x) in *. assert (Ex : x = y * ulp p x) by (unfold y; field; lra). rewrite Ex, Rabs_mult, (Rabs_pos_eq (ulp p x)) in E2 by lra.
  assert (Ey : Rabs y < 2 ^ (p + 1)). { rewrite pow_add, pow_1. apply (Rmult_lt_reg_r (ulp p x)); [exact U|]. rewrite <- Ex in E2. lra. }
  assert (P2 : IZR (2 ^ Z.of_nat (p + 1)) = 2 ^ (p + 1)) by (rewrite <- pow_IZR; reflexivity).
  apply Rabs_def2 in Ey. set (j := Int_part (y + 1 / 2)) in *. set (Q := (2 ^ Z.of_nat (p + 1))%Z) in *.
  assert (L1 : (- Q < j + 1)%Z) by (apply lt_IZR; rewrite opp_IZR, plus_IZR, P2; lra). assert (L2 : (j < Q + 1)%Z) by (apply lt_IZR; rewrite plus_IZR, P2; lra). lia.
Qed.
Lemma near_of p x m : x <> 0 -> Rabs (x - IZR m * ulp p x) < ulp p x / 2 -> near p x = IZR m * ulp p x.
Proof.
  intros Hx H. unfold near. destruct (Req_EM_T x 0) as [E|_]; [contradiction|]. f_equal. f_equal. pose proof (ulp_pos p x) as U.
  assert (K : Rabs (x / ulp p x - IZR m) < 1 / 2). { replace (x / ulp p x - IZR m) with ((x - IZR m * ulp p x) / ulp p x) by (field; lra). unfold Rdiv at 1. rewrite Rabs_mult, (Rabs_pos_eq (/ ulp p x)) by (left; now apply Rinv_0_lt_compat). apply (Rmult_lt_reg_r (ulp p x)); [exact U|]. rewrite Rmult_assoc, Rinv_l by lra. lra. }
  apply Rabs_def2 in K. pose proof (base_Int_part (x / ulp p x + 1 / 2)) as [B1 B2].
  set (j := Int_part (x / ulp p x + 1 / 2)) in *. assert (L1 : (j < m + 1)%Z) by (apply lt_IZR; rewrite plus_IZR; lra). assert (L2 : (m < j + 1)%Z) by (apply lt_IZR; rewrite plus_IZR; lra). lia.
Qed.
Lemma nearest_absorbing p : absorbing ((1 / 2) ^ (p + 3)) (nearest p).
Proof.
  intros a b y. cbn [radd ar_ops nearest nearest_ops]. destruct (near_bits p (a + b)) as (m & q & Hm & Et). set (t := near p (a + b)) in *. clearbody t. intros Hy.
  destruct (Req_dec t 0) as [Z|Nt].
  { rewrite Z, Rabs_R0, Rmult_0_r in Hy. assert (y = 0) as -> by (pose proof (Rabs_pos y); destruct (Req_dec y 0) as [?|N]; [assumption|]; pose proof (Rabs_pos_lt y N); lra). rewrite Z, Rplus_0_r. unfold near. destruct (Req_EM_T 0 0); [reflexivity|lra]. }
  set (e := exponent t). pose proof (exponent_ok t Nt) as [E1 E2]. fold e in E1, E2. set (g := powerRZ 2 (e - Z.of_nat p)).
  assert (Hg : 0 < g) by apply pz_pos.
  assert (Pe : powerRZ 2 e = g * 2 ^ p) by (unfold g; rewrite pow_powerRZ, <- powerRZ_add by lra; f_equal; lia).
  assert (Pe1 : powerRZ 2 (e + 1) = 2 * (g * 2 ^ p)) by (rewrite powerRZ_add by lra; rewrite Pe; change (powerRZ 2 1) with (2 * 1); ring).
  assert (P2 : forall k, IZR (2 ^ Z.of_nat k) = 2 ^ k) by (intros k; rewrite <- pow_IZR; reflexivity).
  (* t is a multiple of g *)
  assert (T : exists M : Z, t = IZR M * g).
  { destruct (Z_le_gt_dec (e - Z.of_nat p) q) as [L|L].
    - exists (m * 2 ^ (q - (e - Z.of_nat p)))%Z. rewrite Et, (pz_int q (e - Z.of_nat p) L), mult_IZR. fold g. ring.
    - assert (B : Rabs t <= powerRZ 2 e).
      { rewrite Et, Rabs_mult, (Rabs_pos_eq (powerRZ 2 q)) by (left; apply pz_pos). rewrite <- abs_IZR. apply IZR_le in Hm. rewrite P2 in Hm.
        apply Rle_trans with (2 ^ (p + 1) * powerRZ 2 q); [apply Rmult_le_compat_r; [left; apply pz_pos|exact Hm]|]. rewrite pow_powerRZ, <- powerRZ_add by lra. apply pz_mono. lia. }
      assert (Ea : Rabs t = g * 2 ^ p) by lra. destruct (Rcase_abs t) as [Ln|Lp].
      + exists (- 2 ^ Z.of_nat p)%Z. rewrite Rabs_left in Ea by exact Ln. rewrite opp_IZR, P2. lra.
      + exists (2 ^ Z.of_nat p)%Z. rewrite Rabs_right in Ea by exact Lp. rewrite P2. lra. }
  destruct T as [M ET].
  assert (Hp2 : 0 < 2 ^ p) by (apply pow_lt; lra).
  assert (HM : Rabs t <= 2 * (g * 2 ^ p) - g).
  { rewrite ET, Rabs_mult, (Rabs_pos_eq g), <- abs_IZR in * by lra. assert (L : (Z.abs M < 2 ^ Z.of_nat (p + 1))%Z).
    { apply lt_IZR. rewrite P2, pow_add, pow_1. apply (Rmult_lt_reg_r g); [exact Hg|]. lra. }
    assert (L' : (Z.abs M <= 2 ^ Z.of_nat (p + 1) - 1)%Z) by lia. apply IZR_le in L'. rewrite minus_IZR, P2, pow_add, pow_1 in L'.
    apply Rle_trans with ((2 ^ p * 2 - 1) * g); [apply Rmult_le_compat_r; lra|lra]. }
  assert (Yb : Rabs y < g / 4).
  { eapply Rle_lt_trans; [exact Hy|]. rewrite pow_add. pose proof (half_pos p) as Hh. pose proof (half_two p) as HT. replace ((1 / 2) ^ 3) with (1 / 8) by (cbn; lra).
    assert (K : (1 / 2) ^ p * Rabs t < (1 / 2) ^ p * (2 * (g * 2 ^ p))) by (apply Rmult_lt_compat_l; lra). replace ((1 / 2) ^ p * (2 * (g * 2 ^ p))) with (2 * g * ((1 / 2) ^ p * 2 ^ p)) in K by ring. rewrite HT in K. lra. }
  set (s := t + y). pose proof (Rabs_triang t y) as S1. fold s in S1. pose proof (Rabs_triang_inv t (- y)) as S2. rewrite Rabs_Ropp in S2. replace (t - - y) with s in S2 by (unfold s; ring).
  assert (G1 : 1 <= 2 ^ p) by (apply pow_R1_Rle; lra). assert (G2 : g <= g * 2 ^ p) by (rewrite <- (Rmult_1_r g) at 1; apply Rmult_le_compat_l; lra).
  assert (Ns : s <> 0) by (intros Z; rewrite Z, Rabs_R0 in S2; lra).
  pose proof (exponent_ok s Ns) as [F1 F2].
  assert (U1 : (exponent s < e + 1)%Z) by (apply pz_inv; lra).
  assert (Pm : powerRZ 2 (e - 1) = g * 2 ^ p / 2) by (replace (e - 1)%Z with (e + -1)%Z by lia; rewrite powerRZ_add by lra; rewrite Pe; change (powerRZ 2 (-1)) with (/ (2 * 1)); field).
  assert (U2 : (e - 1 < exponent s + 1)%Z) by (apply pz_inv; lra).
  assert (Ug : ulp p s = g \/ ulp p s = g / 2).
  { assert (exponent s = e \/ exponent s = e - 1)%Z as [X|X] by lia; unfold ulp; rewrite X; [left; reflexivity|right]. replace (e - 1 - Z.of_nat p)%Z with ((e - Z.of_nat p) + -1)%Z by lia. rewrite powerRZ_add by lra. fold g. change (powerRZ 2 (-1)) with (/ (2 * 1)). lra. }
  destruct Ug as [Ug|Ug].
  - rewrite (near_of p s M Ns); rewrite Ug; [lra|]. replace (s - IZR M * g) with y by (unfold s; lra). lra.
  - rewrite (near_of p s (2 * M) Ns); rewrite Ug, mult_IZR; [lra|]. replace (s - 2 * IZR M * (g / 2)) with y by (unfold s; lra). lra.
Qed.
