(** The torch backend: the coefficient of an element depends on the batch (C28). *)
From Coq Require Import Reals ZArith List Bool String Arith Lia Lra.
From Coquelicot Require Import Coquelicot.
From Verif Require Import Ops ROps Spec StackSpec CLemmas CTrig Tensor TensorProofs ModelSpecial ModelMie TorchSpec TorchProofs BesselProofs TorchLossless
  ModelBatch BroadcastSpec BroadcastProofs BatchReal TruncProofs TorchBatch ExampleBatch StackConsequences.
Import ListNotations.
Open Scope list_scope.
Open Scope R_scope.
Open Scope C_scope.

(** ** index-matched element: a_1 in terms of the two depths *)
Section Matched.
  Variables (z p q s Y0 Y1 : C).
  Hypothesis Hz : z <> 0.
  Variables (jy jm yy : nat -> C).
  Hypothesis (E1 : jy 1%nat = p) (E0 : jy 0%nat = s) (F1 : jm 1%nat = q) (F0 : jm 0%nat = s) (G1 : yy 1%nat = Y1) (G0 : yy 0%nat = Y0).
  Let W := Y1 * s - Y0 * q.
  Let r : @radial R := @radial_of7 R ROps z z (RtoC 1) (RtoC 1) jy jm jm jm yy yy yy 1.
  Lemma matched_a1 : W <> 0 -> s * (q - p) - Ci * W <> 0 ->
    an (@miecoef_core R ROps r) = s * (q - p) / (s * (q - p) - Ci * W).
  Proof.
    intros HW HD.
    assert (R1 : psi_y r = z * p /\ dpsi_y r = z * s - p /\ xi_y r = z * (p + Ci * Y1) /\ dxi_y r = z * (s + Ci * Y0) - (p + Ci * Y1) /\
      psi_m1x r = z * q /\ dpsi_m1x r = z * s - q /\ psi_m2x r = z * q /\ dpsi_m2x r = z * s - q /\
      chi_m2x r = - (z * Y1) /\ dchi_m2x r = Y1 - z * Y0 /\ psi_m2y r = z * q /\ dpsi_m2y r = z * s - q /\
      chi_m2y r = - (z * Y1) /\ dchi_m2y r = Y1 - z * Y0 /\ m1 r = RtoC 1 /\ m2 r = RtoC 1).
    { unfold r, radial_of7, h1_of, f_der_at. flds. cbv zeta. rewrite E1, E0, F1, F0, G1, G0. unfold cofn. rewrite rofn_R.
      change (@cofr R ROps (INR (1 + 1))) with (RtoC (INR 2)). change (INR 2) with (1 + 1)%R. rewrite RtoC_plus.
      change (@cmul R ROps (RtoC 1) z) with (RtoC 1 * z). replace (RtoC 1 * z) with z by ring. toR.
      change (@ci R ROps) with Ci. repeat split; try reflexivity; eqC; field; exact Hz. }
    destruct R1 as (P1 & P2 & P3 & P4 & P5 & P6 & P7 & P8 & P9 & P10 & P11 & P12 & P13 & P14 & P15 & P16).
    assert (EX : Xa r = z * z * W). { unfold Xa. rewrite P15, P16, P5, P6, P9, P10. unfold W. ring. }
    assert (EY : Ya r = 0). { unfold Ya. rewrite P15, P16, P5, P6, P7, P8. ring. }
    assert (ED : det_a r = z * z * W * (z * z) * (s * (q - p) - Ci * W)).
    { unfold det_a. rewrite EX, EY, P16, P3, P4, P11, P12. unfold W. ring. }
    assert (HDa : det_a r <> 0). { rewrite ED. repeat apply Cmult_neq_0; assumption. }
    rewrite an_closed by exact HDa. rewrite ED, EX, EY, P16, P1, P2, P11, P12. eqC. field. repeat split; assumption.
  Qed.
End Matched.

Section Depths.
  Variable z : R.
  Hypothesis Hz : (1 / 1000 <= z <= 1)%R.
  Lemma jrec_nz M N : (N < M)%nat -> @jrec_at R ROps (RtoC z) M N <> RtoC 0.
  Proof.
    intros H. unfold jrec_at. destruct (jrec_grow z Hz M (M - N - 1) ltac:(lia)) as (g & h & E & Hg & _).
    replace (M - N)%nat with (S (M - N - 1)) by lia. rewrite E. cbn [fst]. apply RtoC_neq. lra.
  Qed.
  Lemma casorati N M : (1 <= N < M)%nat ->
    @jrec_at R ROps (RtoC z) N 0 * @jrec_at R ROps (RtoC z) M 1 - @jrec_at R ROps (RtoC z) N 1 * @jrec_at R ROps (RtoC z) M 0 <> RtoC 0.
  Proof.
    intros HNM. set (F := @jrec_at R ROps (RtoC z) N). set (G := @jrec_at R ROps (RtoC z) M).
    assert (St : forall n, (n < N)%nat -> F 0%nat * G 1%nat - F 1%nat * G 0%nat = F n * G (S n) - F (S n) * G n).
    { induction n as [|n IH]; intros Hn; [reflexivity|]. rewrite IH by lia.
      pose proof (jrec_recurrence (RtoC z) N (S n) ltac:(lia)) as A. pose proof (jrec_recurrence (RtoC z) M (S n) ltac:(lia)) as B.
      fold F in A. fold G in B. replace (S n - 1)%nat with n in A, B by lia. replace (S n + 1)%nat with (S (S n)) in A, B by lia.
      assert (A' : F n = Cn (2 * S n + 1) / RtoC z * F (S n) - F (S (S n))) by (rewrite <- A; ring).
      assert (B' : G n = Cn (2 * S n + 1) / RtoC z * G (S n) - G (S (S n))) by (rewrite <- B; ring).
      rewrite A', B'. ring. }
    rewrite (St (N - 1)%nat ltac:(lia)). replace (S (N - 1)) with N by lia.
    assert (E0 : F N = RtoC 0). { unfold F, jrec_at. rewrite Nat.sub_diag. reflexivity. }
    rewrite E0. unfold F. rewrite jrec_last by lia.
    replace (- RtoC (@rtenth R ROps 25) * G N - RtoC 0 * G (N - 1)%nat) with (- (RtoC (@rtenth R ROps 25) * G N)) by ring.
    intros E. assert (E' : RtoC (@rtenth R ROps 25) * G N = RtoC 0) by (transitivity (- (- (RtoC (@rtenth R ROps 25) * G N))); [ring|rewrite E; ring]).
    revert E'. apply Cmult_neq_0; [apply RtoC_neq; pose proof (rtenth_pos 25); lra|apply jrec_nz; lia].
  Qed.
  (* two depths never give the same j_1 *)
  Lemma j1_depth n_max d d' : (1 <= n_max)%nat -> (1 <= d < d')%nat ->
    @sph_jn_via_rec R ROps n_max d (RtoC z) 1 <> @sph_jn_via_rec R ROps n_max d' (RtoC z) 1.
  Proof.
    intros Hn Hd. rewrite !sph_jn_def by exact (z_e10 z Hz). intros E.
    pose proof (jrec_nz (n_max + d) 0 ltac:(lia)) as HF. pose proof (jrec_nz (n_max + d') 0 ltac:(lia)) as HG.
    pose proof (casorati (n_max + d) (n_max + d') ltac:(lia)) as HC.
    set (F := @jrec_at R ROps (RtoC z) (n_max + d) : nat -> C) in *. set (G := @jrec_at R ROps (RtoC z) (n_max + d') : nat -> C) in *.
    apply HC.
    assert (Hs : Csin (RtoC z) / RtoC z <> RtoC 0).
    { rewrite Csin_R, <- RtoC_div by lra. apply RtoC_neq. pose proof PI_RGT_0. pose proof PI2_1. unfold PI2 in *.
      assert (0 < sin z)%R by (apply sin_gt_0; lra). apply Rgt_not_eq, Rdiv_lt_0_compat; lra. }
    set (s := Csin (RtoC z) / RtoC z) in *.
    assert (E' : (F 0%nat * G 1%nat - F 1%nat * G 0%nat) * s = RtoC 0).
    { transitivity (F 0%nat * G 0%nat * (G 1%nat * (s / G 0%nat) - F 1%nat * (s / F 0%nat))); [field; auto|]. rewrite E. eqC. ring. }
    destruct (Ceq_dec (F 0%nat * G 1%nat - F 1%nat * G 0%nat) (RtoC 0)) as [H0|H0]; [exact H0|]. exfalso. exact (Cmult_neq_0 _ _ H0 Hs E').
  Qed.
End Depths.

(** ** the calls *)
Lemma csqrt_1 : @csqrt R ROps (RtoC 1) = RtoC 1.
Proof.
  unfold csqrt. toC. rewrite Cmod_R, Rabs_R1. cbn [fst snd RtoC rsqrt rdiv radd rsub ropp rltb rzero rone rtwo ROps]. unfold rsub, rtwo. cbn [radd ropp rone ROps].
  rewrite (proj2 (Rltb_false _ _)) by lra. replace ((1 + 1) / (1 + 1))%R with 1%R by field. replace ((1 + - (1)) / (1 + 1))%R with 0%R by field.
  now rewrite sqrt_1, sqrt_0.
Qed.
Lemma csqrt_400 : @csqrt R ROps (RtoC 400) = RtoC 20.
Proof.
  replace (RtoC 400) with (RtoC (20 * 20) * RtoC 1) by (rewrite <- RtoC_mult; f_equal; ring).
  rewrite csqrt_scale by lra. rewrite csqrt_1. now rewrite <- RtoC_mult, Rmult_1_r.
Qed.
(* an index-matched sphere alone, and together with a high-index sphere *)
Definition half := (1 / 2)%R.
Definition alone : @call R := layer_call (rv [1]) (rm [[half]]) (cm [[1]]) (cs 1) "torch" (Some 1%Z).
Definition together : @call R := layer_call (rv [1]) (rm [[half]; [half]]) (cm [[1]; [400]]) (cs 1) "torch" (Some 1%Z).
Definition r_of (c : @call R) := match a_r_layers c with Some r => r | None => a_k0 c end.
Definition e_of (c : @call R) := match a_eps_layers c with Some r => r | None => a_env c end.
Lemma alone_valid : valid (a_k0 alone) (r_of alone) (e_of alone) (a_env alone) 1 1 1 (fun p l _ => [p; l]) (fun _ => []).
Proof. split; try reflexivity. intros p l Hp Hl. lia. Qed.
Lemma together_valid : valid (a_k0 together) (r_of together) (e_of together) (a_env together) 1 2 1 (fun p l _ => [p; l]) (fun _ => []).
Proof. split; try reflexivity. intros p l Hp Hl. lia. Qed.
Definition el1 : elem := (1%R, RtoC 1, [(half, RtoC 1)]).
Definition el2 : elem := (1%R, RtoC 1, [(half, RtoC 400)]).
Ltac evals := unfold arg_y, arg_m1x, arg_m2x, arg_m2y, e_x, e_y, e_m1, e_m2, e_k, e_first, e_last, el1, el2, half; cbn [fst snd hd last];
  rewrite ?csqrt_1, ?csqrt_400; toC.
Lemma x_el1 : e_x el1 = RtoC half. Proof. evals. change (@eq C (RtoC 1 * RtoC 1 * RtoC (1/2)) (RtoC (1/2))). ring. Qed.
Lemma x_el2 : e_x el2 = RtoC half. Proof. evals. change (@eq C (RtoC 1 * RtoC 1 * RtoC (1/2)) (RtoC (1/2))). ring. Qed.
Lemma m_el1 : e_m1 el1 = RtoC 1. Proof. evals. change (@eq C (RtoC 1 / RtoC 1) (RtoC 1)). field. apply RtoC_neq. lra. Qed.
Lemma m_el2 : e_m1 el2 = RtoC 20. Proof. evals. change (@eq C (RtoC 20 / RtoC 1) (RtoC 20)). field. apply RtoC_neq. lra. Qed.
Lemma mx_el1 : arg_m1x el1 = RtoC half.
Proof. unfold arg_m1x. rewrite m_el1, x_el1. change (@eq C (RtoC 1 * RtoC half) (RtoC half)). ring. Qed.
Lemma mx_el2 : arg_m1x el2 = RtoC 10.
Proof. unfold arg_m1x. rewrite m_el2, x_el2. change (@eq C (RtoC 20 * RtoC half) (RtoC 10)). rewrite <- RtoC_mult. f_equal. unfold half. field. Qed.

Lemma n_add_10 : @n_add_auto R ROps 10 = 15%nat.
Proof.
  unfold n_add_auto. cbn [rtrunc rmul rdiv rofZ ROps]. replace (3 / 2 * 10)%R with (IZR 15) by field.
  assert (E : Rtrunc (IZR 15) = 15%Z).
  { unfold Rtrunc. destruct (Rle_dec 0 (IZR 15)) as [_|H]; [|exfalso; apply H; lra].
    destruct (base_Int_part (IZR 15)) as [A B]. assert (Int_part (IZR 15) <= 15)%Z by (apply le_IZR; lra).
    assert (14 < Int_part (IZR 15))%Z by (apply lt_IZR; lra). lia. }
  rewrite E. reflexivity.
Qed.

Lemma coeffs_el1 d d' : (1 <= d)%nat -> (1 <= d')%nat -> exists p q s W : R,
  @sph_jn_via_rec R ROps 1 d (RtoC half) 1 = RtoC p /\ @sph_jn_via_rec R ROps 1 d' (RtoC half) 1 = RtoC q /\
  (0 < s)%R /\ W <> 0%R /\
  an (torch_coeffs 1 d d' d' d' el1 1) = (RtoC s * (RtoC q - RtoC p) / (RtoC s * (RtoC q - RtoC p) - Ci * RtoC W))%C.
Proof.
  intros Hd Hd'. assert (Hz : (1 / 1000 <= half <= 1)%R) by (unfold half; lra).
  destruct (jn_small_facts half Hz 1 d ltac:(lia)) as (s & p & E0 & E1 & Hs & _ & Es).
  destruct (jn_small_facts half Hz 1 d' ltac:(lia)) as (s' & q & F0 & F1 & _ & _ & Es').
  assert (H : s' = s) by congruence. rewrite H in F0. clear Es' Es.
  pose proof (W1_nz half Hz 1 d' ltac:(lia)) as HW. rewrite F0, F1 in HW.
  rewrite (sph_yn_0 (RtoC half)), (sph_yn_1 (RtoC half)) in HW by exact (z_e10 half Hz).
  assert (Y0e : @sph_yn R ROps (RtoC half) 0 = RtoC (- (cos half / half))).
  { rewrite (sph_yn_0 (RtoC half)) by exact (z_e10 half Hz). rewrite Ccos_R, <- RtoC_div by (unfold half; lra). now rewrite RtoC_opp. }
  assert (Y1e : exists y1 : R, @sph_yn R ROps (RtoC half) 1 = RtoC y1).
  { rewrite (sph_yn_1 (RtoC half)) by exact (z_e10 half Hz). rewrite Ccos_R, Csin_R, <- RtoC_mult.
    rewrite <- !RtoC_div by (unfold half; lra). rewrite <- RtoC_opp, <- RtoC_minus. eauto. }
  destruct Y1e as (y1 & Y1e). set (y0 := (- (cos half / half))%R) in *.
  exists p, q, s, (y1 * s - y0 * q)%R. split; [exact E1|]. split; [exact F1|]. split; [exact Hs|].
  assert (HW' : (y1 * s - y0 * q)%R <> 0%R).
  { intros E. apply HW. rewrite <- (sph_yn_0 (RtoC half)), <- (sph_yn_1 (RtoC half)) by exact (z_e10 half Hz). rewrite Y0e, Y1e.
    rewrite <- !RtoC_mult, <- RtoC_minus. f_equal. lra. }
  split; [exact HW'|].
  assert (EW : RtoC (y1 * s - y0 * q) = RtoC y1 * RtoC s - RtoC y0 * RtoC q) by now rewrite RtoC_minus, !RtoC_mult.
  rewrite EW. unfold torch_coeffs.
  change (e_y el1) with (e_x el1). change (e_m2 el1) with (e_m1 el1). change (arg_m2x el1) with (arg_m1x el1). change (arg_m2y el1) with (arg_m1x el1).
  change (arg_y el1) with (e_x el1). rewrite mx_el1, x_el1, m_el1.
  apply matched_a1; auto.
  - apply RtoC_neq. unfold half. lra.
  - rewrite <- EW. now apply RtoC_neq.
  - rewrite <- EW. intros E. apply HW'. apply (f_equal (@snd R R)) in E. cbn in E. lra.
Qed.

Lemma torch_depends sj sy jr : exists o o', mie_coefficients sj sy jr alone = Ok o /\ mie_coefficients sj sy jr together = Ok o' /\
  element (a_k0 alone) (r_of alone) (e_of alone) (a_env alone) (fun p l _ => [p; l]) (fun _ => []) 1 0 0 = el1 /\
  element (a_k0 together) (r_of together) (e_of together) (a_env together) (fun p l _ => [p; l]) (fun _ => []) 1 0 0 = el1 /\
  at_ (o_a o) [0; 0; 0]%nat = RtoC 0 /\ at_ (o_a o') [0; 0; 0]%nat <> RtoC 0.
Proof.
  destruct (torch_tail sj sy jr alone _ _ _ _ _ _ _ 1%Z eq_refl eq_refl eq_refl alone_valid ltac:(lia) ltac:(lia) ltac:(lia) ltac:(lia) eq_refl)
    as (o & zy & z1 & z2 & z3 & Ho & _ & My & M1 & M2 & M3 & Ia & _).
  destruct (torch_tail sj sy jr together _ _ _ _ _ _ _ 1%Z eq_refl eq_refl eq_refl together_valid ltac:(lia) ltac:(lia) ltac:(lia) ltac:(lia) eq_refl)
    as (o' & zy' & z1' & z2' & z3' & Ho' & _ & My' & M1' & M2' & M3' & Ia' & _).
  exists o, o'. split; [exact Ho|]. split; [exact Ho'|]. split; [reflexivity|]. split; [reflexivity|].
  cbv zeta in *.
  assert (Hh : @cabs R ROps (RtoC half) = half) by (rewrite cabs_C, Cmod_R; apply Rabs_pos_eq; unfold half; lra).
  assert (Ht : @cabs R ROps (RtoC 10) = 10%R) by (rewrite cabs_C, Cmod_R; apply Rabs_pos_eq; lra).
  (* alone: all maxima are 1/2 *)
  assert (A1 : forall v f, max_over2 v 1 1 (fun p k => @cabs R ROps (f (element (a_k0 alone) (r_of alone) (e_of alone) (a_env alone) (fun p l _ => [p; l]) (fun _ => []) 1 p k))) ->
     f el1 = RtoC half -> @n_add_auto R ROps v = 10%nat).
  { intros v f [_ (p & k & Hp & Hk & <-)] Ef. assert (p = 0%nat) as -> by lia. assert (k = 0%nat) as -> by lia.
    change (element _ _ _ _ _ _ _ _ _) with el1. rewrite Ef, Hh. apply n_add_small. unfold half. lra. }
  assert (A2 : forall v f, max_over2 v 2 1 (fun p k => @cabs R ROps (f (element (a_k0 together) (r_of together) (e_of together) (a_env together) (fun p l _ => [p; l]) (fun _ => []) 1 p k))) ->
     f el1 = RtoC half -> f el2 = RtoC half -> @n_add_auto R ROps v = 10%nat).
  { intros v f [_ (p & k & Hp & Hk & <-)] Ef Ef2. assert (k = 0%nat) as -> by lia. destruct p as [|[|p]]; [| |lia].
    - change (element _ _ _ _ _ _ _ _ _) with el1. rewrite Ef, Hh. apply n_add_small. unfold half. lra.
    - change (element _ _ _ _ _ _ _ _ _) with el2. rewrite Ef2, Hh. apply n_add_small. unfold half. lra. }
  assert (A3 : forall v f, max_over2 v 2 1 (fun p k => @cabs R ROps (f (element (a_k0 together) (r_of together) (e_of together) (a_env together) (fun p l _ => [p; l]) (fun _ => []) 1 p k))) ->
     f el1 = RtoC half -> f el2 = RtoC 10 -> @n_add_auto R ROps v = 15%nat).
  { intros v f [Hmax (p & k & Hp & Hk & <-)] Ef Ef2. assert (k = 0%nat) as -> by lia. destruct p as [|[|p]]; [| |lia].
    - exfalso. specialize (Hmax 1%nat 0%nat ltac:(lia) ltac:(lia)). cbv beta in Hmax.
      change (element (a_k0 together) (r_of together) (e_of together) (a_env together) (fun p l _ => [p; l]) (fun _ => []) 1 1 0) with el2 in Hmax.
      change (element (a_k0 together) (r_of together) (e_of together) (a_env together) (fun p l _ => [p; l]) (fun _ => []) 1 0 0) with el1 in Hmax.
      rewrite Ef, Ef2, Hh, Ht in Hmax. unfold half in Hmax. lra.
    - change (element _ _ _ _ _ _ _ _ _) with el2. rewrite Ef2, Ht. exact n_add_10. }
  rewrite (A1 _ arg_y My x_el1), (A1 _ arg_m1x M1 mx_el1), (A1 _ arg_m2x M2 mx_el1), (A1 _ arg_m2y M3 mx_el1) in Ia.
  rewrite (A2 _ arg_y My' x_el1 x_el2), (A3 _ arg_m1x M1' mx_el1 mx_el2), (A3 _ arg_m2x M2' mx_el1 mx_el2), (A3 _ arg_m2y M3' mx_el1 mx_el2) in Ia'.
  rewrite (proj2 Ia), (proj2 Ia') by (cbn; lia).
  change (element _ _ _ _ _ _ _ _ _) with el1. change (element (a_k0 together) (r_of together) (e_of together) (a_env together) (fun p l _ => [p; l]) (fun _ => []) 1 0 0) with el1.
  change (Z.to_nat 1) with 1%nat. split.
  - destruct (coeffs_el1 10 10 ltac:(lia) ltac:(lia)) as (p & q & s & W & Ep & Eq & Hs & HW & ->).
    assert (Epq : RtoC p = RtoC q) by congruence. rewrite Epq. match goal with |- ?a = ?b => change (@eq C a b) end. unfold Cdiv. ring.
  - destruct (coeffs_el1 10 15 ltac:(lia) ltac:(lia)) as (p & q & s & W & Ep & Eq & Hs & HW & ->).
    assert (Hz : (1 / 1000 <= half <= 1)%R) by (unfold half; lra).
    pose proof (j1_depth half Hz 1 10 15 ltac:(lia) ltac:(lia)) as Hne. rewrite Ep, Eq in Hne.
    assert (Hpq : (q - p)%R <> 0%R) by (intros E; apply Hne; f_equal; lra).
    apply Cmult_neq_0.
    + apply Cmult_neq_0; [apply RtoC_neq; lra|]. rewrite <- RtoC_minus. now apply RtoC_neq.
    + intros E. assert (H1 : (RtoC s * (RtoC q - RtoC p) - Ci * RtoC W) * / (RtoC s * (RtoC q - RtoC p) - Ci * RtoC W) = RtoC 1).
      { apply Cinv_r. intros E2. apply HW. apply (f_equal (@snd R R)) in E2. cbn in E2. lra. }
      rewrite E in H1. rewrite Cmult_0_r in H1. apply (f_equal (@fst R R)) in H1. cbn in H1. lra.
Qed.
Lemma alone_small : backend_is alone "torch" /\ lower (a_which_jn alone) = "recurrence"%string /\ a_n_max alone = Some 1%Z /\
  inputs_of alone = Ok (r_of alone, e_of alone) /\
  valid (a_k0 alone) (r_of alone) (e_of alone) (a_env alone) 1 1 1 (fun p l _ => [p; l]) (fun _ => []) /\
  forall f, In f [arg_y; arg_m1x; arg_m2x; arg_m2y] -> (Cmod (f el1) < 22 / 3)%R.
Proof.
  split; [reflexivity|]. split; [reflexivity|]. split; [reflexivity|]. split; [reflexivity|]. split; [exact alone_valid|].
  intros f Hf.
  assert (E : f el1 = RtoC half).
  { destruct Hf as [<-|[<-|[<-|[<-|[]]]]]; [exact x_el1|exact mx_el1|exact mx_el1|exact mx_el1]. }
  rewrite E. rewrite Cmod_R, Rabs_pos_eq; unfold half; lra.
Qed.
