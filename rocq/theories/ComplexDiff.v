(** Complex derivatives of exp, sin, cos and 1/z (support for C17, C24). *)
From Coq Require Import Reals ZArith Lra Lia Bool List Arith.
From Coquelicot Require Import Coquelicot.
From Verif Require Import Ops ROps Spec CLemmas CTrig.
Open Scope R_scope.

(* complex differentiability: Coquelicot's is_derive over the field C *)
Definition Cderive (f : C -> C) (z l : C) : Prop :=
  @is_derive C_AbsRing (AbsRing_NormedModule C_AbsRing) f z l.

Lemma Cderive_intro (f : C -> C) (z l : C) (M d : R) : 0 < d -> 0 < M ->
  (forall h, Cmod h < d -> Cmod (f (z + h) - f z - h * l)%C <= M * (Cmod h * Cmod h)) -> Cderive f z l.
Proof.
  intros Hd HM H. split; [apply is_linear_scal_l|].
  intros x Hx. apply (@is_filter_lim_locally_unique C_AbsRing (AbsRing_NormedModule C_AbsRing)) in Hx. subst x. intros eps.
  assert (Hp : 0 < Rmin d (eps / M)) by (apply Rmin_glb_lt; [exact Hd|apply Rdiv_lt_0_compat; [apply cond_pos|exact HM]]).
  exists (mkposreal _ Hp). intros y Hy. change C in y.
  set (h := (y - z)%C). assert (Hh : Cmod h < Rmin d (eps / M)) by exact Hy.
  assert (E : y = (z + h)%C) by (unfold h; change (@eq C y (z + (y - z))%C); ring).
  change (Cmod (f y - f z - h * l)%C <= eps * Cmod h). rewrite E.
  eapply Rle_trans; [apply H; eapply Rlt_le_trans; [exact Hh|apply Rmin_l]|].
  assert (Cmod h <= eps / M) by (left; eapply Rlt_le_trans; [exact Hh|apply Rmin_r]).
  pose proof (Cmod_ge_0 h).
  assert (M * Cmod h <= eps).
  { apply Rle_trans with (M * (eps / M)); [apply Rmult_le_compat_l; lra|]. right. field. lra. }
  nra.
Qed.

Lemma Cderive_ext f g z l : (forall x, f x = g x) -> Cderive f z l -> Cderive g z l.
Proof. intros E. apply is_derive_ext, E. Qed.
Lemma Cderive_ext_loc f g z l d : 0 < d -> (forall x, Cmod (x - z)%C < d -> f x = g x) -> Cderive f z l -> Cderive g z l.
Proof. intros Hd E. apply is_derive_ext_loc. exists (mkposreal d Hd). intros y Hy. now apply E. Qed.
Lemma Cderive_val f z l l' : l = l' -> Cderive f z l -> Cderive f z l'.
Proof. now intros ->. Qed.
Lemma Cderive_plus f g z a b : Cderive f z a -> Cderive g z b -> Cderive (fun x => f x + g x)%C z (a + b)%C.
Proof. apply (@is_derive_plus C_AbsRing (AbsRing_NormedModule C_AbsRing)). Qed.
Lemma Cderive_minus f g z a b : Cderive f z a -> Cderive g z b -> Cderive (fun x => f x - g x)%C z (a - b)%C.
Proof. apply (@is_derive_minus C_AbsRing (AbsRing_NormedModule C_AbsRing)). Qed.
Lemma Cderive_opp f z a : Cderive f z a -> Cderive (fun x => - f x)%C z (- a)%C.
Proof. apply (@is_derive_opp C_AbsRing (AbsRing_NormedModule C_AbsRing)). Qed.
Lemma Cderive_mult f g z a b : Cderive f z a -> Cderive g z b -> Cderive (fun x => f x * g x)%C z (a * g z + f z * b)%C.
Proof. intros Hf Hg. apply (@is_derive_mult C_AbsRing f g z a b Hf Hg). intros. apply Cmult_comm. Qed.
Lemma Cderive_id z : Cderive (fun x => x) z (RtoC 1).
Proof. exact (@is_derive_id C_AbsRing z). Qed.
Lemma Cderive_const c z : Cderive (fun _ => c) z (RtoC 0).
Proof. exact (@is_derive_const C_AbsRing (AbsRing_NormedModule C_AbsRing) c z). Qed.
Lemma Cderive_scal c f z a : Cderive f z a -> Cderive (fun x => c * f x)%C z (c * a)%C.
Proof.
  intros H. eapply Cderive_val; [|apply Cderive_mult; [apply Cderive_const|exact H]]. cbv beta. ring.
Qed.
Lemma Cderive_comp f g z a b : Cderive f (g z) a -> Cderive g z b -> Cderive (fun x => f (g x)) z (b * a)%C.
Proof. intros Hf Hg. apply (@is_derive_comp C_AbsRing (AbsRing_NormedModule C_AbsRing) f g z a b Hf Hg). Qed.

Lemma Cderive_inv z : z <> RtoC 0 -> Cderive (fun x => / x)%C z (- / (z * z))%C.
Proof.
  intros Hz. pose proof (Cmod_gt_0 z) as Hm. assert (0 < Cmod z) by (apply Hm; exact Hz). clear Hm.
  set (m := Cmod z) in *.
  apply (Cderive_intro _ z _ (2 / (m * m * m)) (m / 2)); [lra|apply Rdiv_lt_0_compat; [lra|repeat apply Rmult_lt_0_compat; assumption]|].
  intros h Hh.
  assert (Hzh : m / 2 <= Cmod (z + h)%C).
  { pose proof (Cmod_triangle (z + h)%C (- h)%C) as T. replace (z + h + - h)%C with z in T by ring.
    rewrite Cmod_opp in T. fold m in T. lra. }
  assert (Hne : (z + h)%C <> RtoC 0) by (apply (Cmod_pos_neq (m / 2)); lra).
  replace (/ (z + h) - / z - h * - / (z * z))%C with ((h * h) * (/ (z * z) * / (z + h)))%C by (field; auto).
  rewrite !Cmod_mult, !Cmod_inv, Cmod_mult by (try exact Hne; intros E; destruct (C_integral _ _ E); contradiction).
  fold m. rewrite (Rmult_comm (2 / (m * m * m))). apply Rmult_le_compat_l; [pose proof (Cmod_ge_0 h); nra|].
  replace (2 / (m * m * m)) with (/ (m * m) * / (m / 2)) by (field; lra).
  apply Rmult_le_compat_l; [left; apply Rinv_0_lt_compat; nra|]. apply Rinv_le_contravar; lra.
Qed.

(** ** exp *)
Section ExpBound.
  Variables a b : R.
  Let m := Rabs a + Rabs b.
  Let c (t : R) := exp (t * a) * cos (t * b).
  Let s (t : R) := exp (t * a) * sin (t * b).
  Lemma exp_le_m t : 0 <= t <= 1 -> exp (t * a) <= exp m.
  Proof.
    intros Ht. assert (t * a <= m).
    { unfold m. pose proof (Rle_abs a). pose proof (Rabs_pos a). pose proof (Rabs_pos b). nra. }
    destruct (Req_dec (t * a) m) as [->|]; [lra|]. left. apply exp_increasing. lra.
  Qed.
  Lemma mix_bound t u v : 0 <= t <= 1 -> Rabs (u * c t + v * s t) <= (Rabs u + Rabs v) * exp m.
  Proof.
    intros Ht. pose proof (exp_le_m t Ht). pose proof (exp_pos (t * a)).
    pose proof (COS_bound (t * b)). pose proof (SIN_bound (t * b)).
    eapply Rle_trans; [apply Rabs_triang|]. rewrite !Rabs_mult. unfold c, s. rewrite !Rabs_mult.
    rewrite (Rabs_pos_eq (exp (t * a))) by lra.
    assert (Rabs (cos (t * b)) <= 1) by (apply Rabs_le; lra). assert (Rabs (sin (t * b)) <= 1) by (apply Rabs_le; lra).
    pose proof (Rabs_pos u). pose proof (Rabs_pos v). pose proof (Rabs_pos (cos (t * b))). pose proof (Rabs_pos (sin (t * b))).
    assert (exp (t * a) * Rabs (cos (t * b)) <= exp m) by nra. assert (exp (t * a) * Rabs (sin (t * b)) <= exp m) by nra.
    nra.
  Qed.
  Lemma dc t : is_derive c t (a * c t - b * s t).
  Proof. unfold c, s. auto_derive; [exact I|]. ring. Qed.
  Lemma ds t : is_derive s t (a * s t + b * c t).
  Proof. unfold c, s. auto_derive; [exact I|]. ring. Qed.
  Lemma in01 t x : 0 <= x <= 1 -> Rabs (t - 0) <= Rabs (x - 0) -> 0 <= t \/ True -> Rabs t <= 1.
  Proof. intros Hx H _. rewrite !Rminus_0_r in H. rewrite (Rabs_pos_eq x) in H; lra. Qed.
  (* mean value on [0,x] for positive increments *)
  Lemma mvt (f df : R -> R) (D x : R) : 0 <= x -> (forall t, is_derive f t (df t)) -> (forall t, 0 <= t <= x -> Rabs (df t) <= D) ->
    Rabs (f x - f 0) <= D * x.
  Proof.
    intros Hx Hd HD. destruct (MVT_gen f 0 x df) as (t & Ht & E).
    - intros; apply Hd.
    - intros t Ht. apply continuity_pt_filterlim, (ex_derive_continuous (V := R_NormedModule)). exists (df t). apply Hd.
    - rewrite E, Rminus_0_r, Rabs_mult, (Rabs_pos_eq x) by lra. apply Rmult_le_compat_r; [lra|]. apply HD.
      rewrite Rmin_left, Rmax_right in Ht by lra. exact Ht.
  Qed.
  Let K := m * exp m.
  Lemma m_nn : 0 <= m. Proof. unfold m. pose proof (Rabs_pos a). pose proof (Rabs_pos b). lra. Qed.
  Lemma c1 x : 0 <= x <= 1 -> Rabs (c x - 1) <= K.
  Proof.
    intros Hx. assert (E0 : c 0 = 1) by (unfold c; rewrite !Rmult_0_l, exp_0, cos_0; ring). rewrite <- E0.
    apply Rle_trans with (K * x).
    - apply (mvt c (fun t => a * c t - b * s t)); [lra|exact dc|]. intros t Ht.
      replace (a * c t - b * s t) with (a * c t + (- b) * s t) by ring.
      eapply Rle_trans; [apply mix_bound; lra|]. rewrite Rabs_Ropp. unfold K, m. lra.
    - pose proof m_nn. pose proof (exp_pos m). assert (0 <= K) by (unfold K; nra). nra.
  Qed.
  Lemma s1 x : 0 <= x <= 1 -> Rabs (s x) <= K.
  Proof.
    intros Hx. assert (E0 : s 0 = 0) by (unfold s; rewrite !Rmult_0_l, sin_0; ring).
    replace (s x) with (s x - s 0) by (rewrite E0; ring).
    apply Rle_trans with (K * x).
    - apply (mvt s (fun t => a * s t + b * c t)); [lra|exact ds|]. intros t Ht.
      rewrite Rplus_comm. eapply Rle_trans; [apply mix_bound; lra|]. unfold K, m. lra.
    - pose proof m_nn. pose proof (exp_pos m). assert (0 <= K) by (unfold K; nra). nra.
  Qed.
  Lemma c2 : Rabs (c 1 - 1 - a) <= m * K.
  Proof.
    assert (E0 : c 0 = 1) by (unfold c; rewrite !Rmult_0_l, exp_0, cos_0; ring).
    replace (c 1 - 1 - a) with ((fun t => c t - t * a) 1 - (fun t => c t - t * a) 0) by (cbv beta; rewrite E0; ring).
    replace (m * K) with (m * K * 1) by ring.
    apply (mvt (fun t => c t - t * a) (fun t => (a * c t - b * s t) - a)); [lra| |].
    - intros t. apply (is_derive_minus (V := R_NormedModule)); [apply dc|]. auto_derive; [exact I|ring].
    - intros t Ht. replace (a * c t - b * s t - a) with (a * (c t - 1) + - b * s t) by ring.
      eapply Rle_trans; [apply Rabs_triang|]. rewrite !Rabs_mult, Rabs_Ropp.
      pose proof (c1 t Ht). pose proof (s1 t Ht). pose proof (Rabs_pos a). pose proof (Rabs_pos b). unfold m at 1. nra.
  Qed.
  Lemma s2 : Rabs (s 1 - b) <= m * K.
  Proof.
    assert (E0 : s 0 = 0) by (unfold s; rewrite !Rmult_0_l, sin_0; ring).
    replace (s 1 - b) with ((fun t => s t - t * b) 1 - (fun t => s t - t * b) 0) by (cbv beta; rewrite E0; ring).
    replace (m * K) with (m * K * 1) by ring.
    apply (mvt (fun t => s t - t * b) (fun t => (a * s t + b * c t) - b)); [lra| |].
    - intros t. apply (is_derive_minus (V := R_NormedModule)); [apply ds|]. auto_derive; [exact I|ring].
    - intros t Ht. replace (a * s t + b * c t - b) with (b * (c t - 1) + a * s t) by ring.
      eapply Rle_trans; [apply Rabs_triang|]. rewrite !Rabs_mult.
      pose proof (c1 t Ht). pose proof (s1 t Ht). pose proof (Rabs_pos a). pose proof (Rabs_pos b). unfold m at 1. nra.
  Qed.
End ExpBound.

Lemma Cmod_le_abs (x : C) : Cmod x <= Rabs (fst x) + Rabs (snd x).
Proof.
  destruct x as [u v]. cbn [fst snd]. replace (u, v) with (RtoC u + Ci * RtoC v)%C by (apply C_eq; cbn; ring).
  eapply Rle_trans; [apply Cmod_triangle|]. rewrite Cmod_mult, !Cmod_R.
  replace (Cmod Ci) with 1; [lra|]. unfold Cmod. cbn. replace (0 * (0 * 1) + 1 * (1 * 1)) with 1 by ring. now rewrite sqrt_1.
Qed.
Lemma abs_le_Cmod (x : C) : Rabs (fst x) + Rabs (snd x) <= 2 * Cmod x.
Proof. pose proof (Rmax_Cmod x). pose proof (Rmax_l (Rabs (fst x)) (Rabs (snd x))). pose proof (Rmax_r (Rabs (fst x)) (Rabs (snd x))). lra. Qed.

Lemma Cexp_bound (h : C) : Cmod h < 1 -> Cmod (Cexp h - 1 - h)%C <= 8 * exp 2 * (Cmod h * Cmod h).
Proof.
  intros Hh. destruct h as [a b]. eapply Rle_trans; [apply Cmod_le_abs|].
  pose proof (c2 a b) as H1. pose proof (s2 a b) as H2. cbv beta zeta in H1, H2. rewrite !Rmult_1_l in H1, H2.
  pose proof (abs_le_Cmod (a, b)) as Hm. cbn [fst snd] in Hm. set (m := Rabs a + Rabs b) in *.
  assert (0 <= m) by (unfold m; pose proof (Rabs_pos a); pose proof (Rabs_pos b); lra).
  assert (exp m <= exp 2) by (destruct (Req_dec m 2) as [->|]; [lra|left; apply exp_increasing; lra]).
  pose proof (exp_pos m). pose proof (Cmod_ge_0 (a, b)).
  assert (B : m * (m * exp m) <= 4 * exp 2 * (Cmod (a, b) * Cmod (a, b))).
  { assert (m * m <= 4 * (Cmod (a, b) * Cmod (a, b))) by nra.
    rewrite <- Rmult_assoc. apply Rle_trans with (4 * (Cmod (a, b) * Cmod (a, b)) * exp m); nra. }
  assert (E1 : fst (Cexp (a, b) - 1 - (a, b))%C = exp a * cos b - 1 - a) by (unfold Cexp; cbn; ring).
  assert (E2 : snd (Cexp (a, b) - 1 - (a, b))%C = exp a * sin b - b) by (unfold Cexp; cbn; ring).
  rewrite E1, E2. lra.
Qed.
Lemma Cderive_exp z : Cderive Cexp z (Cexp z).
Proof.
  pose proof (Cmod_gt_0 (Cexp z)) as P. assert (P' : 0 < Cmod (Cexp z)) by (apply P, Cexp_neq0). clear P.
  pose proof (exp_pos 2).
  apply (Cderive_intro _ z _ (Cmod (Cexp z) * (8 * exp 2)) 1); [lra|apply Rmult_lt_0_compat; lra|].
  intros h Hh. rewrite Cexp_plus.
  replace (Cexp z * Cexp h - Cexp z - h * Cexp z)%C with (Cexp z * (Cexp h - 1 - h))%C by ring.
  rewrite Cmod_mult, Rmult_assoc. apply Rmult_le_compat_l; [lra|]. now apply Cexp_bound.
Qed.
Lemma Csin_exp z : Csin z = ((Cexp (Ci * z) - Cexp (- (Ci * z))) * / (RtoC 2 * Ci))%C.
Proof. rewrite Cexp_i, Cexp_mi, RtoC2. field. split; first [apply Ci_neq0 | apply C2_neq0]. Qed.
Lemma Ccos_exp z : Ccos z = ((Cexp (Ci * z) + Cexp (- (Ci * z))) * / RtoC 2)%C.
Proof. rewrite Cexp_i, Cexp_mi, RtoC2. field. apply C2_neq0. Qed.
Lemma Cderive_expi z : Cderive (fun x => Cexp (Ci * x)%C) z (Ci * Cexp (Ci * z))%C.
Proof.
  apply (Cderive_comp Cexp (fun x => Ci * x)%C z (Cexp (Ci * z)%C) Ci); [apply Cderive_exp|].
  eapply Cderive_val; [|apply Cderive_scal, Cderive_id]. ring.
Qed.
Lemma Cderive_expmi z : Cderive (fun x => Cexp (- (Ci * x))%C) z (- Ci * Cexp (- (Ci * z)))%C.
Proof.
  apply (Cderive_comp Cexp (fun x => - (Ci * x))%C z (Cexp (- (Ci * z))%C) (- Ci)%C); [apply Cderive_exp|].
  eapply Cderive_val; [|apply Cderive_opp, Cderive_scal, Cderive_id]. ring.
Qed.
Lemma Cderive_sin z : Cderive Csin z (Ccos z).
Proof.
  apply (Cderive_ext (fun x => (/ (RtoC 2 * Ci)) * (Cexp (Ci * x) - Cexp (- (Ci * x)))%C)%C);
    [intros; rewrite Csin_exp; ring|].
  eapply Cderive_val; [|apply Cderive_scal, Cderive_minus; [apply Cderive_expi|apply Cderive_expmi]].
  rewrite Ccos_exp, RtoC2. field. split; first [apply Ci_neq0 | apply C2_neq0].
Qed.
Lemma Cderive_cos z : Cderive Ccos z (- Csin z)%C.
Proof.
  apply (Cderive_ext (fun x => (/ RtoC 2) * (Cexp (Ci * x) + Cexp (- (Ci * x)))%C)%C);
    [intros; rewrite Ccos_exp; ring|].
  eapply Cderive_val; [|apply Cderive_scal, Cderive_plus; [apply Cderive_expi|apply Cderive_expmi]].
  rewrite Csin_exp, RtoC2. 
  transitivity (/ (1 + 1) * (Ci * Ci * (Cexp (Ci * z) - Cexp (- (Ci * z))) * / Ci))%C;
    [field; split; first [apply Ci_neq0 | apply C2_neq0]|].
  rewrite Ci_sqr. field. split; first [apply Ci_neq0 | apply C2_neq0].
Qed.
