(** Small arguments: quadratic closeness, and the Riccati-Bessel functions near zero. *)
From Coq Require Import Reals ZArith Lra Lia Bool List Arith.
From Coquelicot Require Import Coquelicot.
From Verif Require Import Ops ROps Spec CLemmas CTrig ComplexDiff BesselProofs BesselSpec BesselTrue BesselMinimal.
Import ListNotations.
Open Scope R_scope.
Arguments Cmod x%C_scope.
Arguments Ccos z%C_scope.
Arguments Csin z%C_scope.
Arguments Cexp z%C_scope.
Arguments Ff n%nat_scope z%C_scope.
Arguments Cpow_n z%C_scope n%nat_scope.

(** f t = l + O(t^2) as t -> 0+ *)
Definition close2 (f : R -> C) (l : C) : Prop :=
  exists K d, 0 <= K /\ 0 < d <= 1 /\ forall t, 0 < t < d -> Cmod (f t - l)%C <= K * (t * t).
Lemma cl_const c : close2 (fun _ => c) c.
Proof. exists 0, 1. split; [lra|]. split; [lra|]. intros t Ht. replace (c - c)%C with (RtoC 0) by ring. rewrite Cmod_0. nra. Qed.
Lemma cl_val f l l' : l = l' -> close2 f l -> close2 f l'. Proof. now intros ->. Qed.
Lemma cl_ext f g l : (forall t, 0 < t -> f t = g t) -> close2 f l -> close2 g l.
Proof. intros E (K & d & HK & Hd & H). exists K, d. split; [exact HK|]. split; [exact Hd|]. intros t Ht. rewrite <- E by lra. apply H, Ht. Qed.
Lemma two_close f g a b : close2 f a -> close2 g b -> exists K d, 0 <= K /\ 0 < d <= 1 /\ forall t, 0 < t < d -> Cmod (f t - a)%C <= K * (t * t) /\ Cmod (g t - b)%C <= K * (t * t).
Proof.
  intros (K & d & HK & Hd & H) (K' & d' & HK' & Hd' & H'). exists (K + K'), (Rmin d d'). split; [lra|]. split; [split; [apply Rmin_glb_lt; lra|]; eapply Rle_trans; [apply Rmin_l|lra]|].
  intros t Ht. pose proof (Rmin_l d d'). pose proof (Rmin_r d d'). specialize (H t ltac:(lra)). specialize (H' t ltac:(lra)). pose proof (Rle_0_sqr t) as Q. unfold Rsqr in Q. split; nra.
Qed.
Lemma cl_plus f g a b : close2 f a -> close2 g b -> close2 (fun t => f t + g t)%C (a + b)%C.
Proof.
  intros F G. destruct (two_close _ _ _ _ F G) as (K & d & HK & Hd & H). exists (2 * K), d. split; [lra|]. split; [exact Hd|]. intros t Ht. destruct (H t Ht) as [A B].
  replace (f t + g t - (a + b))%C with ((f t - a) + (g t - b))%C by ring. eapply Rle_trans; [apply Cmod_triangle|]. lra.
Qed.
Lemma cl_opp f a : close2 f a -> close2 (fun t => - f t)%C (- a)%C.
Proof.
  intros (K & d & HK & Hd & H). exists K, d. split; [exact HK|]. split; [exact Hd|]. intros t Ht. replace (- f t - - a)%C with (- (f t - a))%C by ring. rewrite Cmod_opp. apply H, Ht.
Qed.
Lemma cl_minus f g a b : close2 f a -> close2 g b -> close2 (fun t => f t - g t)%C (a - b)%C.
Proof. intros F G. exact (cl_plus _ _ _ _ F (cl_opp _ _ G)). Qed.
Lemma cl_mult f g a b : close2 f a -> close2 g b -> close2 (fun t => f t * g t)%C (a * b)%C.
Proof.
  intros F G. destruct (two_close _ _ _ _ F G) as (K & d & HK & Hd & H). exists (K * (Cmod a + Cmod b + K)), d.
  pose proof (Cmod_ge_0 a) as A0. pose proof (Cmod_ge_0 b) as B0. split; [apply Rmult_le_pos; lra|]. split; [exact Hd|]. intros t Ht. destruct (H t Ht) as [A B].
  replace (f t * g t - a * b)%C with ((f t - a) * (g t - b) + ((f t - a) * b + a * (g t - b)))%C by ring.
  eapply Rle_trans; [apply Cmod_triangle|]. pose proof (Cmod_triangle ((f t - a) * b)%C (a * (g t - b))%C) as T. rewrite !Cmod_mult in *.
  set (u := Cmod (f t - a)%C) in *. set (v := Cmod (g t - b)%C) in *. pose proof (Cmod_ge_0 (f t - a)%C) as U0. pose proof (Cmod_ge_0 (g t - b)%C) as V0. fold u in U0. fold v in V0.
  set (s := t * t) in *. assert (S0 : 0 <= s <= 1) by (unfold s; nra).
  assert (P1 : u * v <= K * s * K). { apply Rle_trans with (K * s * (K * s)); [apply Rmult_le_compat; lra|]. rewrite <- (Rmult_1_r (K * s * K)). replace (K * s * (K * s)) with (K * s * K * s) by ring. apply Rmult_le_compat_l; [|lra]. apply Rmult_le_pos; [apply Rmult_le_pos|]; lra. }
  assert (P2 : u * Cmod b <= K * s * Cmod b) by (apply Rmult_le_compat_r; lra). assert (P3 : Cmod a * v <= Cmod a * (K * s)) by (apply Rmult_le_compat_l; lra). nra.
Qed.
Lemma cl_away f a : a <> RtoC 0 -> close2 f a -> exists d, 0 < d <= 1 /\ forall t, 0 < t < d -> Cmod a / 2 <= Cmod (f t)%C.
Proof.
  intros Ha (K & d & HK & Hd & H). apply Cmod_gt_0 in Ha. set (q := Cmod a / (2 * (K + 1))). assert (Hq : 0 < q) by (unfold q; apply Rdiv_lt_0_compat; lra).
  exists (Rmin d q). split; [split; [apply Rmin_glb_lt; lra|eapply Rle_trans; [apply Rmin_l|lra]]|]. intros t Ht. pose proof (Rmin_l d q). pose proof (Rmin_r d q). specialize (H t ltac:(lra)).
  assert (B : K * (t * t) <= Cmod a / 2). { assert (t * t <= q) by nra. apply Rle_trans with ((K + 1) * q); [nra|]. unfold q. right. field. lra. }
  pose proof (Cmod_triangle (f t) (a - f t)%C) as T. replace (f t + (a - f t))%C with a in T by ring. replace (a - f t)%C with (- (f t - a))%C in T by ring. rewrite Cmod_opp in T. lra.
Qed.
Lemma cl_inv f a : a <> RtoC 0 -> close2 f a -> close2 (fun t => / f t)%C (/ a)%C.
Proof.
  intros Ha F. destruct (cl_away f a Ha F) as (d1 & Hd1 & H1). destruct F as (K & d & HK & Hd & H). pose proof (proj1 (Cmod_gt_0 a) Ha) as A0.
  exists (K * (2 / (Cmod a * Cmod a))), (Rmin d d1). split; [apply Rmult_le_pos; [exact HK|]; apply Rlt_le, Rdiv_lt_0_compat; nra|]. split; [split; [apply Rmin_glb_lt; lra|eapply Rle_trans; [apply Rmin_l|lra]]|].
  intros t Ht. pose proof (Rmin_l d d1). pose proof (Rmin_r d d1). specialize (H t ltac:(lra)). specialize (H1 t ltac:(lra)).
  assert (Hf : f t <> RtoC 0) by (intros E; rewrite E, Cmod_0 in H1; lra).
  replace (/ f t - / a)%C with (- (f t - a) * (/ (f t * a)))%C by (field; split; assumption). rewrite Cmod_mult, Cmod_opp, Cmod_inv, Cmod_mult by (apply Cmult_neq_0; assumption).
  assert (I : / (Cmod (f t)%C * Cmod a) <= 2 / (Cmod a * Cmod a)).
  { replace (2 / (Cmod a * Cmod a)) with (/ (Cmod a / 2 * Cmod a)) by (field; lra). apply Rinv_le_contravar; [nra|]. apply Rmult_le_compat_r; lra. }
  assert (0 < / (Cmod (f t)%C * Cmod a)) by (apply Rinv_0_lt_compat; nra).
  replace (K * (2 / (Cmod a * Cmod a)) * (t * t)) with (K * (t * t) * (2 / (Cmod a * Cmod a))) by ring. apply Rmult_le_compat; [apply Cmod_ge_0|lra|exact H|exact I].
Qed.
Lemma cl_div f g a b : b <> RtoC 0 -> close2 f a -> close2 g b -> close2 (fun t => f t / g t)%C (a / b)%C.
Proof. intros Hb F G. exact (cl_mult _ _ _ _ F (cl_inv _ _ Hb G)). Qed.
Lemma cl_tsq (c : C) : close2 (fun t => c * (RtoC t * RtoC t))%C (RtoC 0).
Proof.
  exists (Cmod c), 1. split; [apply Cmod_ge_0|]. split; [lra|]. intros t Ht. replace (c * (RtoC t * RtoC t) - RtoC 0)%C with (c * RtoC (t * t))%C by (rewrite RtoC_mult; ring).
  rewrite Cmod_mult, Cmod_R, Rabs_pos_eq by nra. lra.
Qed.

(** powers *)
Lemma cpow_S z k : Cpow_n z (S k) = (z * Cpow_n z k)%C. Proof. reflexivity. Qed.
Lemma cpow_add z a b : Cpow_n z (a + b) = (Cpow_n z a * Cpow_n z b)%C.
Proof. induction a as [|a IH]; cbn [Nat.add Cpow_n]; [ring|rewrite IH; ring]. Qed.
Lemma cpow_mul x y k : Cpow_n (x * y)%C k = (Cpow_n x k * Cpow_n y k)%C.
Proof. induction k as [|k IH]; cbn [Cpow_n]; [ring|rewrite IH; ring]. Qed.
Lemma cpow_nz z k : z <> RtoC 0 -> Cpow_n z k <> RtoC 0.
Proof. intros H. induction k as [|k IH]; cbn [Cpow_n]; [intros E; injection E; lra|apply Cmult_neq_0; assumption]. Qed.
Lemma cpow_R (t : R) k : Cpow_n (RtoC t) k = RtoC (t ^ k).
Proof. induction k as [|k IH]; cbn [Cpow_n pow]; [reflexivity|rewrite IH, <- RtoC_mult; reflexivity]. Qed.
Lemma cpow_0 k : Cpow_n (RtoC 0) (S k) = RtoC 0. Proof. cbn [Cpow_n]. ring. Qed.
Lemma cpow_derive k z : Cderive (fun w => Cpow_n w (S k)) z (Cn (S k) * Cpow_n z k)%C.
Proof.
  induction k as [|k IH].
  - apply (Cderive_ext (fun w => w)); [intros x; cbn [Cpow_n]; ring|]. eapply Cderive_val; [|apply Cderive_id]. cbn. ring.
  - apply (Cderive_ext (fun w => w * Cpow_n w (S k))%C); [intros; reflexivity|]. eapply Cderive_val; [|apply Cderive_mult; [apply Cderive_id|exact IH]].
    rewrite (S_INR (S k)). cbn [Cpow_n]. rewrite RtoC_plus. ring.
Qed.
Lemma odd_pos n : 0 < odd_dfact n.
Proof. induction n as [|n IH]; [cbn; lra|]. cbn [odd_dfact]. apply Rmult_lt_0_compat; [apply lt_0_INR; lia|exact IH]. Qed.

(** sine and cosine near zero *)
Definition K0 : R := 8 * exp 2.
Lemma K0_pos : 0 < K0. Proof. unfold K0. pose proof (exp_pos 2). lra. Qed.
Lemma cos_small z : Cmod z < 1 -> Cmod (Ccos z - RtoC 1)%C <= K0 * (Cmod z * Cmod z).
Proof.
  intros Hz. assert (M1 : Cmod (Ci * z)%C = Cmod z) by (rewrite Cmod_mult; replace (Cmod Ci) with 1; [ring|unfold Cmod, Ci; cbn; replace (0 * (0 * 1) + 1 * (1 * 1)) with 1 by ring; now rewrite sqrt_1]).
  assert (M2 : Cmod (- (Ci * z))%C = Cmod z) by (rewrite Cmod_opp; exact M1).
  pose proof (Cexp_bound (Ci * z)%C ltac:(rewrite M1; exact Hz)) as B1. pose proof (Cexp_bound (- (Ci * z))%C ltac:(rewrite M2; exact Hz)) as B2. rewrite M1 in B1. rewrite M2 in B2.
  assert (H2 : RtoC 2 <> RtoC 0) by (apply RtoC_neq; lra).
  assert (E : (Ccos z - RtoC 1)%C = (((Cexp (Ci * z) - RtoC 1 - Ci * z) + (Cexp (- (Ci * z)) - RtoC 1 - - (Ci * z))) * / RtoC 2)%C).
  { rewrite Ccos_exp. generalize (Cexp (Ci * z)%C) (Cexp (- (Ci * z))%C). intros u v. rewrite RtoC2 in *. field. exact H2. }
  rewrite E.
  rewrite Cmod_mult, Cmod_inv, Cmod_R, (Rabs_pos_eq 2); [|lra|exact H2].
  pose proof (Cmod_triangle (Cexp (Ci * z) - RtoC 1 - Ci * z)%C (Cexp (- (Ci * z)) - RtoC 1 - - (Ci * z))%C) as T. unfold K0. lra.
Qed.
Lemma mod_ray t z : 0 <= t <= 1 -> Cmod (RtoC t * z)%C <= Cmod z.
Proof. intros Ht. rewrite Cmod_mult, Cmod_R, Rabs_pos_eq by lra. pose proof (Cmod_ge_0 z). nra. Qed.
Lemma sin_small z : Cmod z < 1 -> Cmod (Csin z - z)%C <= 2 * K0 * Cmod z ^ 3.
Proof.
  intros Hz. pose proof (ray_mvt (fun w => Csin w - w)%C (fun w => Ccos w - RtoC 1)%C z (K0 * Cmod z ^ 3)) as M.
  assert (D : forall w, Cderive (fun w => Csin w - w)%C w (Ccos w - RtoC 1)%C) by (intros w; apply Cderive_minus; [apply Cderive_sin|apply Cderive_id]).
  assert (B : forall t, 0 <= t <= 1 -> Cmod (z * (Ccos (RtoC t * z) - RtoC 1))%C <= K0 * Cmod z ^ 3).
  { intros t Ht. pose proof (mod_ray t z Ht) as Q. rewrite Cmod_mult. pose proof (cos_small (RtoC t * z)%C ltac:(lra)) as P. pose proof (Cmod_ge_0 (RtoC t * z)%C) as Q0. pose proof K0_pos.
    assert (Cmod (RtoC t * z)%C * Cmod (RtoC t * z)%C <= Cmod z * Cmod z) by nra. pose proof (Cmod_ge_0 z). apply Rle_trans with (Cmod z * (K0 * (Cmod z * Cmod z))); [apply Rmult_le_compat_l; [lra|]; nra|right; ring]. }
  specialize (M D B 1 ltac:(lra)). cbv beta in M. replace (RtoC 1 * z)%C with z in M by ring. replace (Csin (RtoC 0)) with (RtoC 0) in M by (rewrite Csin_R, sin_0; reflexivity).
  replace (Csin z - z - (RtoC 0 - RtoC 0))%C with (Csin z - z)%C in M by ring. lra.
Qed.
(** z^n psi_n = z^(2n+1) / (2n+1)!! + O(z^(2n+3)) *)
Lemma Ff_small n : exists K, 0 <= K /\ forall z, Cmod z < 1 -> Cmod (Ff n z - Cpow_n z (2 * n + 1) / RtoC (odd_dfact n))%C <= K * Cmod z ^ (2 * n + 3).
Proof.
  induction n as [|n (K & HK & IH)].
  - exists (2 * K0). split; [pose proof K0_pos; lra|]. intros z Hz. replace (Ff 0 z - Cpow_n z (2 * 0 + 1) / RtoC (odd_dfact 0))%C with (Csin z - z)%C; [apply sin_small, Hz|]. unfold Ff. cbn. field. intros E; injection E; lra.
  - exists (2 * K). split; [lra|]. intros z Hz. set (k := (2 * S n + 1)%nat). set (o := RtoC (odd_dfact (S n))).
    assert (Ho : o <> RtoC 0) by (intros E; injection E; pose proof (odd_pos (S n)); unfold o in *; cbn in *; lra).
    assert (Ho' : RtoC (odd_dfact n) <> RtoC 0) by (intros E; injection E; pose proof (odd_pos n); lra).
    assert (Eo : o = (Cn k * RtoC (odd_dfact n))%C) by (unfold o, k; rewrite <- RtoC_mult; reflexivity).
    assert (Hk : Cn k <> RtoC 0) by (intros E; rewrite E in Eo; apply Ho; rewrite Eo; ring).
    pose proof (ray_mvt (fun w => Ff (S n) w - Cpow_n w k / o)%C (fun w => w * (Ff n w - Cpow_n w (2 * n + 1) / RtoC (odd_dfact n)))%C z (K * Cmod z ^ (2 * S n + 3))) as M.
    assert (D : forall w, Cderive (fun w => Ff (S n) w - Cpow_n w k / o)%C w (w * (Ff n w - Cpow_n w (2 * n + 1) / RtoC (odd_dfact n)))%C).
    { intros w. assert (D2 : Cderive (fun w => Cpow_n w k / o)%C w (/ o * (Cn k * Cpow_n w (2 * n + 2)))%C).
      { apply (Cderive_ext (fun w => / o * Cpow_n w k)%C); [intros; unfold Cdiv; apply Cmult_comm|]. apply Cderive_scal. replace k with (S (2 * n + 2)) by (unfold k; lia). apply cpow_derive. }
      pose proof (Cderive_minus _ _ _ _ _ (proj1 (Ff_derive n w)) D2) as D3. eapply Cderive_val; [|exact D3].
      replace (2 * n + 2)%nat with (S (2 * n + 1)) by lia. rewrite cpow_S, Eo. field. split; assumption. }
    assert (B : forall t, 0 <= t <= 1 -> Cmod (z * (RtoC t * z * (Ff n (RtoC t * z) - Cpow_n (RtoC t * z) (2 * n + 1) / RtoC (odd_dfact n))))%C <= K * Cmod z ^ (2 * S n + 3)).
    { intros t Ht. pose proof (mod_ray t z Ht) as Q. rewrite Cmod_mult, (Cmod_mult (RtoC t * z)%C). specialize (IH (RtoC t * z)%C ltac:(lra)).
      pose proof (Cmod_ge_0 (RtoC t * z)%C) as Q0. pose proof (Cmod_ge_0 z) as Z0. pose proof (pow_incr (Cmod (RtoC t * z)%C) (Cmod z) (2 * n + 3) (conj Q0 Q)) as PI.
      replace (K * Cmod z ^ (2 * S n + 3)) with (Cmod z * (Cmod z * (K * Cmod z ^ (2 * n + 3)))) by (replace (2 * S n + 3)%nat with (S (S (2 * n + 3))) by lia; cbn [pow]; ring).
      apply Rmult_le_compat_l; [exact Z0|]. apply Rmult_le_compat; [exact Q0|apply Cmod_ge_0|exact Q|]. eapply Rle_trans; [exact IH|]. apply Rmult_le_compat_l; assumption. }
    specialize (M D B 1 ltac:(lra)). cbv beta in M. replace (RtoC 1 * z)%C with z in M by ring. rewrite Ff_0 in M. assert (Z0 : Cpow_n (RtoC 0) k = RtoC 0) by (unfold k; replace (2 * S n + 1)%nat with (S (2 * S n)) by lia; apply cpow_0). rewrite Z0 in M.
    match type of M with Cmod ?u <= _ => match goal with |- Cmod ?v <= _ => replace v with u; [lra|] end end. field. exact Ho.
Qed.
