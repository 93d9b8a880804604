(** Coordinates, rotations, illumination frames. *)
From Coq Require Import Reals ZArith List Bool String Arith Lia Lra Ratan.
From Coquelicot Require Import Coquelicot.
From Verif Require Import Ops ROps CLemmas CTrig ModelSpecial ModelMie ModelBatch ModelNear NearSpec NearProofs NearField ModelGeom GeomSpec.
Import ListNotations.
Open Scope R_scope.

(** ** atan2 *)
Lemma sqrt_scale x y : x <> 0 -> sqrt (x * x + y * y) = Rabs x * sqrt (1 + (y / x)²).
Proof.
  intros Hx. rewrite <- (sqrt_Rsqr (Rabs x)) by apply Rabs_pos. rewrite <- sqrt_mult_alt by apply Rle_0_sqr.
  rewrite <- Rsqr_abs. f_equal. unfold Rsqr. field. exact Hx.
Qed.
Lemma sqrt1_pos t : 0 < sqrt (1 + t²).
Proof. apply sqrt_lt_R0. pose proof (Rle_0_sqr t). lra. Qed.
Lemma atan2_polar y x : x <> 0 -> sqrt (x * x + y * y) * cos (Ratan2 y x) = x /\ sqrt (x * x + y * y) * sin (Ratan2 y x) = y.
Proof.
  intros Hx. rewrite (sqrt_scale x y Hx). pose proof (sqrt1_pos (y / x)) as Hs.
  assert (Ec : cos (atan (y / x)) = / sqrt (1 + (y / x)²)) by (rewrite cos_atan; field; lra).
  assert (Es : sin (atan (y / x)) = y / x / sqrt (1 + (y / x)²)) by apply sin_atan.
  unfold Ratan2. destruct (Rlt_dec 0 x) as [H|H].
  - rewrite Ec, Es, (Rabs_pos_eq x) by lra. split; field; repeat split; lra.
  - destruct (Rlt_dec x 0) as [H'|H']; [|exfalso; apply Hx; lra].
    rewrite (Rabs_left x) by lra. destruct (Rle_dec 0 y).
    + rewrite neg_cos, neg_sin, Ec, Es. split; field; repeat split; lra.
    + unfold Rminus. rewrite cos_plus, sin_plus, cos_neg, sin_neg, cos_PI, sin_PI, Ec, Es. split; field; repeat split; lra.
Qed.
Lemma atan2_range y x : - PI < Ratan2 y x <= PI.
Proof.
  pose proof PI_RGT_0. unfold Ratan2. destruct (Rlt_dec 0 x).
  - pose proof (atan_bound (y / x)). lra.
  - destruct (Rlt_dec x 0).
    + pose proof (atan_bound (y / x)) as B. destruct (Rle_dec 0 y) as [Hy|Hy].
      * assert (y / x <= 0) by (unfold Rdiv; pose proof (Rinv_lt_0_compat x r); nra).
        assert (atan (y / x) <= 0) by (rewrite <- atan_0; destruct H0 as [H0|H0]; [left; now apply atan_increasing|right; now rewrite H0]). lra.
      * assert (0 < y / x) by (unfold Rdiv; replace (y * / x) with (- y * - / x) by ring; apply Rmult_lt_0_compat; [lra|]; pose proof (Rinv_lt_0_compat x r); lra).
        assert (0 < atan (y / x)) by (rewrite <- atan_0; now apply atan_increasing). lra.
    + destruct (Rlt_dec 0 y); [lra|]. destruct (Rlt_dec y 0); lra.
Qed.

(** ** round trip *)
Definition back (p : R * R * R) : R * R * R := let '(r, th, ph) := p in @sph_to_xyz R ROps r th ph.
Lemma norm3_sq x y z : @norm3 R ROps x y z * @norm3 R ROps x y z = x * x + y * y + z * z.
Proof. unfold norm3. cbn [rsqrt ROps radd]. rewrite !rsqr_R. apply sqrt_sqrt. nra. Qed.
Lemma norm3_def x y z : @norm3 R ROps x y z = sqrt (x * x + y * y + z * z).
Proof. unfold norm3. cbn [rsqrt ROps radd]. now rewrite !rsqr_R. Qed.
Lemma norm3_pos x y z : x <> 0 -> 0 < @norm3 R ROps x y z.
Proof. intros H. rewrite norm3_def. apply sqrt_lt_R0. nra. Qed.

Lemma x_safe_nz (x e : R) : x <> 0 -> @radd R ROps x (rmul (if reqb x rzero then rone else rzero) e) = x.
Proof. intros H. cbn. unfold Reqb. destruct (Req_EM_T x 0); [contradiction|]. ring. Qed.
Lemma x_safe_0 (e : R) : @radd R ROps 0 (rmul (if reqb 0 rzero then rone else rzero) e) = e.
Proof. cbn. unfold Reqb. destruct (Req_EM_T 0 0); [|congruence]. ring. Qed.
Section Trip.
  Variables (e10 x y z : R).
  Hypothesis He : 0 < e10 < 1.
  Notation r := (@norm3 R ROps x y z).
  Notation P := (@xyz_to_sph R ROps e10 x y z).
  Lemma sph_r : fst (fst P) = sqrt (x * x + y * y + z * z).
  Proof. apply norm3_def. Qed.
  Lemma sph_ranges : 0 <= fst (fst P) /\ 0 <= snd (fst P) <= PI /\ - PI < snd P <= PI.
  Proof.
    split; [rewrite sph_r; apply sqrt_pos|]. split; [|apply atan2_range].
    exact (acos_bound _).
  Qed.
  Lemma rho_eq : Rabs z <= (1 - e10) * r -> 0 < r -> r * sin (snd (fst P)) = sqrt (x * x + y * y).
  Proof.
    intros Hz Hr. pose proof (axis_exact e10 x y z He Hz) as Ez. change (pt_theta (point_of e10 x y z)) with (snd (fst P)) in Ez.
    set (th := snd (fst P)) in *. assert (Hs : 0 <= sin th) by (apply sin_ge_0; [exact (proj1 (proj1 (proj2 sph_ranges)))|exact (proj2 (proj1 (proj2 sph_ranges)))]).
    pose proof (norm3_sq x y z) as En. pose proof (sin2_cos2 th) as E1. unfold Rsqr in E1. clearbody th.
    rewrite <- (sqrt_Rsqr (r * sin th)) by nra. f_equal. unfold Rsqr.
    replace (r * sin th * (r * sin th)) with (r * r * (sin th * sin th)) by ring. replace (sin th * sin th) with (1 - cos th * cos th) by lra.
    replace (r * r * (1 - cos th * cos th)) with (r * r - (r * cos th) * (r * cos th)) by ring. rewrite En, Ez. ring.
  Qed.
  Lemma round_trip : x <> 0 -> Rabs z <= (1 - e10) * r -> back P = (x, y, z).
  Proof.
    intros Hx Hz. pose proof (norm3_pos x y z Hx) as Hr. pose proof (rho_eq Hz Hr) as E1. pose proof (axis_exact e10 x y z He Hz) as E2.
    change (pt_theta (point_of e10 x y z)) with (snd (fst P)) in E2.
    assert (E3 : snd P = Ratan2 y x).
    { unfold xyz_to_sph. cbn [snd]. now rewrite x_safe_nz by exact Hx. }
    destruct (atan2_polar y x Hx) as [A B]. unfold back, sph_to_xyz.
    change (match P with (r, th, ph) => _ end) with (rmul (rmul r (rsin (snd (fst P)))) (rcos (snd P)), rmul (rmul r (rsin (snd (fst P)))) (rsin (snd P)), rmul r (rcos (snd (fst P)))).
    cbn [rmul rsin rcos ROps]. rewrite E1, E2, E3. now rewrite A, B.
  Qed.
End Trip.

(* on the plane x = 0, off the cone, the point moves by at most 10 eps in x and y *)
Lemma round_trip_x0 e10 y z : 0 < e10 < 1 -> y <> 0 -> Rabs z <= (1 - e10) * @norm3 R ROps 0 y z ->
  exists x' y', back (@xyz_to_sph R ROps e10 0 y z) = (x', y', z) /\ 0 < x' < e10 /\ Rabs (y' - y) <= e10 /\ Rabs y' < Rabs y.
Proof.
  intros He Hy Hz. set (P := @xyz_to_sph R ROps e10 0 y z).
  assert (Hr : 0 < @norm3 R ROps 0 y z) by (rewrite norm3_def; apply sqrt_lt_R0; nra).
  pose proof (rho_eq e10 0 y z He Hz Hr) as E1. pose proof (axis_exact e10 0 y z He Hz) as E2. change (pt_theta (point_of e10 0 y z)) with (snd (fst P)) in E2.
  assert (E3 : snd P = Ratan2 y e10).
  { unfold P, xyz_to_sph. cbn [snd]. now rewrite x_safe_0. }
  destruct (atan2_polar y e10 ltac:(lra)) as [A B].
  replace (sqrt (0 * 0 + y * y)) with (Rabs y) in E1 by (rewrite <- sqrt_Rsqr_abs; f_equal; unfold Rsqr; ring).
  set (h := sqrt (e10 * e10 + y * y)) in *.
  assert (Hh : h * h = e10 * e10 + y * y) by (apply sqrt_sqrt; nra).
  assert (Hh0 : 0 < h) by (apply sqrt_lt_R0; nra).
  assert (Ha : 0 < Rabs y) by now apply Rabs_pos_lt. assert (Haa : Rabs y * Rabs y = y * y) by (rewrite <- Rabs_mult; apply Rabs_pos_eq; nra).
  assert (Hlt : Rabs y < h) by nra.
  set (c := cos (Ratan2 y e10)) in *. set (s := sin (Ratan2 y e10)) in *.
  assert (Hc : c = e10 / h) by (rewrite <- A; field; lra). assert (Hs : s = y / h) by (rewrite <- B; field; lra).
  exists (Rabs y * c), (Rabs y * s). split.
  { unfold back, sph_to_xyz.
    change (match P with (r, th, ph) => _ end) with (rmul (rmul (@norm3 R ROps 0 y z) (rsin (snd (fst P)))) (rcos (snd P)), rmul (rmul (@norm3 R ROps 0 y z) (rsin (snd (fst P)))) (rsin (snd P)), rmul (@norm3 R ROps 0 y z) (rcos (snd (fst P)))).
    cbn [rmul rsin rcos ROps]. fold P in E1. rewrite E1, E2, E3. reflexivity. }
  assert (Hq : 0 < Rabs y / h < 1). { split; [now apply Rdiv_lt_0_compat|]. apply Rmult_lt_reg_r with h; [exact Hh0|]. unfold Rdiv. rewrite Rmult_assoc, Rinv_l by lra. lra. }
  set (q := Rabs y / h) in *.
  assert (Hqh : q * h = Rabs y) by (unfold q; field; lra).
  split; [|split].
  - replace (Rabs y * c) with (q * e10) by (rewrite Hc; unfold q; field; lra). nra.
  - replace (Rabs y * s - y) with (- (1 - q) * y) by (rewrite Hs; unfold q; field; lra).
    rewrite Rabs_mult, Rabs_Ropp, (Rabs_pos_eq (1 - q)) by lra.
    assert (Hd : h - Rabs y <= e10) by nra. assert (h * (1 - q) = h - Rabs y) by lra. nra.
  - replace (Rabs y * s) with (q * y) by (rewrite Hs; unfold q; field; lra). rewrite Rabs_mult, (Rabs_pos_eq q) by lra. nra.
Qed.

(* on the z axis the point leaves the axis *)
Lemma axis_moved e10 z : 0 < e10 < 1 -> 0 < z ->
  back (@xyz_to_sph R ROps e10 0 0 z) = (z * sqrt (e10 * (2 - e10)), 0, z * (1 - e10)).
Proof.
  intros He Hz. set (P := @xyz_to_sph R ROps e10 0 0 z).
  assert (En : @norm3 R ROps 0 0 z = z) by (rewrite norm3_def; replace (0 * 0 + 0 * 0 + z * z) with (z * z) by ring; apply sqrt_square; lra).
  assert (Ec : cos (snd (fst P)) = 1 - e10).
  { change (cos (pt_theta (point_of e10 0 0 z)) = 1 - e10). rewrite ctheta by exact He. rewrite En. unfold Reqb. destruct (Req_EM_T z 0); [lra|].
    replace (z / z) with 1 by (field; lra). unfold clamp_t. cbn [rltb ROps]. unfold Rltb. destruct (Rlt_dec 1 (-1 + e10)); [lra|]. destruct (Rlt_dec (1 - e10) 1); lra. }
  assert (Es : sin (snd (fst P)) = sqrt (e10 * (2 - e10))).
  { assert (0 <= sin (snd (fst P))) by (destruct (sph_ranges e10 0 0 z) as (_ & [A B] & _); apply sin_ge_0; assumption).
    rewrite <- (sqrt_Rsqr (sin (snd (fst P)))) by assumption. f_equal. pose proof (sin2_cos2 (snd (fst P))) as E. rewrite Ec in E. unfold Rsqr in *. lra. }
  assert (E3 : snd P = 0).
  { unfold P, xyz_to_sph. cbn [snd]. rewrite x_safe_0. cbn [ratan2 ROps]. unfold Ratan2. destruct (Rlt_dec 0 e10); [|lra]. unfold Rdiv. now rewrite Rmult_0_l, atan_0. }
  unfold back, sph_to_xyz.
  change (match P with (r, th, ph) => _ end) with (rmul (rmul (@norm3 R ROps 0 0 z) (rsin (snd (fst P)))) (rcos (snd P)), rmul (rmul (@norm3 R ROps 0 0 z) (rsin (snd (fst P)))) (rsin (snd P)), rmul (@norm3 R ROps 0 0 z) (rcos (snd (fst P)))).
  cbn [rmul rsin rcos ROps]. rewrite En, Ec, Es, E3, cos_0, sin_0. apply injective_projections; [apply injective_projections|]; cbn [fst snd]; ring.
Qed.

(** ** the other direction *)
Lemma atan2_of_polar rho ph : 0 < rho -> - PI < ph < PI -> cos ph <> 0 -> Ratan2 (rho * sin ph) (rho * cos ph) = ph.
Proof.
  intros Hr Hp Hc. pose proof PI_RGT_0 as HPI.
  assert (Et : rho * sin ph / (rho * cos ph) = tan ph) by (unfold tan; field; split; lra).
  unfold Ratan2. rewrite Et.
  assert (Hq : - (PI / 2) < ph < PI / 2 \/ PI / 2 < ph \/ ph < - (PI / 2)).
  { destruct (Rlt_dec (PI / 2) ph); [tauto|]. destruct (Rlt_dec ph (- (PI / 2))); [tauto|]. left. split.
    - destruct (Req_dec ph (- (PI / 2))) as [E|E]; [|lra]. exfalso. apply Hc. rewrite E, cos_neg. apply cos_PI2.
    - destruct (Req_dec ph (PI / 2)) as [E|E]; [|lra]. exfalso. apply Hc. rewrite E. apply cos_PI2. }
  destruct Hq as [Hq|[Hq|Hq]].
  - assert (0 < cos ph) by (apply cos_gt_0; lra). destruct (Rlt_dec 0 (rho * cos ph)); [|exfalso; nra]. apply atan_tan. lra.
  - assert (cos ph < 0) by (apply cos_lt_0; lra). assert (0 < sin ph) by (apply sin_gt_0; lra).
    destruct (Rlt_dec 0 (rho * cos ph)); [exfalso; nra|]. destruct (Rlt_dec (rho * cos ph) 0); [|exfalso; nra]. destruct (Rle_dec 0 (rho * sin ph)); [|exfalso; nra].
    replace (tan ph) with (tan (ph - PI)). { rewrite atan_tan; lra. }
    unfold tan. replace (ph - PI) with (- (PI - ph)) by ring. rewrite sin_neg, cos_neg, <- (sin_PI_x ph), Rtrigo_facts.cos_pi_minus. field. exact Hc.
  - assert (Hc' : cos ph < 0) by (rewrite <- cos_neg; apply cos_lt_0; lra). assert (Hs' : sin ph < 0) by (rewrite <- (Ropp_involutive ph), sin_neg; assert (0 < sin (- ph)) by (apply sin_gt_0; lra); lra).
    destruct (Rlt_dec 0 (rho * cos ph)); [exfalso; nra|]. destruct (Rlt_dec (rho * cos ph) 0); [|exfalso; nra]. destruct (Rle_dec 0 (rho * sin ph)); [exfalso; nra|].
    replace (tan ph) with (tan (ph + PI)). { rewrite atan_tan; lra. }
    unfold tan. rewrite neg_sin, neg_cos. field. exact Hc.
Qed.
Lemma round_trip_back e10 r th ph : 0 < e10 < 1 -> 0 < r -> 0 < th < PI -> - PI < ph < PI -> cos ph <> 0 -> Rabs (cos th) <= 1 - e10 ->
  let '(x, y, z) := @sph_to_xyz R ROps r th ph in @xyz_to_sph R ROps e10 x y z = (r, th, ph).
Proof.
  intros He Hr Hth Hph Hc Hcl. unfold sph_to_xyz. cbn [rmul rsin rcos ROps].
  assert (Hs : 0 < sin th) by (apply sin_gt_0; lra). pose proof (sin2_cos2 th) as E1. pose proof (sin2_cos2 ph) as E2. unfold Rsqr in *.
  assert (En : @norm3 R ROps (r * sin th * cos ph) (r * sin th * sin ph) (r * cos th) = r).
  { rewrite norm3_def. replace (r * sin th * cos ph * (r * sin th * cos ph) + r * sin th * sin ph * (r * sin th * sin ph) + r * cos th * (r * cos th)) with (r * r).
    - apply sqrt_square. lra.
    - replace (r * sin th * cos ph * (r * sin th * cos ph) + r * sin th * sin ph * (r * sin th * sin ph)) with (r * r * (sin th * sin th) * (sin ph * sin ph + cos ph * cos ph)) by ring.
      rewrite E2. replace (r * r * (sin th * sin th) * 1 + r * cos th * (r * cos th)) with (r * r * (sin th * sin th + cos th * cos th)) by ring. rewrite E1. ring. }
  unfold xyz_to_sph. rewrite En. f_equal; [f_equal|].
  - cbn [racos ROps rdiv reqb rzero]. unfold Reqb. destruct (Req_EM_T r 0); [lra|]. replace (r * cos th / r) with (cos th) by (field; lra).
    apply Rabs_le_between in Hcl. rewrite clamp_id by (cbn; lra). apply acos_cos. lra.
  - rewrite x_safe_nz.
    + apply atan2_of_polar; try assumption. apply Rmult_lt_0_compat; lra.
    + intros E. apply Hc. apply Rmult_integral in E. destruct E as [E|E]; [nra|exact E].
Qed.
