(** Derivatives of the spherical coordinates of a position (C87). *)
From Coq Require Import Reals ZArith Lra Lia List Bool Arith.
From Coquelicot Require Import Coquelicot.
From Verif Require Import Ops ROps Spec CTrig CLemmas ModelSpecial ModelMie ModelNear ModelGrad ModelGradNear GradSpec GradNearSpec GradOps NearField GradNearEnd.
Import ListNotations.
Open Scope R_scope.

Section Point.
  Variable t0 : R.
  Notation car := (carries t0).

  Lemma car_acos f d : car f d -> -1 < f t0 < 1 -> car (fun t => acos (f t)) (@racos dual DOps d).
  Proof.
    intros H Hb. pose proof (proj1 H) as E. eapply car_id_eq; [apply (car_comp t0 acos (- / sqrt (1 - f t0 * f t0)) f d H)|].
    - apply is_derive_Reals. pose proof (derive_pt_eq_1 _ _ _ _ (derive_pt_acos (f t0) Hb)) as D.
      replace (- / sqrt (1 - f t0 * f t0)) with (-1 / sqrt (1 - (f t0)²)) by (unfold Rsqr, Rdiv; ring). exact D.
    - cbn. rewrite E. f_equal. unfold Rdiv. ring.
  Qed.
  Lemma car_atan f d : car f d -> car (fun t => atan (f t)) (atan (fst d), snd d / (1 + fst d * fst d)).
  Proof.
    intros H. pose proof (proj1 H) as E. eapply car_id_eq; [apply (car_comp t0 atan (/ (1 + f t0 * f t0)) f d H)|].
    - apply is_derive_Reals. replace (f t0 * f t0) with (f t0 ^ 2) by ring. apply derivable_pt_lim_atan.
    - rewrite E. reflexivity.
  Qed.
  Lemma car_atan2 y x dy dx : car y dy -> car x dx -> x t0 <> 0 -> 0 < x t0 \/ y t0 <> 0 -> car (fun t => Ratan2 (y t) (x t)) (@ratan2 dual DOps dy dx).
  Proof.
    intros Hy Hx Hn Hc. pose proof (car_atan _ _ (car_div t0 _ _ _ _ Hy Hx Hn)) as A.
    pose proof (car_const t0 0) as Z. pose proof (proj1 Hy) as Ey. pose proof (proj1 Hx) as Ex.
    assert (Ed : forall c, (fst (@rdiv dual DOps dy dx) = y t0 / x t0) /\
      snd (@rdiv dual DOps dy dx) / (1 + fst (@rdiv dual DOps dy dx) * fst (@rdiv dual DOps dy dx)) + c = (fst dx * snd dy - fst dy * snd dx) / (fst dx * fst dx + fst dy * fst dy) + c).
    { intros c. cbn [rdiv DOps fst snd]. split; [now rewrite Ey, Ex|]. rewrite <- Ey, <- Ex. f_equal. field. split; [nra|exact Hn]. }
    assert (K : forall c, locally t0 (fun t => atan (y t / x t) + c = Ratan2 (y t) (x t)) -> car (fun t => Ratan2 (y t) (x t)) (@ratan2 dual DOps dy dx)).
    { intros c Hl. apply (car_loc t0 (fun t => atan (y t / x t) + c)); [exact Hl|]. eapply car_id_eq; [exact (car_add t0 _ _ _ _ A (car_const t0 c))|].
      destruct (Ed 0) as [E1 E2]. cbn [radd ratan2 DOps fst snd] in *. pose proof (locally_singleton _ _ Hl) as Q. cbv beta in Q.
      f_equal; [rewrite E1, <- Ey, <- Ex; exact Q|]. rewrite E2. ring. }
    destruct (Rtotal_order (x t0) 0) as [L|[L|L]]; [|contradiction|].
    - assert (Hy0 : y t0 <> 0) by (destruct Hc; [lra|assumption]). pose proof (lt_loc t0 _ _ _ _ Hx Z L) as Lx.
      destruct (Rtotal_order (y t0) 0) as [M|[M|M]]; [|contradiction|].
      + apply (K (- PI)). pose proof (lt_loc t0 _ _ _ _ Hy Z M) as Ly. eapply filter_imp; [|exact (filter_and _ _ Lx Ly)]. intros t [A1 A2]. cbv beta in *.
        unfold Ratan2. destruct (Rlt_dec 0 (x t)); [lra|]. destruct (Rlt_dec (x t) 0); [|lra]. destruct (Rle_dec 0 (y t)); [lra|]. reflexivity.
      + apply (K PI). pose proof (lt_loc t0 _ _ _ _ Z Hy M) as Ly. eapply filter_imp; [|exact (filter_and _ _ Lx Ly)]. intros t [A1 A2]. cbv beta in *.
        unfold Ratan2. destruct (Rlt_dec 0 (x t)); [lra|]. destruct (Rlt_dec (x t) 0); [|lra]. destruct (Rle_dec 0 (y t)); [|lra]. reflexivity.
    - apply (K 0). eapply filter_imp; [|exact (lt_loc t0 _ _ _ _ Z Hx L)]. intros t A1. cbv beta in *. unfold Ratan2. destruct (Rlt_dec 0 (x t)); [|lra]. ring.
  Qed.
  Lemma neq_loc f d : car f d -> f t0 <> 0 -> locally t0 (fun t => f t <> 0).
  Proof.
    intros H Hn. pose proof (car_const t0 0) as Z. destruct (Rtotal_order (f t0) 0) as [L|[L|L]]; [|contradiction|].
    - eapply filter_imp; [|exact (lt_loc t0 _ _ _ _ H Z L)]. intros t A1. cbv beta in A1. lra.
    - eapply filter_imp; [|exact (lt_loc t0 _ _ _ _ Z H L)]. intros t A1. cbv beta in A1. lra.
  Qed.

  Theorem position_ok e10 x y z dx dy dz : car x dx -> car y dy -> car z dz -> smooth_position e10 (x t0) (y t0) (z t0) ->
    carries_point t0 (fun t => point_of e10 (x t) (y t) (z t)) (grad_point e10 dx dy dz).
  Proof.
    intros Hx Hy Hz (He & Hn & Hc & Hcl).
    assert (Hr2 : 0 < x t0 ^ 2 + y t0 ^ 2 + z t0 ^ 2) by nra.
    assert (Hr : car (fun t => @norm3 R ROps (x t) (y t) (z t)) (@norm3 dual DOps dx dy dz)).
    { unfold norm3. apply (car_sqrt t0 (fun t => x t ^ 2 + y t ^ 2 + z t ^ 2)); [|exact Hr2].
      apply (car_add t0 (fun t => x t ^ 2 + y t ^ 2)); [|now apply car_sqr]. apply (car_add t0 (fun t => x t ^ 2)); now apply car_sqr. }
    assert (Er : @norm3 R ROps (x t0) (y t0) (z t0) = sqrt (x t0 * x t0 + y t0 * y t0 + z t0 * z t0)).
    { unfold norm3, rsqr. cbn [rsqrt radd rmul rone ROps]. f_equal. ring. }
    rewrite <- Er in Hcl. set (r := fun t => @norm3 R ROps (x t) (y t) (z t)) in *. change (@norm3 R ROps (x t0) (y t0) (z t0)) with (r t0) in *.
    assert (Hr0 : 0 < r t0) by (rewrite Er; apply sqrt_lt_R0; nra).
    set (dr := @norm3 dual DOps dx dy dz) in *.
    assert (Vr : reqb dr rzero = false).
    { cbn [reqb rzero DOps fst]. rewrite <- (proj1 Hr). unfold Reqb. destruct (Req_EM_T (r t0) 0); [lra|reflexivity]. }
    pose proof (car_div t0 _ _ _ _ Hz Hr ltac:(lra)) as Hq. set (q := fun t => z t / r t) in *. set (dq := @rdiv dual DOps dz dr) in *.
    assert (Hb : - 1 + e10 < q t0 < 1 - e10).
    { apply Rabs_def2 in Hcl. unfold q. destruct Hcl as [C1 C2]. split; (apply (Rmult_lt_reg_r (r t0)); [exact Hr0|]); unfold Rdiv; rewrite ?Rmult_assoc, ?Rinv_l, ?Rmult_1_r by lra; lra. }
    assert (Lq : locally t0 (fun t => - 1 + e10 < q t < 1 - e10)).
    { apply filter_and; [exact (lt_loc t0 _ _ _ _ (car_const t0 (- 1 + e10)) Hq (proj1 Hb))|exact (lt_loc t0 _ _ _ _ Hq (car_const t0 (1 - e10)) (proj2 Hb))]. }
    pose proof (neq_loc r dr Hr ltac:(lra)) as Lr. pose proof (neq_loc x dx Hx Hn) as Lx.
    assert (Ept : forall t, point_of e10 (x t) (y t) (z t) = {| pt_r := r t; pt_theta := acos (@clamp_t R ROps (- 1 + e10) (1 - e10) (z t / (if Reqb (r t) 0 then @rtenth R ROps 12 else r t)));
      pt_phi := Ratan2 (y t) (x t + (if Reqb (x t) 0 then 1 else 0) * e10) |}) by reflexivity.
    assert (Epd : grad_point e10 dx dy dz = {| pt_r := dr; pt_theta := @racos dual DOps (@clamp_t dual DOps (@radd dual DOps (@ropp dual DOps rone) (e10, 0)) (@rsub dual DOps rone (e10, 0)) (@rdiv dual DOps dz (if reqb dr rzero then rtenth 12 else dr)));
      pt_phi := @ratan2 dual DOps dy (@radd dual DOps dx (@rmul dual DOps (if reqb dx rzero then rone else rzero) (e10, 0))) |}) by reflexivity.
    rewrite Epd, Vr. unfold carries_point. cbn [pt_r pt_theta pt_phi]. split; [exact Hr|]. split.
    - fold dq. apply (car_loc t0 (fun t => acos (q t))).
      + eapply filter_imp; [|exact (filter_and _ _ Lq Lr)]. intros t [A1 A2]. cbv beta in A1, A2. rewrite Ept. cbn [pt_theta].
        unfold Reqb. destruct (Req_EM_T (r t) 0); [contradiction|]. unfold clamp_t. cbn [rltb ROps]. unfold Rltb. fold (q t).
        destruct (Rlt_dec (q t) (-1 + e10)); [lra|]. destruct (Rlt_dec (1 - e10) (q t)); [lra|]. reflexivity.
      + assert (Ec : @clamp_t dual DOps (@radd dual DOps (@ropp dual DOps rone) (e10, 0)) (@rsub dual DOps rone (e10, 0)) dq = dq).
        { unfold clamp_t, rsub. cbn [rltb DOps radd ropp rone fst snd]. pose proof (proj1 Hq) as Eq. rewrite <- Eq. unfold Rltb.
          destruct (Rlt_dec (q t0) (- (1) + e10)); [lra|]. rewrite <- Eq. destruct (Rlt_dec (1 + - e10) (q t0)); [lra|]. reflexivity. }
        rewrite Ec. apply car_acos; [exact Hq|]. lra.
    - assert (Vx : reqb dx rzero = false).
      { cbn [reqb rzero DOps fst]. rewrite <- (proj1 Hx). unfold Reqb. destruct (Req_EM_T (x t0) 0); [contradiction|reflexivity]. }
      rewrite Vx. assert (Ex : @radd dual DOps dx (@rmul dual DOps rzero (e10, 0)) = dx) by (destruct dx; cbn; f_equal; ring). rewrite Ex.
      apply (car_loc t0 (fun t => Ratan2 (y t) (x t))); [|apply car_atan2; assumption].
      eapply filter_imp; [|exact Lx]. intros t A1. cbv beta in A1. rewrite Ept. cbn [pt_phi]. unfold Reqb. destruct (Req_EM_T (x t) 0); [contradiction|]. now rewrite Rmult_0_l, Rplus_0_r.
  Qed.
End Point.

(* crossing the plane x = 0, where helper.py:255 replaces x by 10 eps, the azimuth jumps *)
Lemma plane_jump e10 (d : @point dual) : 0 < e10 -> ~ carries_point 0 (fun t => point_of e10 t 1 1) d.
Proof.
  intros He (_ & _ & H). pose proof (car_cont 0 _ _ H) as Hc.
  assert (E0 : pt_phi (point_of e10 0 1 1) = atan (1 / e10)).
  { unfold point_of, xyz_to_sph. cbn [pt_phi reqb radd rmul rone rzero ratan2 ROps]. unfold Reqb. destruct (Req_EM_T 0 0); [|lra].
    replace (0 + 1 * e10) with e10 by ring. unfold Ratan2. destruct (Rlt_dec 0 e10); [reflexivity|lra]. }
  assert (E1 : forall t, 0 < t -> pt_phi (point_of e10 t 1 1) = atan (1 / t)).
  { intros t Ht. unfold point_of, xyz_to_sph. cbn [pt_phi reqb radd rmul rone rzero ratan2 ROps]. unfold Reqb. destruct (Req_EM_T t 0); [lra|].
    replace (t + 0 * e10) with t by ring. unfold Ratan2. destruct (Rlt_dec 0 t); [reflexivity|lra]. }
  assert (B : atan (1 / e10) < atan (2 / e10)) by (apply atan_increasing; unfold Rdiv; apply Rmult_lt_compat_r; [apply Rinv_0_lt_compat|]; lra).
  assert (L : pt_phi (point_of e10 0 1 1) < atan (2 / e10)) by (rewrite E0; exact B).
  destruct (Hc _ (open_lt (atan (2 / e10)) _ L)) as [eps Heps].
  set (t := Rmin (eps / 2) (e10 / 2)). assert (Ht : 0 < t <= e10 / 2 /\ t < eps).
  { pose proof (cond_pos eps). pose proof (Rmin_l (eps / 2) (e10 / 2)). pose proof (Rmin_r (eps / 2) (e10 / 2)). unfold t. split; [split; [apply Rmin_glb_lt; lra|assumption]|lra]. }
  destruct Ht as [[T1 T2] T3]. specialize (Heps t). assert (Hb : ball 0 eps t) by (unfold ball; cbn; unfold AbsRing_ball, abs, minus, plus, opp; cbn; rewrite Ropp_0, Rplus_0_r, Rabs_pos_eq; lra).
  specialize (Heps Hb). cbv beta in Heps. rewrite (E1 t T1) in Heps.
  assert (2 / e10 <= 1 / t) by (apply (Rmult_le_reg_r (e10 * t)); [nra|]; replace (2 / e10 * (e10 * t)) with (2 * t) by (field; lra); replace (1 / t * (e10 * t)) with e10 by (field; lra); lra).
  destruct H0 as [H0|H0]; [apply atan_increasing in H0; lra|rewrite H0 in Heps; lra].
Qed.
