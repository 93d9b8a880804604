(** C53-C57, C66, C75: coordinates, rotations, illuminations, plane-wave
    expansion coefficients. *)
From Coq Require Import Reals ZArith List Bool String Arith Lia Lra.
From Coquelicot Require Import Coquelicot.
From Verif Require Import Ops ROps ModelSpecial ModelMie ModelBatch ModelNear NearField ModelGeom GeomSpec GeomProofs RotProofs IllumProofs PlaneWaveProofs.
Import ListNotations.
Open Scope R_scope.

(** C53: [e10] is the clamp width 10 eps; [back] is transform_spherical_to_xyz on a triple. *)
Theorem C53_round_trip : forall e10 x y z, 0 < e10 < 1 -> x <> 0 -> Rabs z <= (1 - e10) * sqrt (x * x + y * y + z * z) ->
  back (@xyz_to_sph R ROps e10 x y z) = (x, y, z).
Proof. intros e10 x y z He Hx Hz. apply round_trip; [exact He|exact Hx|now rewrite norm3_def]. Qed.
Print Assumptions C53_round_trip.
Theorem C53_norm_and_ranges : forall e10 x y z, fst (fst (@xyz_to_sph R ROps e10 x y z)) = sqrt (x * x + y * y + z * z) /\
  0 <= fst (fst (@xyz_to_sph R ROps e10 x y z)) /\ 0 <= snd (fst (@xyz_to_sph R ROps e10 x y z)) <= PI /\ - PI < snd (@xyz_to_sph R ROps e10 x y z) <= PI.
Proof. intros. split; [apply sph_r|apply sph_ranges]. Qed.
Print Assumptions C53_norm_and_ranges.
(** C53: the other direction. *)
Theorem C53_inverse : forall e10 r th ph, 0 < e10 < 1 -> 0 < r -> 0 < th < PI -> - PI < ph < PI -> cos ph <> 0 -> Rabs (cos th) <= 1 - e10 ->
  let '(x, y, z) := @sph_to_xyz R ROps r th ph in @xyz_to_sph R ROps e10 x y z = (r, th, ph).
Proof. exact round_trip_back. Qed.
Print Assumptions C53_inverse.
(** C53: on the plane x = 0 the point is moved, by at most 10 eps. *)
Theorem C53_plane_x0 : forall e10 y z, 0 < e10 < 1 -> y <> 0 -> Rabs z <= (1 - e10) * @norm3 R ROps 0 y z ->
  exists x' y', back (@xyz_to_sph R ROps e10 0 y z) = (x', y', z) /\ 0 < x' < e10 /\ Rabs (y' - y) <= e10 /\ Rabs y' < Rabs y.
Proof. exact round_trip_x0. Qed.
Print Assumptions C53_plane_x0.
(** C53: on the z axis it is moved sideways by r sqrt(2 e10 - e10^2), of the order of the square root of the machine precision. *)
Theorem C53_axis : forall e10 z, 0 < e10 < 1 -> 0 < z ->
  back (@xyz_to_sph R ROps e10 0 0 z) = (z * sqrt (e10 * (2 - e10)), 0, z * (1 - e10)).
Proof. exact axis_moved. Qed.
Print Assumptions C53_axis.
Example C53_instance : back (@xyz_to_sph R ROps (1/10) (-2) 1 2) = (-2, 1, 2).
Proof.
  apply C53_round_trip; [lra|lra|]. replace (-2 * -2 + 1 * 1 + 2 * 2) with (3 * 3) by ring. rewrite sqrt_square by lra. rewrite Rabs_pos_eq; lra.
Qed.

(** C54 *)
Theorem C54_products : forall th ph (E F : @vec3 R), inner (@field_to_xyz R ROps th ph E) (@field_to_xyz R ROps th ph F) = inner E F.
Proof. exact field_products. Qed.
Print Assumptions C54_products.
(** the basis is (e_r, e_theta, e_phi), right-handed, with the position along e_r *)
Theorem C54_basis : forall th ph,
  (@field_to_xyz R ROps th ph (RtoC 1, RtoC 0, RtoC 0) = cv_of (e_r th ph) /\ @field_to_xyz R ROps th ph (RtoC 0, RtoC 1, RtoC 0) = cv_of (e_th th ph) /\
   @field_to_xyz R ROps th ph (RtoC 0, RtoC 0, RtoC 1) = cv_of (e_ph th ph)) /\
  (cross (e_r th ph) (e_th th ph) = e_ph th ph /\ dot (e_r th ph) (e_r th ph) = 1) /\
  forall r, @eq vec (@sph_to_xyz R ROps r th ph) (app (tr (e_r th ph, e_th th ph, e_ph th ph)) (r, 0, 0)).
Proof. intros th ph. split; [apply field_unit|]. split; [apply unit_frame|]. intros r. apply basis_radial. Qed.
Print Assumptions C54_basis.
(** it is linear: given by a proper rotation matrix *)
Theorem C54_rotation : forall th ph (E : @vec3 R), @field_to_xyz R ROps th ph E = capp (tr (e_r th ph, e_th th ph, e_ph th ph)) E /\ rotation (tr (e_r th ph, e_th th ph, e_ph th ph)).
Proof. intros th ph E. split; [apply field_is_capp|apply basis_rotation]. Qed.
Print Assumptions C54_rotation.

(** C55 *)
Theorem C55_rotations : forall a, rotation (@rotation_x R ROps a) /\ rotation (@rotation_y R ROps a) /\ rotation (@rotation_z R ROps a).
Proof. exact rotations. Qed.
Print Assumptions C55_rotations.
Theorem C55_additive : forall a b, mmul (@rotation_x R ROps a) (@rotation_x R ROps b) = @rotation_x R ROps (a + b) /\
  mmul (@rotation_y R ROps a) (@rotation_y R ROps b) = @rotation_y R ROps (a + b) /\ mmul (@rotation_z R ROps a) (@rotation_z R ROps b) = @rotation_z R ROps (a + b).
Proof. exact rotation_add. Qed.
Print Assumptions C55_additive.
Theorem C55_axes : forall a, app (@rotation_x R ROps a) (1, 0, 0) = (1, 0, 0) /\ app (@rotation_y R ROps a) (0, 1, 0) = (0, 1, 0) /\ app (@rotation_z R ROps a) (0, 0, 1) = (0, 0, 1).
Proof. exact rotation_axis. Qed.
Print Assumptions C55_axes.
(** the sense: acting on columns they turn y to z, z to x and x to y (the docstrings say clockwise) *)
Theorem C55_sense : forall a, app (@rotation_x R ROps a) (0, 1, 0) = (0, cos a, sin a) /\ app (@rotation_y R ROps a) (0, 0, 1) = (sin a, 0, cos a) /\ app (@rotation_z R ROps a) (1, 0, 0) = (cos a, sin a, 0).
Proof. exact rotation_sense. Qed.
Print Assumptions C55_sense.

(** C56 *)
Theorem C56_frame : forall p s al, @plane_wave_rotation R ROps al (plane_name p) (pol_name s) = Ok (frame p s al) /\ rotation (frame p s al) /\
  app (frame p s al) (0, 0, 1) = k_want p al /\ app (frame p s al) (1, 0, 0) = e_want p s al /\ app (frame p s al) (0, 1, 0) = cross (k_want p al) (e_want p s al).
Proof. intros p s al. split; [apply pwr_ok|apply frame_facts]. Qed.
Print Assumptions C56_frame.
Theorem C56_transverse : forall p s al, dot (e_want p s al) (e_want p s al) = 1 /\ dot (k_want p al) (k_want p al) = 1 /\ dot (e_want p s al) (k_want p al) = 0.
Proof. exact want_unit. Qed.
Print Assumptions C56_transverse.
Theorem C56_evaluation : forall (nf : vec -> @four R) p s al (rp rg : list vec),
  @eval_mie R ROps nf (the_conf p s al) rp rg =
  Ok (map (seen (fun r => q_Es (nf r)) (frame p s al)) rp, map (seen (fun r => q_Hs (nf r)) (frame p s al)) rp,
      map (seen (fun r => q_Ei (nf r)) (frame p s al)) rg, map (seen (fun r => q_Hi (nf r)) (frame p s al)) rg).
Proof. exact eval_ok. Qed.
Print Assumptions C56_evaluation.
Theorem C56_products_kept : forall f g p s al r, let m := frame p s al in
  inner (seen f m r) (seen g m r) = inner (f (app (tr m) r)) (g (app (tr m) r)) /\ dot (app (tr m) r) (app (tr m) r) = dot r r.
Proof. exact products_kept. Qed.
Print Assumptions C56_products_kept.
(** the incident field is the plane wave with the requested direction and polarisation, its
    magnetic field along k x e; off the clamp cone around the direction of incidence *)
Theorem C56_incident_wave : forall n_max n_add e10 k0 eps_env core shells E0 p s al (r : vec), 0 < e10 < 1 -> Rabs (dot (k_want p al) r) <= (1 - e10) * sqrt (dot r r) ->
  let k := (RtoC k0 * @csqrt R ROps eps_env)%C in let w := plane_wave k E0 (dot (k_want p al) r) in
  let nf := pena_fields n_max n_add e10 k0 eps_env core shells E0 in
  seen (fun r => q_Ei (nf r)) (frame p s al) r = csc w (cv_of (e_want p s al)) /\
  seen (fun r => q_Hi (nf r)) (frame p s al) r = csc (@csqrt R ROps eps_env * w)%C (cv_of (cross (k_want p al) (e_want p s al))).
Proof. exact incident_wave. Qed.
Print Assumptions C56_incident_wave.
Example C56_instance : Rabs (dot (k_want XZ 0) (3, 0, 4)) <= (1 - 1/10) * sqrt (dot (3, 0, 4) (3, 0, 4)) /\ k_want XZ 0 = (0, 0, 1) /\ e_want XZ false 0 = (-1, 0, 0).
Proof.
  unfold k_want, e_want, comb, first_axis, second_axis, dot. rewrite sin_0, cos_0.
  replace (3 * 3 + 0 * 0 + 4 * 4) with (5 * 5) by ring. rewrite sqrt_square by lra. repeat split; pairs; try ring. rewrite Rabs_pos_eq; lra.
Qed.
(** turning the angle of incidence turns all fields about the normal of the plane *)
Theorem C56_turn : forall (nf : vec -> @four R) p s al b rp rg, exists Es Hs Ei Hi,
  @eval_mie R ROps nf (the_conf p s al) rp rg = Ok (Es, Hs, Ei, Hi) /\
  @eval_mie R ROps nf (the_conf p s (al + b)) (map (app (turn p b)) rp) (map (app (turn p b)) rg) =
    Ok (map (capp (turn p b)) Es, map (capp (turn p b)) Hs, map (capp (turn p b)) Ei, map (capp (turn p b)) Hi).
Proof. exact eval_turn. Qed.
Print Assumptions C56_turn.
Theorem C56_unsupported : forall (nf : vec -> @four R) al pl po rp rg, (forall p, pl <> plane_name p) \/ (forall s, po <> pol_name s) ->
  @eval_mie R ROps nf {| cf_angle := al; cf_plane := pl; cf_pol := po |} rp rg = Err ValueError /\ @plane_wave_rotation R ROps al pl po = Err ValueError.
Proof. exact unsupported. Qed.
Print Assumptions C56_unsupported.
Example C56_unsupported_instance : (forall p, "zx"%string <> plane_name p) /\ (forall s, "S"%string <> pol_name s).
Proof. split; [intros []|intros []]; discriminate. Qed.

(** C57 *)
Theorem C57_count : forall n planes, (-1 <= n)%Z -> exists l, @setup_configs R ROps n planes = Ok l /\ List.length l = (2 * Z.to_nat n * List.length planes)%nat /\
  (forall c, In c l <-> exists i p s, (i < Z.to_nat n)%nat /\ In p planes /\ c = {| cf_angle := 2 * PI * INR i / INR (Z.to_nat n); cf_plane := p; cf_pol := pol_name s |}) /\
  (NoDup planes -> NoDup l).
Proof. intros n planes Hn. eexists. split; [now apply configs_eq|]. split; [apply conf_count|]. split; [intros c; apply conf_in|apply conf_nodup]. Qed.
Print Assumptions C57_count.
Theorem C57_angles : forall n i, (i < n)%nat -> 0 <= angle_of n i < 2 * PI /\ angle_of n 0 = 0 /\ angle_of n (S i) - angle_of n i = 2 * PI / INR n.
Proof. exact angle_range. Qed.
Print Assumptions C57_angles.
Theorem C57_negative : forall n planes, (n < -1)%Z -> @setup_configs R ROps n planes = Err RuntimeError.
Proof. exact configs_negative. Qed.
Print Assumptions C57_negative.
Example C57_instance : List.length (conf_list 12 ["xz"; "yz"; "xy"]%string) = 72%nat /\ NoDup ["xz"; "yz"; "xy"]%string.
Proof. split; [now rewrite conf_count|]. repeat (constructor; [cbn; intuition discriminate|]). constructor. Qed.

(** C66 *)
Theorem C66_expansion : forall n, (0 <= n)%Z -> exists l, @plane_wave_expansion R ROps n = Ok l /\ List.length l = Z.to_nat n /\
  forall j, (1 <= j <= Z.to_nat n)%nat -> nth (j - 1) l (RtoC 0) = (ipow j * RtoC ((2 * INR j + 1) / (INR j * (INR j + 1))))%C /\
    Cmod (nth (j - 1) l (RtoC 0)) = (2 * INR j + 1) / (INR j * (INR j + 1)).
Proof. exact pw_ok. Qed.
Print Assumptions C66_expansion.
Theorem C66_period : forall n, ipow (n + 4) = ipow n /\ ipow 0 = RtoC 1 /\ ipow 1 = Ci /\ ipow 2 = RtoC (-1) /\ ipow 3 = (- Ci)%C.
Proof. intros n. split; [apply ipow_period|]. repeat split. Qed.
Print Assumptions C66_period.
Theorem C66_negative : forall n, (n < 0)%Z -> @plane_wave_expansion R ROps n = Err AssertionError.
Proof. exact pw_neg. Qed.
Print Assumptions C66_negative.
Theorem C66_same_factor : forall n (E0 : C), (1 <= n)%nat -> @pw_factor R ROps n E0 = (E0 * (ipow n * RtoC ((2 * INR n + 1) / (INR n * (INR n + 1)))))%C.
Proof. exact pw_factor_eq. Qed.
Print Assumptions C66_same_factor.

(** C75 *)
Theorem C75_common_factor : forall (fs : list (list cvec)), (forall l, In l fs -> l <> []) -> exists c, 0 < c <= 10 ^ 30 /\
  @normalise R ROps fs = Ok (map (map (scale_v c)) fs) /\
  (forall l v z, In l fs -> In v l -> In z (comps v) -> c * Cmod z <= 1) /\
  (c = 10 ^ 30 \/ exists l v z, In l fs /\ In v l /\ In z (comps v) /\ c * Cmod z = 1).
Proof. exact normalise_ok. Qed.
Print Assumptions C75_common_factor.
Theorem C75_empty : forall (fs : list (list cvec)), In [] fs -> @normalise R ROps fs = Err RuntimeError.
Proof. exact normalise_empty. Qed.
Print Assumptions C75_empty.
Example C75_instance : forall l, In l [[(RtoC 1, RtoC 0, Ci)]; [(RtoC 0, RtoC 2, Ci)]] -> l <> ([] : list cvec).
Proof. intros l [<-|[<-|[]]]; discriminate. Qed.
