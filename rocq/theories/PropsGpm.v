(** C89: training data of the GPM extraction (extract_GPM_sphere_miediff). *)
From Coq Require Import Reals ZArith List Bool String Arith Lia Lra.
From Coquelicot Require Import Coquelicot.
From Verif Require Import Ops ROps Tensor ModelMaterial ModelSpecial ModelMie ModelBatch ModelNear NearField NearLegacySpec ModelParticle ParticleSpec
  ModelParticleNear ModelTg TgSpec TgProofs ModelGpm ModelGeom GeomSpec RotProofs IllumProofs GpmSpec GpmEnd PropsTg.
Import ListNotations.
Open Scope nat_scope.
Open Scope list_scope.

Theorem C89_training_fields : forall sj sy jr e10 pi d p h wls is L rs lf v, setting sj sy jr d p h wls is L rs lf v ->
  forall n b N probe gpm Q M, (1 <= n)%Z -> lower (resolve_backend p b) = "pena"%string ->
  (-1 <= N)%Z -> shp probe = [Q; 3] -> shp gpm = [M; 3] -> 1 <= Q -> 1 <= M ->
  exists h' ts, gpm_training e10 sj sy jr pi p wls NNone N probe gpm (Some n) b h = (h', Ok ts) /\ List.length ts = List.length wls /\
  forall k t, nth_error ts k = Some t -> tr_wl t = nth k wls 0%R /\ tr_env t = fst v /\
    trained (pena_fields (Z.to_nat n) 15 e10 (2 * PI / nth k wls 0)%R v (nth 0 rs 0%R, lf 0 k) (map (fun l => (nth l rs 0%R, lf l k)) (seq 1 (L - 1))) (RtoC 1))
      (Z.to_nat N) Q M probe gpm t.
Proof. exact training_fields. Qed.
Print Assumptions C89_training_fields.
(** the incident rows are the requested plane waves, off the clamp cone around the direction of incidence *)
Theorem C89_incident_rows : forall n_max n_add e10 k0 eps core shells E0 N Q M probe gpm t, (0 < e10 < 1)%R ->
  trained (pena_fields n_max n_add e10 k0 eps core shells E0) N Q M probe gpm t -> forall a pl s, a < N -> exists c, (0 < c <= 10 ^ 30)%R /\
  forall q cp, q < M -> cp < 3 -> let al := (2 * PI * INR a / INR N)%R in let r := pt gpm q in (Rabs (dot (k_want pl al) r) <= (1 - e10) * sqrt (dot r r))%R ->
    let w := plane_wave (RtoC k0 * @csqrt R ROps eps)%C E0 (dot (k_want pl al) r) in
    at_ (tr_ei t) [row_no a pl s; q; cp] = (RtoC c * (w * comp cp (cv_of (e_want pl s al))))%C /\
    at_ (tr_hi t) [row_no a pl s; q; cp] = (RtoC c * (@csqrt R ROps eps * w * comp cp (cv_of (cross (k_want pl al) (e_want pl s al)))))%C.
Proof. exact training_incident. Qed.
Print Assumptions C89_incident_rows.
(** an index of the medium given as a number never works *)
Theorem C89_number_refused : forall sj sy jr e10 pi d p h wls is L rs lf v, setting sj sy jr d p h wls is L rs lf v -> forall z n b N probe gpm,
  exists er, snd (gpm_training e10 sj sy jr pi p wls (NNum z) N probe gpm n b h) = Err er.
Proof. exact training_number. Qed.
Print Assumptions C89_number_refused.
Theorem C89_negative_angles : forall sj sy jr e10 pi d p h wls is L rs lf v, setting sj sy jr d p h wls is L rs lf v -> forall n b N probe gpm, (N < -1)%Z ->
  snd (gpm_training e10 sj sy jr pi p wls NNone N probe gpm n b h) = Err RuntimeError.
Proof. exact training_negative. Qed.
Print Assumptions C89_negative_angles.
(** three layers at two wavelengths, four angles, two probe points and one interior point *)
Example C89_instance : forall sj sy jr pi, exists p h h' t1 t2,
  let probe := mkT [2; 3] (fun ix => match ix with [0; 0] => 150 | [1; 1] => 170 | _ => 20 end)%R in let gpm := mkT [1; 3] (fun _ => 10%R) in
  gpm_training (/ 10)%R sj sy jr pi p [500; 600]%R NNone 4 probe gpm (Some 3%Z) None h = (h', Ok [t1; t2]) /\
  shp (tr_es t1) = [24; 2; 3] /\ shp (tr_hi t2) = [24; 1; 3] /\ tr_wl t2 = 600%R /\
  exists c, (0 < c)%R /\ at_ (tr_ei t1) [row_no 0 XZ true; 0; 1] =
    (RtoC c * (plane_wave (RtoC (2 * PI / 500) * @csqrt R ROps (RtoC 1 * RtoC 1)%C)%C (RtoC 1) (dot (k_want XZ 0) (10, 10, 10)%R) * RtoC 1))%C.
Proof.
  intros sj sy jr pi. destruct (C58_settings_exist sj sy jr [50; 80; 100]%R [RtoC 2; RtoC 3; RtoC 2] (RtoC 1) [500; 600]%R) as (h & p & is & _ & St); try easy.
  { intros [|[|[|l]]] H; cbn in *; lra || lia. }
  { intros [|[|k]] H; cbn in *; lra || lia. }
  set (probe := mkT [2; 3] (fun ix => match ix with [0; 0] => 150 | [1; 1] => 170 | _ => 20 end)%R). set (gpm := mkT [1; 3] (fun _ => 10%R)).
  destruct (C89_training_fields _ _ _ (/ 10)%R pi _ _ _ _ _ _ _ _ _ St 3%Z None 4%Z probe gpm 2 1) as (h' & ts & E & Hl & G); try (reflexivity || lia).
  { unfold resolve_backend. now rewrite (numel_r _ _ _ _ _ _ _ _ _ _ _ _ St). }
  destruct ts as [|t1 [|t2 [|]]]; try discriminate. destruct (G 0 t1 eq_refl) as (_ & _ & T1). destruct (G 1 t2 eq_refl) as (W2 & _ & T2).
  exists p, h, h', t1, t2. cbv zeta. split; [exact E|]. split; [exact (proj1 (td_shapes _ _ _ _ _ _ _ T1))|]. split; [exact (proj2 (proj2 (proj2 (td_shapes _ _ _ _ _ _ _ T2))))|].
  split; [exact W2|]. destruct (fun He : (0 < / 10 < 1)%R => C89_incident_rows _ _ (/ 10)%R _ _ _ _ _ _ _ _ _ _ _ He T1 0 XZ true ltac:(cbn; lia)) as (c & Hc & V); [lra|].
  exists c. split; [apply Hc|]. specialize (V 0 1 ltac:(lia) ltac:(lia)). cbv zeta in V.
  replace (2 * PI * INR 0 / INR (Z.to_nat 4))%R with 0%R in V by (cbn [INR]; unfold Rdiv; ring).
  apply V. unfold pt, k_want, comb, first_axis, second_axis, dot. cbn [at_ gpm]. rewrite sin_0, cos_0.
  assert (H17 : (17 <= sqrt (10 * 10 + 10 * 10 + 10 * 10))%R) by (rewrite <- (sqrt_square 17) by lra; apply sqrt_le_1_alt; lra).
  rewrite Rabs_pos_eq by lra. lra.
Qed.
