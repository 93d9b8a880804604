(** C100: azimuthal dependence and mirror symmetries of the near fields. *)
From Coq Require Import Reals ZArith List Bool String Arith Lra Lia.
From Coquelicot Require Import Complex.
From Verif Require Import Ops ROps Tensor ModelSpecial ModelMie ModelBatch BroadcastSpec BroadcastProofs BatchReal TruncProofs TorchBatch ExampleBatch ModelObs ModelJn ModelNear ModelNearLegacy ModelNearPena
  MirrorSpec MirrorProofs MirrorEnd ExampleMirror.
Import ListNotations.
Open Scope R_scope.

(** C100: at fixed distance and polar angle the scattered fields (inside a
    particle: the internal ones) depend on the azimuth through three numbers
    only, E like a vector driven along x, H like one driven along y. *)
Theorem C100_azimuth : forall n_max n_add k0 env core shells E0 r th,
  (exists u v w, forall ph, @E_s R ROps n_max n_add k0 env core shells E0 {| pt_r := r; pt_theta := th; pt_phi := ph |} = e_azimuth u v w ph) /\
  (exists u v w, forall ph, @H_s R ROps n_max n_add k0 env core shells E0 {| pt_r := r; pt_theta := th; pt_phi := ph |} = h_azimuth u v w ph).
Proof. exact azimuth. Qed.
Print Assumptions C100_azimuth.

(** C100: rows of the probe tensor that are mirror images in the plane y = 0
    (which contains the polarisation) get mirror-image fields: E reflected as
    a vector, H as an axial vector, in all six tensors. *)
Theorem C100_mirror_y : forall sj sy jr e10 E0 probe Q (c : @call R) o r eps K P L ef vf,
  mie_coefficients sj sy jr (without_internal c) = Ok o -> backend_is c "pena" -> inputs_of c = Ok (r, eps) ->
  valid (a_k0 c) r eps (a_env c) K P L ef vf -> (1 <= o_n_max o)%Z -> (1 <= P)%nat -> shp probe = [Q; 3]%nat -> 0 < e10 ->
  exists f, near_call_pena e10 sj sy jr E0 probe c = Ok f /\
  forall p k i j, (p < P)%nat -> (k < K)%nat -> (i < Q)%nat -> (j < Q)%nat -> mirror_y probe i j ->
    row (f_Ei f) p k j = signs 1 (-1) 1 (row (f_Ei f) p k i) /\ row (f_Hi f) p k j = signs (-1) 1 (-1) (row (f_Hi f) p k i) /\
    row (f_Es f) p k j = signs 1 (-1) 1 (row (f_Es f) p k i) /\ row (f_Hs f) p k j = signs (-1) 1 (-1) (row (f_Hs f) p k i) /\
    row (f_Et f) p k j = signs 1 (-1) 1 (row (f_Et f) p k i) /\ row (f_Ht f) p k j = signs (-1) 1 (-1) (row (f_Ht f) p k i).
Proof. exact call_mirror_y. Qed.
Print Assumptions C100_mirror_y.

(** C100: mirror images in the plane x = 0 (across the polarisation): E is
    reflected with a change of sign, H too. Positions with x = 0 are excluded:
    the code moves them to x = 1e-10. *)
Theorem C100_mirror_x : forall sj sy jr e10 E0 probe Q (c : @call R) o r eps K P L ef vf,
  mie_coefficients sj sy jr (without_internal c) = Ok o -> backend_is c "pena" -> inputs_of c = Ok (r, eps) ->
  valid (a_k0 c) r eps (a_env c) K P L ef vf -> (1 <= o_n_max o)%Z -> (1 <= P)%nat -> shp probe = [Q; 3]%nat -> 0 < e10 ->
  exists f, near_call_pena e10 sj sy jr E0 probe c = Ok f /\
  forall p k i j, (p < P)%nat -> (k < K)%nat -> (i < Q)%nat -> (j < Q)%nat -> mirror_x probe i j -> at_ probe [i; 0%nat] <> 0 ->
    row (f_Ei f) p k j = signs 1 (-1) (-1) (row (f_Ei f) p k i) /\ row (f_Hi f) p k j = signs (-1) 1 1 (row (f_Hi f) p k i) /\
    row (f_Es f) p k j = signs 1 (-1) (-1) (row (f_Es f) p k i) /\ row (f_Hs f) p k j = signs (-1) 1 1 (row (f_Hs f) p k i) /\
    row (f_Et f) p k j = signs 1 (-1) (-1) (row (f_Et f) p k i) /\ row (f_Ht f) p k j = signs (-1) 1 1 (row (f_Ht f) p k i).
Proof. exact call_mirror_x. Qed.
Print Assumptions C100_mirror_x.

(** C100: in the plane y = 0 no scattered or total E component sticks out of
    the plane and no H component lies in it. *)
Theorem C100_plane : forall sj sy jr e10 E0 probe Q (c : @call R) o r eps K P L ef vf,
  mie_coefficients sj sy jr (without_internal c) = Ok o -> backend_is c "pena" -> inputs_of c = Ok (r, eps) ->
  valid (a_k0 c) r eps (a_env c) K P L ef vf -> (1 <= o_n_max o)%Z -> (1 <= P)%nat -> shp probe = [Q; 3]%nat -> 0 < e10 ->
  exists f, near_call_pena e10 sj sy jr E0 probe c = Ok f /\
  forall p k i, (p < P)%nat -> (k < K)%nat -> (i < Q)%nat -> at_ probe [i; 1%nat] = 0 ->
    at_ (f_Es f) [p; k; i; 1%nat] = RtoC 0 /\ at_ (f_Et f) [p; k; i; 1%nat] = RtoC 0 /\
    at_ (f_Hs f) [p; k; i; 0%nat] = RtoC 0 /\ at_ (f_Ht f) [p; k; i; 0%nat] = RtoC 0 /\ at_ (f_Hs f) [p; k; i; 2%nat] = RtoC 0 /\ at_ (f_Ht f) [p; k; i; 2%nat] = RtoC 0.
Proof. exact call_plane. Qed.
Print Assumptions C100_plane.

(** two particles of two layers at three wavelengths, see ExampleMirror *)
Example C100_instance : forall sj sy jr,
  exists f, near_call_pena (/ 10000000000) sj sy jr (RtoC 1) ex_mirror (ex_call "pena" (Some 4%Z)) = Ok f /\
    forall p k, (p < 2)%nat -> (k < 3)%nat ->
      row (f_Et f) p k 1 = signs 1 (-1) 1 (row (f_Et f) p k 0) /\ row (f_Ht f) p k 1 = signs (-1) 1 (-1) (row (f_Ht f) p k 0).
Proof.
  intros sj sy jr. destruct (ex_mirror_o sj sy jr) as (o & Ho & Eo).
  destruct (C100_mirror_y sj sy jr (/ 10000000000) (RtoC 1) ex_mirror 4 (ex_call "pena" (Some 4%Z)) o ex_r ex_eps 3 2 2 _ _ Ho eq_refl (ex_inputs _ _) (ex_valid _ _) ltac:(lia) ltac:(lia) eq_refl ltac:(lra)) as (f & Hf & H).
  exists f. split; [exact Hf|]. intros p k Hp Hk. apply (H p k 0%nat 1%nat Hp Hk ltac:(lia) ltac:(lia) ex_mirror_y).
Qed.
Example C100_instance_x : forall sj sy jr,
  exists f, near_call_pena (/ 10000000000) sj sy jr (RtoC 1) ex_mirror (ex_call "pena" (Some 4%Z)) = Ok f /\
    forall p k, (p < 2)%nat -> (k < 3)%nat ->
      row (f_Et f) p k 2 = signs 1 (-1) (-1) (row (f_Et f) p k 0) /\ row (f_Ht f) p k 2 = signs (-1) 1 1 (row (f_Ht f) p k 0).
Proof.
  intros sj sy jr. destruct (ex_mirror_o sj sy jr) as (o & Ho & Eo).
  destruct (C100_mirror_x sj sy jr (/ 10000000000) (RtoC 1) ex_mirror 4 (ex_call "pena" (Some 4%Z)) o ex_r ex_eps 3 2 2 _ _ Ho eq_refl (ex_inputs _ _) (ex_valid _ _) ltac:(lia) ltac:(lia) eq_refl ltac:(lra)) as (f & Hf & H).
  exists f. split; [exact Hf|]. intros p k Hp Hk. apply (H p k 0%nat 2%nat Hp Hk ltac:(lia) ltac:(lia) ex_mirror_x). cbn. lra.
Qed.
Example C100_instance_plane : forall sj sy jr,
  exists f, near_call_pena (/ 10000000000) sj sy jr (RtoC 1) ex_mirror (ex_call "pena" (Some 4%Z)) = Ok f /\
    forall p k, (p < 2)%nat -> (k < 3)%nat -> at_ (f_Et f) [p; k; 3; 1]%nat = RtoC 0 /\ at_ (f_Ht f) [p; k; 3; 2]%nat = RtoC 0.
Proof.
  intros sj sy jr. destruct (ex_mirror_o sj sy jr) as (o & Ho & Eo).
  destruct (C100_plane sj sy jr (/ 10000000000) (RtoC 1) ex_mirror 4 (ex_call "pena" (Some 4%Z)) o ex_r ex_eps 3 2 2 _ _ Ho eq_refl (ex_inputs _ _) (ex_valid _ _) ltac:(lia) ltac:(lia) eq_refl ltac:(lra)) as (f & Hf & H).
  exists f. split; [exact Hf|]. intros p k Hp Hk. destruct (H p k 3%nat Hp Hk ltac:(lia) eq_refl) as (_ & A & _ & _ & _ & B). now split.
Qed.
