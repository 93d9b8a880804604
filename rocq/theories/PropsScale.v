(** C102: scale invariance of the near fields. *)
From Coq Require Import Reals ZArith List Bool String Arith Lra Lia.
From Coquelicot Require Import Complex.
From Verif Require Import Ops ROps Tensor ModelSpecial ModelMie ModelBatch BroadcastSpec BroadcastProofs BatchReal TruncProofs TorchBatch ExampleBatch ScaleProofs ModelObs ModelJn ModelNear ModelNearLegacy ModelNearPena
  MirrorSpec MirrorProofs MirrorEnd ExampleMirror ScaleNear.
Import ListNotations.
Open Scope R_scope.

(** C102: one particle, one point: radii and distance multiplied by s, the
    wavenumber divided by s, angles kept. None of the six fields changes,
    whatever the region, the number of layers, orders and extra terms. *)
Theorem C102_point : forall s, 0 < s -> forall n_max n_add k0 env core shells E0 r th ph,
  let near := {| pt_r := r; pt_theta := th; pt_phi := ph |} in let far := {| pt_r := s * r; pt_theta := th; pt_phi := ph |} in
  let core' := (s * fst core, snd core) in let shells' := map (fun re => (s * fst re, snd re)) shells in
  @E_i R ROps (k0 / s) env E0 far = E_i k0 env E0 near /\ @H_i R ROps (k0 / s) env E0 far = H_i k0 env E0 near /\
  @E_s R ROps n_max n_add (k0 / s) env core' shells' E0 far = E_s n_max n_add k0 env core shells E0 near /\
  @H_s R ROps n_max n_add (k0 / s) env core' shells' E0 far = H_s n_max n_add k0 env core shells E0 near /\
  @E_t R ROps n_max n_add (k0 / s) env core' shells' E0 far = E_t n_max n_add k0 env core shells E0 near /\
  @H_t R ROps n_max n_add (k0 / s) env core' shells' E0 far = H_t n_max n_add k0 env core shells E0 near.
Proof. exact (fun s Hs N a k0 env core shells E0 r th ph => fields_up s Hs N a k0 env core shells E0 {| pt_r := r; pt_theta := th; pt_phi := ph |}). Qed.
Print Assumptions C102_point.

(** C102: the batched call with Cartesian positions: all lengths, including the
    positions, multiplied by s and all wavenumbers divided by s ([up_call], see
    C15). Every entry of the six tensors is unchanged, with given or automatic
    n_max, except at positions with x = 0. *)
Theorem C102_call : forall s, 0 < s -> forall sj sy jr e10 E0 probe Q (c : @call R) o r eps K P L ef vf,
  mie_coefficients sj sy jr (without_internal c) = Ok o -> backend_is c "pena" -> inputs_of c = Ok (r, eps) ->
  valid (a_k0 c) r eps (a_env c) K P L ef vf -> (1 <= o_n_max o)%Z -> (1 <= P)%nat -> shp probe = [Q; 3]%nat ->
  exists f f', near_call_pena e10 sj sy jr E0 probe c = Ok f /\ near_call_pena e10 sj sy jr E0 (tmap (Rmult s) probe) (up_call s c) = Ok f' /\
  forall p k i, (p < P)%nat -> (k < K)%nat -> (i < Q)%nat -> at_ probe [i; 0%nat] <> 0 ->
    row (f_Ei f') p k i = row (f_Ei f) p k i /\ row (f_Hi f') p k i = row (f_Hi f) p k i /\
    row (f_Es f') p k i = row (f_Es f) p k i /\ row (f_Hs f') p k i = row (f_Hs f) p k i /\
    row (f_Et f') p k i = row (f_Et f) p k i /\ row (f_Ht f') p k i = row (f_Ht f) p k i.
Proof. exact call_up. Qed.
Print Assumptions C102_call.

(** C102: positions with x = 0, y <> 0 are not covered because the shift to
    x = e10 does not scale: the azimuth changes. *)
Theorem C102_axis_refuted : forall s e10 y z, 0 < s -> s <> 1 -> 0 < e10 -> y <> 0 ->
  pt_phi (at_xyz e10 (s * 0) (s * y) (s * z)) <> pt_phi (at_xyz e10 0 y z).
Proof. exact axis_changes. Qed.
Print Assumptions C102_axis_refuted.

(** two particles of two layers at three wavelengths, enlarged seven times *)
Example C102_instance : forall sj sy jr,
  exists f f', near_call_pena (/ 10000000000) sj sy jr (RtoC 1) ex_mirror (ex_call "pena" (Some 4%Z)) = Ok f /\
    near_call_pena (/ 10000000000) sj sy jr (RtoC 1) (tmap (Rmult 7) ex_mirror) (up_call 7 (ex_call "pena" (Some 4%Z))) = Ok f' /\
    at_ (tmap (Rmult 7) ex_mirror) [0; 2]%nat = 21 /\
    forall p k, (p < 2)%nat -> (k < 3)%nat -> row (f_Et f') p k 0 = row (f_Et f) p k 0 /\ row (f_Ht f') p k 3 = row (f_Ht f) p k 3.
Proof.
  intros sj sy jr. destruct (ex_mirror_o sj sy jr) as (o & Ho & Eo).
  destruct (C102_call 7 ltac:(lra) sj sy jr (/ 10000000000) (RtoC 1) ex_mirror 4 (ex_call "pena" (Some 4%Z)) o ex_r ex_eps 3 2 2 _ _ Ho eq_refl (ex_inputs _ _) (ex_valid _ _) ltac:(lia) ltac:(lia) eq_refl) as (f & f' & Hf & Hf' & H).
  exists f, f'. split; [exact Hf|]. split; [exact Hf'|]. split; [cbn; ring|]. intros p k Hp Hk. split.
  - apply (H p k 0%nat Hp Hk); [lia|]. cbn. lra.
  - apply (H p k 3%nat Hp Hk); [lia|]. cbn. lra.
Qed.
(** a point inside the shell of a coated particle *)
Example C102_instance_point : forall env e1 e2 E0, @E_t R ROps 5 15 (3 / 2) env (2, e1) [(4, e2)] E0 {| pt_r := 3; pt_theta := 1; pt_phi := 2 |} =
  E_t 5 15 3 env (1, e1) [(2, e2)] E0 {| pt_r := 3 / 2; pt_theta := 1; pt_phi := 2 |}.
Proof.
  intros env e1 e2 E0. destruct (C102_point 2 ltac:(lra) 5 15 3 env (1, e1) [(2, e2)] E0 (3 / 2) 1 2) as (_ & _ & _ & _ & H & _). rewrite <- H.
  cbn [map fst snd]. now replace (2 * 1) with 2 by ring; replace (2 * 2) with 4 by ring; replace (2 * (3 / 2)) with 3 by field.
Qed.
