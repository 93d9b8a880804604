(** C46: near fields of the torch and scipy backends for several wavelengths. *)
From Coq Require Import Reals ZArith List Bool String Arith Lia Lra.
From Coquelicot Require Import Coquelicot.
From Verif Require Import Ops ROps Tensor ModelSpecial ModelMie ModelBatch BroadcastSpec BroadcastProofs BatchReal TruncProofs TorchBatch ExampleBatch ModelJn ModelNear ModelNearLegacy NearLegacySpec NearLegacyCall.
Import ListNotations.
Open Scope nat_scope.
Open Scope list_scope.

(** C46: false.  Unless there are exactly one or three wavelengths, no call
    succeeds; the same particle at each single wavelength does. *)
Theorem C46_wavelength_count_refuted : forall sj sy jr pi e10 E0 probe Q (c : @call R) r eps K L ef vf n,
  backend_is c "torch" -> lower (a_which_jn c) = "recurrence"%string -> a_n_max c = Some n -> (1 <= n)%Z ->
  inputs_of c = Ok (r, eps) -> valid (a_k0 c) r eps (a_env c) K 1 L ef vf -> 1 <= L <= 2 ->
  (forall k, k < K -> (0 <= nth k (entries (a_k0 c)) 0)%R) -> shp probe = [Q; 3] -> K <> 1 -> K <> 3 ->
  (forall f, near_call e10 sj sy jr pi E0 probe c <> Ok f) /\
  forall k, k < K -> exists f, near_call e10 sj sy jr pi E0 probe (single_call c (element (a_k0 c) r eps (a_env c) ef vf L 0 k)) = Ok f.
Proof. exact joint_fails. Qed.
Print Assumptions C46_wavelength_count_refuted.
Example C46_two_wavelengths : forall sj sy jr pi e10 E0,
  let e k := element (a_k0 two_wl) (rv [1 / 2]%R) (cv [4]%R) (a_env two_wl) (fun _ l _ => [l]) (fun _ => []) 1 0 k in
  (forall f, near_call e10 sj sy jr pi E0 one_point two_wl <> Ok f) /\
  (exists f, near_call e10 sj sy jr pi E0 one_point (single_call two_wl (e 0)) = Ok f) /\
  (exists f, near_call e10 sj sy jr pi E0 one_point (single_call two_wl (e 1)) = Ok f).
Proof. exact two_refutes. Qed.

(** The failure for K not in {1, 3} does not depend on the number of particles,
    on n_max or on the Bessel routines. *)
Theorem C46_any_particles_fail : forall sj sy jr pi e10 E0 probe (c : @call R) r eps K P L ef vf,
  inputs_of c = Ok (r, eps) -> valid (a_k0 c) r eps (a_env c) K P L ef vf -> K <> 1 -> K <> 3 ->
  forall f, near_call e10 sj sy jr pi E0 probe c <> Ok f.
Proof. exact near_call_fails. Qed.
Print Assumptions C46_any_particles_fail.

(** Three wavelengths are accepted, because the wavelength axis is then taken
    for the vector components; in a dispersive environment the incident
    magnetic field is wrong at every position. *)
Theorem C46_three_wavelengths_refuted : forall sj sy jr pi e10 E0 probe Q (c : @call R) r eps K L ef vf n,
  backend_is c "torch" -> lower (a_which_jn c) = "recurrence"%string -> a_n_max c = Some n -> (1 <= n)%Z ->
  inputs_of c = Ok (r, eps) -> valid (a_k0 c) r eps (a_env c) K 1 L ef vf -> 1 <= L <= 2 ->
  (forall k, k < K -> (0 <= nth k (entries (a_k0 c)) 0)%R) -> shp probe = [Q; 3] -> K = 3 ->
  exists f, near_call e10 sj sy jr pi E0 probe c = Ok f /\
    forall k, k < 3 -> exists fk, near_call e10 sj sy jr pi E0 probe (single_call c (element (a_k0 c) r eps (a_env c) ef vf L 0 k)) = Ok fk /\
      (E0 <> RtoC 0 -> at_ (a_env c) (vf k) <> at_ (a_env c) (vf 0) -> forall i, i < Q -> at_ (f_Hi f) [0; k; i; 1] <> at_ (f_Hi fk) [0; 0; i; 1]).
Proof. exact joint_three. Qed.
Print Assumptions C46_three_wavelengths_refuted.
Example C46_three_instance : forall sj sy jr pi e10,
  let e k := element (a_k0 three_wl) (rv [1 / 2]%R) (cv [4]%R) (a_env three_wl) (fun _ l _ => [l]) (fun k => [k]) 1 0 k in
  exists f f1, near_call e10 sj sy jr pi (RtoC 1) one_point three_wl = Ok f /\ near_call e10 sj sy jr pi (RtoC 1) one_point (single_call three_wl (e 1)) = Ok f1 /\
    at_ (f_Hi f) [0; 1; 0; 1] <> at_ (f_Hi f1) [0; 0; 0; 1].
Proof. exact three_refutes. Qed.

(** What works: one particle and one wavelength.  The returned fields are the
    sums over orders of the core-shell expansions of NearLegacySpec.v, by
    region, plus the incident plane wave outside. *)
Theorem C46_one_wavelength : forall sj sy jr pi e10 E0 probe Q (c : @call R) r eps K L ef vf n,
  backend_is c "torch" -> lower (a_which_jn c) = "recurrence"%string -> a_n_max c = Some n -> (1 <= n)%Z ->
  inputs_of c = Ok (r, eps) -> valid (a_k0 c) r eps (a_env c) K 1 L ef vf -> 1 <= L <= 2 ->
  (forall k, k < K -> (0 <= nth k (entries (a_k0 c)) 0)%R) -> shp probe = [Q; 3] ->
  let e k := element (a_k0 c) r eps (a_env c) ef vf L 0 k in let pt i := at_ (spherical e10 probe) [i] in
  K = 1 \/ K = 3 -> exists f dc ds do_, near_call e10 sj sy jr pi E0 probe c = Ok f /\
    (forall k i, k < K -> i < Q -> at_ (f_Hi f) [0; k; i; 1] = cmul (cmul E0 (csqrt (snd (fst (e 0))))) (phase (optics_el (e k)) (fst (fst (pt i))) (snd (fst (pt i))))) /\
    (K = 1 ->
      let N := Z.to_nat n in let co := torch_coeffs N (n_add_auto (Cmod (arg_y (e 0)))) (n_add_auto (Cmod (arg_m1x (e 0)))) (n_add_auto (Cmod (arg_m2x (e 0)))) (n_add_auto (Cmod (arg_m2y (e 0)))) (e 0) in
      is_near N Q pt E0 (optics_el (e 0)) f
        (fun i m => E_sph (optics_el (e 0)) (fst (fst (pt i))) (snd (fst (pt i))) (snd (pt i)) E0 co (sph_jn_ratio N dc) (sph_jn_ratio N ds) (sph_jn_ratio N do_) sph_yn m)
        (fun i m => H_sph (optics_el (e 0)) (fst (fst (pt i))) (snd (fst (pt i))) (snd (pt i)) E0 co (sph_jn_ratio N dc) (sph_jn_ratio N ds) (sph_jn_ratio N do_) sph_yn m)).
Proof. exact near_call_ok. Qed.
Print Assumptions C46_one_wavelength.
