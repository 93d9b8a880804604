(** C88: near fields of particle objects. *)
From Coq Require Import Reals ZArith List Bool String Arith Lia Lra.
From Coquelicot Require Import Coquelicot.
From Verif Require Import Ops ROps Tensor ModelMaterial MaterialSpec ModelSpecial ModelMie ModelBatch ModelObs BroadcastSpec BatchReal
  ModelJn ModelNear ModelNearLegacy ModelNearPena NearLegacySpec ModelParticle ParticleSpec ParticleProofs ParticleRun ParticleHist ParticleEnd ExampleParticle
  ModelParticleNear ParticleNear ExampleParticleNear.
Import ListNotations.
Open Scope nat_scope.
Open Scope list_scope.

(** C88.  Whatever get_nearfields returns is the squeezed dictionary of the
    functional interface on the particle's own permittivities. *)
Theorem C88_near_dictionary : forall (sj sy jr : @bessel_t R) e10 pi p k0 probe src E0 kw (h h' : @heap R) d,
  get_nearfields e10 sj sy jr pi p k0 probe src E0 kw h = (h', Ok d) ->
  exists eps env f, permittivities p k0 src h = (h', Ok (eps, env)) /\
    nearfields_api e10 sj sy jr pi E0 probe (particle_call p k0 eps env kw) = Ok f /\ squeezed_dict (near_dict f) d.
Proof. exact near_dictionary. Qed.
Print Assumptions C88_near_dictionary.

(** The pena backend always answers for a particle made of materials; entry
    (k, i, c) of each field is the scalar field at the k-th wavenumber, with the
    permittivities the materials give there, at the i-th position. *)
Theorem C88_particle_fields : forall (sj sy jr : @bessel_t R) e10 pi d (p : @particle R) (h : @heap R) (k0 : tensor R) src (kw : kwargs) is L K (rs : list R)
  (lf : nat -> nat -> C) (vf : nat -> C) n E0 probe Q,
  reachable sj sy jr h -> coherent d p h -> p_eps p = None -> p_mats p = Some is -> List.length is = L -> 1 <= L ->
  shp (tt (p_r p)) = [L] -> entries (tt (p_r p)) = rs -> (forall l, S l < L -> (nth l rs 0 < nth (S l) rs 0)%R) ->
  k0_len (shp k0) = Some K -> 1 <= K ->
  (forall l k, l < L -> k < K -> exists m, nth_error h (nth l is 0) = Some m /\ material_eps m (2 * PI / nth k (entries k0) 0)%R (lf l k)) ->
  (forall k, k < K -> exists m, nth_error h (p_env p) = Some m /\ material_eps m (2 * PI / nth k (entries k0) 0)%R (vf k)) ->
  lower (k_backend kw) = "pena"%string -> k_n_max kw = Some n -> (1 <= n)%Z -> shp probe = [Q; 3] ->
  exists h' f dict, get_nearfields e10 sj sy jr pi p k0 probe src E0 kw h = (h', Ok dict) /\ squeezed_dict (near_dict f) dict /\
  (shp (f_Ei f) = [1; K; Q; 3] /\ shp (f_Hi f) = [1; K; Q; 3] /\ shp (f_Es f) = [1; K; Q; 3] /\
   shp (f_Hs f) = [1; K; Q; 3] /\ shp (f_Et f) = [1; K; Q; 3] /\ shp (f_Ht f) = [1; K; Q; 3]) /\
  forall k i cp, k < K -> i < Q -> cp < 3 ->
    let N := Z.to_nat n in let kk := nth k (entries k0) 0%R in let env := vf k in
    let co := (nth 0 rs 0%R, lf 0 k) in let sh := map (fun l => (nth l rs 0%R, lf l k)) (seq 1 (L - 1)) in
    let s := xyz_to_sph e10 (at_ probe [i; 0]) (at_ probe [i; 1]) (at_ probe [i; 2]) in
    let pt := {| pt_r := fst (fst s); pt_theta := snd (fst s); pt_phi := snd s |} in
    at_ (f_Ei f) [0; k; i; cp] = comp cp (E_i kk env E0 pt) /\
    at_ (f_Hi f) [0; k; i; cp] = comp cp (H_i kk env E0 pt) /\
    at_ (f_Es f) [0; k; i; cp] = comp cp (E_s N 15 kk env co sh E0 pt) /\
    at_ (f_Hs f) [0; k; i; cp] = comp cp (H_s N 15 kk env co sh E0 pt) /\
    at_ (f_Et f) [0; k; i; cp] = comp cp (E_t N 15 kk env co sh E0 pt) /\
    at_ (f_Ht f) [0; k; i; cp] = comp cp (H_t N 15 kk env co sh E0 pt).
Proof.
  exact (fun sj sy jr e10 pi d p h k0 src kw is L K rs lf vf n E0 probe Q Hr H1 H2 H3 H4 H5 H6 H7 H8 H9 H10 H11 H12 =>
    particle_fields sj sy jr e10 pi d p h k0 src kw is L K rs lf vf n (reachable_wfh sj sy jr h Hr) H1 H2 H3 H4 H5 H6 H7 H8 H9 H10 H11 H12 E0 probe Q).
Qed.
Print Assumptions C88_particle_fields.

(** The other backends refuse such particles unless there are exactly one or
    three wavelengths (see C46). *)
Theorem C88_torch_wavelengths_refuted : forall (sj sy jr : @bessel_t R) e10 pi d (p : @particle R) (h : @heap R) (k0 : tensor R) src (kw : kwargs) is L K (rs : list R)
  (lf : nat -> nat -> C) (vf : nat -> C) E0 probe,
  reachable sj sy jr h -> coherent d p h -> p_eps p = None -> p_mats p = Some is -> List.length is = L -> 1 <= L ->
  shp (tt (p_r p)) = [L] -> entries (tt (p_r p)) = rs -> (forall l, S l < L -> (nth l rs 0 < nth (S l) rs 0)%R) ->
  k0_len (shp k0) = Some K -> 1 <= K ->
  (forall l k, l < L -> k < K -> exists m, nth_error h (nth l is 0) = Some m /\ material_eps m (2 * PI / nth k (entries k0) 0)%R (lf l k)) ->
  (forall k, k < K -> exists m, nth_error h (p_env p) = Some m /\ material_eps m (2 * PI / nth k (entries k0) 0)%R (vf k)) ->
  lower (k_backend kw) <> "pena"%string -> K <> 1 -> K <> 3 ->
  forall h' dict, get_nearfields e10 sj sy jr pi p k0 probe src E0 kw h <> (h', Ok dict).
Proof.
  exact (fun sj sy jr e10 pi d p h k0 src kw is L K rs lf vf E0 probe Hr H1 H2 H3 H4 H5 H6 H7 H8 H9 H10 H11 H12 =>
    particle_torch_fails sj sy jr e10 pi d p h k0 src kw is L K rs lf vf (reachable_wfh sj sy jr h Hr) H1 H2 H3 H4 H5 H6 H7 H8 H9 H10 H11 H12 E0 probe).
Qed.
Print Assumptions C88_torch_wavelengths_refuted.

(** No history of device moves and other calls changes the near fields. *)
Theorem C88_device_moves : forall (sj sy jr : @bessel_t R) e10 pi (a : @pargs R) (h : @heap R) rs e ms (os : list pop),
  reachable sj sy jr h -> accepted a rs e ms -> List.Forall (usable h) (mat_args a) ->
  exists h1 p1, new_particle a h = (h1, Ok p1) /\
  let (p2, h2) := prun sj sy jr (p1, h1) os in
    forall k0 probe src E0 kw, snd (get_nearfields e10 sj sy jr pi p2 k0 probe src E0 kw h2) = snd (get_nearfields e10 sj sy jr pi p1 k0 probe src E0 kw h1).
Proof. exact near_history. Qed.
Print Assumptions C88_device_moves.

(** A probe tensor without three components is refused before anything is evaluated. *)
Theorem C88_bad_probe : forall (sj sy jr : @bessel_t R) e10 pi p k0 probe src E0 kw (h : @heap R) s n,
  shp probe = s ++ [n] -> n <> 3 -> get_nearfields e10 sj sy jr pi p k0 probe src E0 kw h = (h, Err AssertionError).
Proof. exact bad_probe. Qed.
Print Assumptions C88_bad_probe.

Example C88_case : forall sj sy jr e10 pi, exists h1 p1 h2 f dict, new_particle (args "cpu" (AObj 0)) heap0 = (h1, Ok p1) /\
  get_nearfields e10 sj sy jr pi p1 k0_two probe_two None (RtoC 1) kw1 h1 = (h2, Ok dict) /\
  squeezed_dict (near_dict f) dict /\ shp (f_Et f) = [1; 2; 2; 3] /\
  forall h' dd, get_nearfields e10 sj sy jr pi p1 k0_two probe_two None (RtoC 1) kw_torch h1 <> (h', Ok dd).
Proof. exact near_works. Qed.
Example C88_moves_case : forall sj sy jr e10 pi, exists h1 p1, new_particle (args "cuda" (AObj 0)) heap0 = (h1, Ok p1) /\
  let (p2, h2) := prun sj sy jr (p1, h1) [PDev "cpu"; PCall (MMie k0_two None kw1); PDev "mps"]%string in
  snd (get_nearfields e10 sj sy jr pi p2 k0_two probe_two None (RtoC 1) kw1 h2) = snd (get_nearfields e10 sj sy jr pi p1 k0_two probe_two None (RtoC 1) kw1 h1).
Proof.
  intros sj sy jr e10 pi. destruct (C88_device_moves sj sy jr e10 pi _ _ _ _ _ [PDev "cpu"; PCall (MMie k0_two None kw1); PDev "mps"]%string (re_start _ _ _ _ heap0_made)
    (args_accepted "cuda" (AObj 0)) (args_usable "cuda" heap0 (le_n 1))) as (h1 & p1 & E & G). exists h1, p1. split; [exact E|]. destruct (prun _ _ _ _ _). apply G.
Qed.
Example C88_bad_case : forall sj sy jr e10 pi p h, get_nearfields e10 sj sy jr pi p k0_two (mkT [5; 2] (fun _ => 1%R)) None (RtoC 1) kw1 h = (h, Err AssertionError).
Proof. intros. exact (C88_bad_probe sj sy jr e10 pi p k0_two (mkT [5; 2] (fun _ => 1%R)) None (RtoC 1) kw1 h [5] 2 eq_refl ltac:(discriminate)). Qed.
