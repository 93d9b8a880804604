(** C37-C40, C72: particle objects. *)
From Coq Require Import Reals ZArith List Bool String Arith Lia Lra.
From Coquelicot Require Import Complex.
From Verif Require Import Ops ROps Tensor TensorProofs ModelMaterial MaterialSpec ModelMie ModelBatch ModelObs BroadcastSpec BatchReal
  ModelParticle ParticleSpec ParticleProofs ParticleRun ParticleHist ParticleFull ParticleEnd ExampleParticle.
Import ListNotations.
Open Scope nat_scope.
Open Scope list_scope.

(** C37.  The constructor succeeds on the documented combinations; the stored
    layers and materials are the given ones, aliases included ([coherent]). *)
Theorem C37_constructor_accepts : forall (a : @pargs R) (h : @heap R) rs e ms, accepted a rs e ms -> List.Forall (usable h) (mat_args a) ->
  exists h' p, new_particle a h = (h', Ok p) /\ coherent (device_of a) p h' /\
    shp (tt (p_r p)) = [List.length rs] /\ entries (tt (p_r p)) = rs /\ option_map tt (p_eps p) = e /\
    match ms, p_mats p with Some l, Some is => Forall2 (refers h h' (device_of a)) l is | None, None => True | _, _ => False end /\
    refers h h' (device_of a) (g_mat_env a) (p_env p).
Proof. exact reachable_new_accepts. Qed.
Print Assumptions C37_constructor_accepts.
Theorem C37_constructor_rejects : forall (a : @pargs R) (h : @heap R), (forall rs e ms, ~ accepted a rs e ms) -> List.Forall (usable h) (mat_args a) ->
  (~ unstackable a -> snd (new_particle a h) = Err ValueError) /\ (unstackable a -> snd (new_particle a h) = Err RuntimeError).
Proof. exact new_rejects. Qed.
Print Assumptions C37_constructor_rejects.
Theorem C37_constructor_bad_material : forall (a : @pargs R) (h : @heap R),
  ~ material_like (g_mat_env a) \/ (g_eps_layers a = None /\ ~ List.Forall material_like (layer_args a)) ->
  forall h' p, new_particle a h <> (h', Ok p).
Proof. exact new_not_sane. Qed.
Print Assumptions C37_constructor_bad_material.
(* wrong dimensionality is not always reported as ValueError *)
Theorem C37_wrong_dimension_value_error_refuted : exists (a : @pargs R) (h : @heap R), (forall rs e ms, ~ accepted a rs e ms) /\
  List.Forall (usable h) (mat_args a) /\ snd (new_particle a h) = Err RuntimeError.
Proof.
  exact (ex_intro _ odd (ex_intro _ heap0 (conj odd_rejected (conj odd_usable
    (proj2 (new_rejects odd heap0 odd_rejected odd_usable) odd_unstackable))))).
Qed.
Print Assumptions C37_wrong_dimension_value_error_refuted.
Example C37_accepts_case : exists h' p, new_particle (args "cuda" (AObj 0)) heap0 = (h', Ok p) /\ coherent "cuda" p h'.
Proof.
  destruct (C37_constructor_accepts _ _ _ _ _ (args_accepted "cuda" (AObj 0)) (args_usable "cuda" heap0 (le_n 1))) as (h' & p & E & Hc & _). now exists h', p.
Qed.
Example C37_rejects_case : snd (new_particle mix heap0) = Err ValueError.
Proof. exact (proj1 (C37_constructor_rejects mix heap0 mix_rejected mix_usable) mix_stackable). Qed.

(** C38.  [sj], [sy], [jr] stand for scipy.special and the torch Bessel ratio. *)
Theorem C38_device_moves_coherent : forall (sj sy jr : @bessel_t R) (a : @pargs R) (h : @heap R) rs e ms (os : list pop),
  reachable sj sy jr h -> accepted a rs e ms -> List.Forall (usable h) (mat_args a) ->
  exists h1 p1, new_particle a h = (h1, Ok p1) /\
  let (p2, h2) := prun sj sy jr (p1, h1) os in
    coherent (last_dev (device_of a) os) p2 h2 /\
    tt (p_r p2) = tt (p_r p1) /\ option_map tt (p_eps p2) = option_map tt (p_eps p1) /\ p_mats p2 = p_mats p1 /\ p_env p2 = p_env p1 /\
    forall m, snd (invoke sj sy jr p2 m h2) = snd (invoke sj sy jr p1 m h1).
Proof. exact constructed_history. Qed.
Print Assumptions C38_device_moves_coherent.
Example C38_case : forall sj sy jr, exists h1 p1, new_particle (args "cuda" (AObj 0)) heap0 = (h1, Ok p1) /\
  let (p2, h2) := prun sj sy jr (p1, h1) [PDev "cpu"; PCall (MMie k0_two None kw1); PDev "mps"]%string in coherent "mps" p2 h2.
Proof.
  intros sj sy jr. destruct (C38_device_moves_coherent sj sy jr _ _ _ _ _ [PDev "cpu"; PCall (MMie k0_two None kw1); PDev "mps"]%string (re_start _ _ _ _ heap0_made)
    (args_accepted "cuda" (AObj 0)) (args_usable "cuda" heap0 (le_n 1))) as (h1 & p1 & E & G). exists h1, p1. split; [exact E|]. destruct (prun _ _ _ _ _). apply G.
Qed.

(** C39.  False as stated: the second constructor moves the shared object. *)
Theorem C39_shared_material_refuted : forall (sj sy jr : @bessel_t R), exists (h1 h2 : @heap R) p1 p2,
  new_particle (args "cpu" (AObj 0)) heap0 = (h1, Ok p1) /\
  (exists r, snd (invoke sj sy jr p1 (MMie k0_two None kw1) h1) = Ok r) /\
  new_particle (args "cuda" (AObj 0)) h1 = (h2, Ok p2) /\ forall m r, snd (invoke sj sy jr p1 m h2) <> Ok r.
Proof. exact sharing_witness. Qed.
Print Assumptions C39_shared_material_refuted.
Theorem C39_sharing_across_devices_fails : forall (sj sy jr : @bessel_t R) d p (h : @heap R) a rs e ms i,
  reachable sj sy jr h -> coherent d p h -> i < List.length h -> uses p i -> accepted a rs e ms -> List.Forall (usable h) (mat_args a) ->
  (g_mat_env a = AObj i \/ exists l, ms = Some l /\ In (AObj i) l) -> device_of a <> d ->
  exists h' p2, new_particle a h = (h', Ok p2) /\ forall m r, snd (invoke sj sy jr p m h') <> Ok r.
Proof. exact shared_fails. Qed.
Print Assumptions C39_sharing_across_devices_fails.
(* what does hold *)
Theorem C39_sharing_on_one_device : forall (sj sy jr : @bessel_t R) d p (h : @heap R) a h' p2 m,
  reachable sj sy jr h -> coherent d p h -> new_particle a h = (h', Ok p2) -> device_of a = d ->
  coherent d p h' /\ snd (invoke sj sy jr p m h') = snd (invoke sj sy jr p m h).
Proof. exact same_device_ok. Qed.
Print Assumptions C39_sharing_on_one_device.
Theorem C39_disjoint_materials : forall (sj sy jr : @bessel_t R) d p (h : @heap R) a h' p2 m,
  reachable sj sy jr h -> coherent d p h -> new_particle a h = (h', Ok p2) -> (forall i, In i (addrs p) -> ~ In (AObj i) (mat_args a)) ->
  coherent d p h' /\ snd (invoke sj sy jr p m h') = snd (invoke sj sy jr p m h).
Proof. exact disjoint_ok. Qed.
Print Assumptions C39_disjoint_materials.
Theorem C39_other_particle_calls : forall (sj sy jr : @bessel_t R) d d2 p q (h : @heap R) m m',
  reachable sj sy jr h -> coherent d p h -> coherent d2 q h ->
  let h' := fst (invoke sj sy jr q m' h) in coherent d p h' /\ snd (invoke sj sy jr p m h') = snd (invoke sj sy jr p m h).
Proof. exact (fun sj sy jr d d2 p q h m m' Hr => other_calls_safe sj sy jr d d2 p q h m m' (reachable_wfh sj sy jr h Hr)). Qed.
Print Assumptions C39_other_particle_calls.
Theorem C39_other_particle_moves : forall (sj sy jr : @bessel_t R) d d2 p q (h : @heap R) d' m,
  reachable sj sy jr h -> coherent d p h -> coherent d2 q h -> (forall i, In i (addrs p) -> ~ In i (addrs q)) ->
  exists h' q', set_device d' q h = (h', Ok q') /\ coherent d p h' /\ snd (invoke sj sy jr p m h') = snd (invoke sj sy jr p m h).
Proof. exact (fun sj sy jr d d2 p q h d' m Hr => other_moves_safe sj sy jr d d2 p q h d' m (reachable_wfh sj sy jr h Hr)). Qed.
Print Assumptions C39_other_particle_moves.

(** C40. *)
Theorem C40_mie_dictionary : forall (sj sy jr : @bessel_t R) p k0 src kw (h h' : @heap R) d, get_mie_coefficients sj sy jr p k0 src kw h = (h', Ok d) ->
  exists eps env o f, permittivities p k0 src h = (h', Ok (eps, env)) /\ mie_coefficients sj sy jr (particle_call p k0 eps env kw) = Ok o /\
    output_dict o = Ok f /\ squeezed_dict f d.
Proof. exact mie_dict. Qed.
Print Assumptions C40_mie_dictionary.
Theorem C40_cross_section_dictionary : forall (sj sy jr : @bessel_t R) p k0 src kw (h h' : @heap R) d, get_cross_sections sj sy jr p k0 src kw h = (h', Ok d) ->
  exists eps env o x, permittivities p k0 src h = (h', Ok (eps, env)) /\ mie_coefficients sj sy jr (particle_call p k0 eps env (no_internal kw)) = Ok o /\
    cross_sections o = Ok x /\ squeezed_dict (xs_dict x) d.
Proof. exact xs_dict_ok. Qed.
Print Assumptions C40_cross_section_dictionary.
Theorem C40_angular_dictionary : forall (sj sy jr : @bessel_t R) p k0 theta src kw (h h' : @heap R) d, get_angular_scattering sj sy jr p k0 theta src kw h = (h', Ok d) ->
  exists eps env o s, permittivities p k0 src h = (h', Ok (eps, env)) /\ mie_coefficients sj sy jr (particle_call p k0 eps env (no_internal kw)) = Ok o /\
    angular_scattering theta o = Ok s /\ squeezed_dict (ang_dict o theta s) d.
Proof. exact ang_dict_ok. Qed.
Print Assumptions C40_angular_dictionary.
Theorem C40_methods_complete : forall (sj sy jr : @bessel_t R) d p (h : @heap R) k0 src kw,
  reachable sj sy jr h -> coherent d p h -> forall eps env h', permittivities p k0 src h = (h', Ok (eps, env)) ->
  forall o f, mie_coefficients sj sy jr (particle_call p k0 eps env kw) = Ok o -> output_dict o = Ok f ->
  exists r, get_mie_coefficients sj sy jr p k0 src kw h = (h', Ok r) /\ squeezed_dict f r.
Proof. exact method_complete. Qed.
Print Assumptions C40_methods_complete.
Example C40_case : forall sj sy jr, exists h1 p1 r, new_particle (args "cpu" (AObj 0)) heap0 = (h1, Ok p1) /\
  snd (get_mie_coefficients sj sy jr p1 k0_two None kw1 h1) = Ok r.
Proof. intros sj sy jr. destruct (first_works sj sy jr) as (h1 & p1 & r & E & _ & _ & _ & G). now exists h1, p1, r. Qed.

(** C72.  Entry (i, k) of the dictionary is the scalar recursion at the k-th
    wavenumber and the permittivities the materials give there. *)
Theorem C72_particle_coefficients : forall (sj sy jr : @bessel_t R) d (p : @particle R) (h : @heap R) (k0 : tensor R) src (kw : kwargs) is L K (rs : list R)
  (lf : nat -> nat -> C) (vf : nat -> C) n,
  reachable sj sy jr h -> coherent d p h -> p_eps p = None -> p_mats p = Some is -> List.length is = L -> 1 <= L ->
  shp (tt (p_r p)) = [L] -> entries (tt (p_r p)) = rs -> (forall l, S l < L -> (nth l rs 0 < nth (S l) rs 0)%R) ->
  k0_len (shp k0) = Some K -> 1 <= K ->
  (forall l k, l < L -> k < K -> exists m, nth_error h (nth l is 0) = Some m /\ material_eps m (2 * PI / nth k (entries k0) 0)%R (lf l k)) ->
  (forall k, k < K -> exists m, nth_error h (p_env p) = Some m /\ material_eps m (2 * PI / nth k (entries k0) 0)%R (vf k)) ->
  lower (k_backend kw) = "pena"%string -> k_internal kw = false -> k_n_max kw = Some n -> (1 <= n)%Z ->
  exists h' o dict ta tb, run_call sj sy jr p k0 src kw h = (h', Ok o) /\ get_mie_coefficients sj sy jr p k0 src kw h = (h', Ok dict) /\
    In ("a_n"%string, PC ta) dict /\ In ("b_n"%string, PC tb) dict /\ squeezed (o_a o) ta /\ squeezed (o_b o) tb /\
    let el k := (nth k (entries k0) 0%R, vf k, map (fun l => (nth l rs 0%R, lf l k)) (seq 0 L)) in
    is3 (o_a o) (Z.to_nat n) 1 K (fun i _ k => fst (scalar_pena (Z.to_nat n) (el k) (S i))) /\
    is3 (o_b o) (Z.to_nat n) 1 K (fun i _ k => snd (scalar_pena (Z.to_nat n) (el k) (S i))).
Proof. exact (fun sj sy jr d p h k0 src kw is L K rs lf vf n Hr => particle_mie sj sy jr d p h k0 src kw is L K rs lf vf n (reachable_wfh sj sy jr h Hr)). Qed.
Print Assumptions C72_particle_coefficients.
(* hypotheses met by the particle of [first_works], whose proof applies the theorem's lemma with L = 1, K = 2 *)
Example C72_case : forall sj sy jr, exists h1 p1 r, new_particle (args "cpu" (AObj 0)) heap0 = (h1, Ok p1) /\
  snd (get_mie_coefficients sj sy jr p1 k0_two None kw1 h1) = Ok r.
Proof. exact C40_case. Qed.
