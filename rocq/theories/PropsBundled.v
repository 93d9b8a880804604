(** C93, C94: the bundled material database, and particles made of it. *)
From Coq Require Import Reals ZArith List Bool String Arith Lia Lra Permutation.
From Coquelicot Require Import Coquelicot.
From Verif Require Import Ops ROps Tensor ModelMaterial MaterialSpec MaterialProofs ModelMie ModelBatch ModelObs BroadcastSpec BatchReal TensorProofs ModelNear NearSpec NearLimitSpec
  PassiveSpec SeriesSpec ModelParticle ParticleSpec ExampleParticle ModelBundled BundledSpec BundledProofs BundledPartSpec BundledEnd ExampleBundled.
Import ListNotations.
Open Scope nat_scope.
Open Scope list_scope.

(** C93.  Any set of data files with different keys, listed by the system in any
    order: each is found under its material name, in upper or lower case. *)
Theorem C93_lookup : forall fs material f name, NoDup (map key_of fs) -> In f fs -> file_for material f -> lower name = lower material -> name <> EmptyString ->
  find_source (refindex_data fs) name = Ok (DataFile f material).
Proof. exact source_found. Qed.
Print Assumptions C93_lookup.
(** Exactly the listed names are accepted. *)
Theorem C93_listed : forall reg name, name <> EmptyString ->
  (find_source reg name = Err ValueError <-> exists l, list_available_materials reg false = Ok l /\ ~ In (lower name) l).
Proof. exact source_listed. Qed.
Print Assumptions C93_listed.
(** The files of the package have different keys, so the order of iterdir() does not matter. *)
Theorem C93_keys : forall fs, Permutation fs (map fst bundled) -> NoDup (map key_of fs).
Proof. exact perm_keys. Qed.
Print Assumptions C93_keys.
(** And each is named after a material. *)
Theorem C93_named : List.Forall (fun fy => exists material, material <> EmptyString /\ file_for material (fst fy)) bundled.
Proof. exact bundled_named. Qed.
Print Assumptions C93_named.
(** Every bundled material loads on every device and, whatever was evaluated
    before, returns for scalars and vectors of wavelengths a permittivity with
    Im > 0, or Im = 0 and Re > 0: tables at every wavelength, formulas in their range. *)
Theorem C93_physical : forall fs f y material name d, Permutation fs (map fst bundled) -> In (f, y) bundled -> file_for material f ->
  lower name = lower material -> name <> EmptyString ->
  exists m, @mat_database R ROps (refindex_data fs) bundled name d = Ok (Some m) /\ d_dev m = d /\
  forall h (a : @warg R), (shp (squeeze (wa_t a)) = [] \/ exists K, shp (squeeze (wa_t a)) = [S K]) -> List.Forall (valid_at f) (entries (squeeze (wa_t a))) ->
  exists u, snd (@get_epsilon_db R ROps (hrun m h) a) = Ok u /\ shp u = shp (squeeze (wa_t a)) /\
    forall ix, in_bounds (shp u) ix -> physical (ModelMaterial.v_eps (at_ u ix)).
Proof. exact bundled_physical. Qed.
Print Assumptions C93_physical.
(** Outside the range of a formula this fails without any error: fused silica at 9 um. *)
Theorem C93_extrapolation_refuted : exists m, @mat_database R ROps (refindex_data (map fst bundled)) bundled "SiO2" "cpu" = Ok (Some m) /\
  exists v, snd (@get_epsilon_db R ROps m (at_wl 9000 None)) = Ok (scalar_t v) /\ ~ physical (ModelMaterial.v_eps v).
Proof. exact silica_outside. Qed.
Print Assumptions C93_extrapolation_refuted.
(** The verbose listing fails for every non-empty registry. *)
Theorem C93_verbose_refuted : forall f fs, list_available_materials (refindex_data (f :: fs)) true = Err TypeError.
Proof. exact verbose_fails. Qed.
Print Assumptions C93_verbose_refuted.
(** MatDatabase() does not fail, it returns an object that holds no data. *)
Theorem C93_no_name_refuted : forall reg d, @mat_database R ROps reg bundled "" d = Ok None.
Proof. exact (fun _ _ => eq_refl). Qed.
Print Assumptions C93_no_name_refuted.
(* gold, in capitals, with the files listed in reverse *)
Example C93_case : exists m, @mat_database R ROps (refindex_data (rev (map fst bundled))) bundled "AU" "cuda" = Ok (Some m) /\ d_dev m = "cuda"%string.
Proof.
  destruct (C93_physical (rev (map fst bundled)) "Au_Johnson1972.yml" f_Au_Johnson1972 "Au" "AU" "cuda") as (m & E & D & _);
    [apply Permutation_sym, Permutation_rev|cbn; tauto|exact gold_file|reflexivity|discriminate|]. now exists m.
Qed.
Example C93_case_range : valid_at "SiO2_Malitson1965.yml" 500 /\ ~ valid_at "SiO2_Malitson1965.yml" 9000.
Proof. exact silica_range. Qed.

(** C94.  Layers of any physical permittivities in a transparent environment form
    a passive stack without lossless metals. *)
Theorem C94_stack : forall k0 v (l : list (R * C)), (0 < k0)%R -> (0 < v)%R ->
  (forall i, i < List.length l -> (0 < fst (nth i l (0%R, RtoC 0)))%R /\ physical (snd (nth i l (0%R, RtoC 0))) /\
     (S i < List.length l -> (fst (nth i l (0%R, RtoC 0)) <= fst (nth (S i) l (0%R, RtoC 0)))%R)) ->
  passive_stack (map (@layer_of R ROps k0 (RtoC v)) l) /\ no_lossless_metal (map (@layer_of R ROps k0 (RtoC v)) l).
Proof. exact good_stack. Qed.
Print Assumptions C94_stack.
(** A particle of bundled materials and physical constants: get_mie_coefficients
    answers; its entries are the scalar recursion on the permittivities of the
    materials; the exact problem behind every entry has one and only one solution,
    and its cross sections converge to values with 0 <= C_sca <= C_ext. *)
Theorem C94_particle : forall (sj sy jr : @bessel_t R) d (p : @particle R) (h : @heap R) (k0 : tensor R) src (kw : kwargs) is L K (rs : list R) (vf : nat -> R) n,
  reachable sj sy jr h -> coherent d p h -> p_eps p = None -> p_mats p = Some is -> List.length is = L -> 1 <= L ->
  shp (tt (p_r p)) = [L] -> entries (tt (p_r p)) = rs -> (0 < nth 0 rs 0)%R -> (forall l, S l < L -> (nth l rs 0 < nth (S l) rs 0)%R) ->
  k0_len (shp k0) = Some K -> 1 <= K -> (forall k, k < K -> (0 < nth k (entries k0) 0)%R) ->
  (forall l, l < L -> exists m V, nth_error h (nth l is 0) = Some m /\ physical_material m V /\ forall k, k < K -> V (2 * PI / nth k (entries k0) 0)%R) ->
  (forall k, k < K -> (0 < vf k)%R /\ exists m, nth_error h (p_env p) = Some m /\ material_eps m (2 * PI / nth k (entries k0) 0)%R (RtoC (vf k))) ->
  lower (k_backend kw) = "pena"%string -> k_internal kw = false -> k_n_max kw = Some n -> (1 <= n)%Z ->
  exists (lf : nat -> nat -> C) h' o dict ta tb,
    (forall l k, l < L -> k < K -> physical (lf l k) /\ exists m, nth_error h (nth l is 0) = Some m /\ material_eps m (2 * PI / nth k (entries k0) 0)%R (lf l k)) /\
    get_mie_coefficients sj sy jr p k0 src kw h = (h', Ok dict) /\
    In ("a_n"%string, PC ta) dict /\ In ("b_n"%string, PC tb) dict /\ squeezed (o_a o) ta /\ squeezed (o_b o) tb /\
    let el k := (nth k (entries k0) 0%R, RtoC (vf k), map (fun l => (nth l rs 0%R, lf l k)) (seq 0 L)) in
    is3 (o_a o) (Z.to_nat n) 1 K (fun i _ k => fst (scalar_pena (Z.to_nat n) (el k) (S i))) /\
    is3 (o_b o) (Z.to_nat n) 1 K (fun i _ k => snd (scalar_pena (Z.to_nat n) (el k) (S i))) /\
    forall k, k < K ->
      let layer := @layer_of R ROps (nth k (entries k0) 0%R) (RtoC (vf k)) in
      let l0 := layer (nth 0 rs 0%R, lf 0 k) in let rest := map (fun l => layer (nth l rs 0%R, lf l k)) (seq 1 (L - 1)) in
      (forall j, 1 <= j -> exists As, near_solution j l0 rest As /\ forall As', near_solution j l0 rest As' -> As' = As) /\
      forall As, all_orders l0 rest As ->
        let a j := na (nth (S (List.length rest)) (As j) amp0) in let b j := nb (nth (S (List.length rest)) (As j) amp0) in
        let kk := (nth k (entries k0) 0 * sqrt (vf k))%R in
        exists Ce Cs, fast_to (fun N => @cs_ext R ROps N (RtoC kk) a b) Ce /\ fast_to (fun N => @cs_sca R ROps N (RtoC kk) a b) Cs /\
          fast_to (fun N => @cs_abs R ROps N (RtoC kk) a b) (Ce - Cs) /\ (0 <= Cs <= Ce)%R.
Proof. exact bundled_particle. Qed.
Print Assumptions C94_particle.
(* a gold core with a silica shell in water (index 4/3), one wavelength: 500 nm *)
Example C94_case : forall sj sy jr, exists gold silica (h : @heap R) p dict, p_mats p = Some [0; 1] /\
  nth_error h 0 = Some (Db gold) /\ nth_error h 1 = Some (Db silica) /\
  physical_material (Db gold) (valid_at "Au_Johnson1972.yml") /\ physical_material (Db silica) (valid_at "SiO2_Malitson1965.yml") /\
  snd (get_mie_coefficients sj sy jr p k0_500 None kw1 h) = Ok dict.
Proof. exact gold_silica. Qed.
