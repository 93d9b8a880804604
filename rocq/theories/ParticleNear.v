(** Near fields of particle objects. *)
From Coq Require Import Reals ZArith List Bool String Arith Lia Lra.
From Coquelicot Require Import Coquelicot.
From Verif Require Import Ops ROps CLemmas Tensor TensorProofs ModelMaterial MaterialSpec MaterialProofs ModelSpecial ModelMie ModelBatch ModelObs BroadcastSpec BroadcastProofs BatchReal
  ModelJn ModelNear ModelNearLegacy ModelNearPena NearLegacySpec NearLegacyCall NearPenaCall
  ModelParticle ParticleSpec ParticleProofs ParticleRun ParticleHist ParticleFull ParticleEnd ModelParticleNear.
Import ListNotations.
Open Scope nat_scope.
Open Scope list_scope.

Section N.
  Variables (sj sy jr : @bessel_t R) (e10 : R) (pi : string -> result Z).
  Notation getnf := (get_nearfields e10 sj sy jr pi).

  Lemma near_dictionary p k0 probe src E0 kw (h h' : @heap R) d : getnf p k0 probe src E0 kw h = (h', Ok d) ->
    exists eps env f, permittivities p k0 src h = (h', Ok (eps, env)) /\ nearfields_api e10 sj sy jr pi E0 probe (particle_call p k0 eps env kw) = Ok f /\
      squeezed_dict (near_dict f) d.
  Proof.
    unfold get_nearfields. destruct (rev (shp probe)) as [|n l]; [discriminate|]. destruct (n =? 3); [|discriminate]. unfold bnd at 1.
    destruct (permittivities p k0 src h) as [h1 [[e v]|]]; [|discriminate]. unfold bnd, lift. cbn [fst snd].
    destruct (nearfields_api _ _ _ _ _ _ _ _) as [f|] eqn:E; [|discriminate]. destruct (near_devices_ok _ _ _ _); [|discriminate]. unfold ret. intros H. injection H as <- <-.
    exists e, v, f. split; [reflexivity|]. split; [exact E|]. apply squeeze_dict_ok.
  Qed.
  Lemma bad_probe p k0 probe src E0 kw (h : @heap R) s n : shp probe = s ++ [n] -> n <> 3 -> getnf p k0 probe src E0 kw h = (h, Err AssertionError).
  Proof.
    intros Hs Hn. unfold get_nearfields. rewrite Hs, rev_app_distr. cbn [rev app]. now rewrite (proj2 (Nat.eqb_neq n 3) Hn).
  Qed.

  (** ** what a call computes, as a function of values *)
  Definition nearP (v : tensor R * option (tensor C) * option (list nat) * nat) (h : @heap R) k0 probe E0 kw : result (@dict R) :=
    match rev (shp probe) with
    | [] => Err IndexError
    | n :: _ => if n =? 3 then
        let* ee := permP (snd (fst (fst v))) (snd (fst v)) (snd v) h k0 in
        let* f := nearfields_api e10 sj sy jr pi E0 probe (callP v k0 ee kw) in Ok (squeeze_dimensions (near_dict f))
      else Err AssertionError
    end.
  Lemma getnf_ok d p h k0 probe src E0 kw : wfh h -> coherent d p h -> let (h', r) := getnf p k0 probe src E0 kw h in
    wfh h' /\ heq h h' /\ r = nearP (values_of p) h k0 probe E0 kw.
  Proof.
    intros Hw Hc. assert (Hq : heq h h). { intros i m Hm. exists m. auto. }
    unfold get_nearfields, nearP. destruct (rev (shp probe)) as [|n l]; [unfold fail; auto|]. destruct (n =? 3); [|unfold fail; auto].
    unfold values_of. cbn [fst snd]. unfold bnd at 1. pose proof (permittivities_ok d p h k0 src Hw Hc) as G.
    destruct (permittivities p k0 src h) as [h1 r1]. destruct G as (G1 & G2 & ->). destruct (permP _ _ _ _ _) as [[e v]|er]; cbn [rmapr bind]; [|auto].
    unfold onto. cbn [fst snd]. unfold particle_call, callP. cbn [tt fst snd td]. unfold bnd, lift.
    destruct (nearfields_api _ _ _ _ _ _ _ _) as [o|er]; [|auto]. unfold near_devices_ok. rewrite (co_dev _ _ _ Hc), (co_r _ _ _ Hc), !String.eqb_refl. cbn [andb]. unfold ret. split; [exact G1|split; [exact G2|reflexivity]].
  Qed.
  Lemma nearP_same d p h h' k0 probe E0 kw : coherent d p h -> same_stat h h' -> nearP (values_of p) h' k0 probe E0 kw = nearP (values_of p) h k0 probe E0 kw.
  Proof.
    intros Hc S. unfold nearP. destruct (rev (shp probe)); [reflexivity|]. destruct (_ =? 3); [|reflexivity].
    rewrite (permP_same _ _ _ h h' k0); [reflexivity|]. rewrite <- addrs_values. intros i Hi. destruct (co_mats _ _ _ Hc i Hi) as (m0 & E1 & _). eapply stat_at_same; eassumption.
  Qed.
  Lemma near_history a h rs e ms os : reachable sj sy jr h -> accepted a rs e ms -> List.Forall (usable h) (mat_args a) ->
    exists h1 p1, new_particle a h = (h1, Ok p1) /\
    let (p2, h2) := prun sj sy jr (p1, h1) os in
      forall k0 probe src E0 kw, snd (getnf p2 k0 probe src E0 kw h2) = snd (getnf p1 k0 probe src E0 kw h1).
  Proof.
    intros Hr Ha Hu. destruct (new_accepts _ _ _ _ _ Ha Hu) as (h1 & p1 & E & Hc & _). exists h1, p1. split; [exact E|].
    pose proof (new_wfh _ _ _ _ (reachable_wfh _ _ _ _ Hr) E) as Hw.
    pose proof (prun_ok sj sy jr os _ p1 h1 Hw Hc) as G. destruct (prun sj sy jr (p1, h1) os) as [p2 h2]. destruct G as (G1 & G2 & G3 & G4).
    intros k0 probe src E0 kw.
    pose proof (getnf_ok _ p1 h1 k0 probe src E0 kw Hw Hc) as A. pose proof (getnf_ok _ p2 h2 k0 probe src E0 kw G2 G1) as B.
    destruct (getnf p1 k0 probe src E0 kw h1) as [x1 r1]. destruct (getnf p2 k0 probe src E0 kw h2) as [x2 r2]. destruct A as (_ & _ & ->), B as (_ & _ & ->). cbn [snd].
    rewrite G3. now apply nearP_same with (device_of a).
  Qed.

  Section Particle.
    Variables (d : device) (p : @particle R) (h : @heap R) (k0 : tensor R) (src : option nat) (kw : kwargs) (is : list nat) (L K : nat) (rs : list R)
      (lf : nat -> nat -> C) (vf : nat -> C) (n : Z).
    Hypotheses (Hw : wfh h) (Hc : coherent d p h) (Hpe : p_eps p = None) (Hpm : p_mats p = Some is) (Hli : List.length is = L) (HL : 1 <= L)
      (Hrs : shp (tt (p_r p)) = [L]) (Hre : entries (tt (p_r p)) = rs) (Hinc : forall l, S l < L -> (nth l rs 0 < nth (S l) rs 0)%R)
      (Hk : k0_len (shp k0) = Some K) (HK : 1 <= K)
      (Hl : forall l k, l < L -> k < K -> exists m, nth_error h (nth l is 0) = Some m /\ material_eps m (2 * PI / nth k (entries k0) 0)%R (lf l k))
      (Hv : forall k, k < K -> exists m, nth_error h (p_env p) = Some m /\ material_eps m (2 * PI / nth k (entries k0) 0)%R (vf k)).
    Definition el k := (nth k (entries k0) 0%R, vf k, map (fun l => (nth l rs 0%R, lf l k)) (seq 0 L)).
    Lemma particle_args : exists e v ef vx, permP None (Some is) (p_env p) h k0 = Ok (e, v) /\
      valid k0 (tt (p_r p)) e v K 1 L ef vx /\ forall q k, k < K -> element k0 (tt (p_r p)) e v ef vx L q k = el k.
    Proof.
      assert (P1 : forall l k, l < L -> k < K -> pure_of (stat_at h (nth l is 0)) (2 * PI / nth k (entries k0) 0)%R = Ok (lf l k)).
      { intros l k Hl0 Hk0. destruct (Hl l k Hl0 Hk0) as (m & E & Hm). unfold stat_at. rewrite E. apply material_pure; [eauto|exact Hm]. }
      assert (P2 : forall k, k < K -> pure_of (stat_at h (p_env p)) (2 * PI / nth k (entries k0) 0)%R = Ok (vf k)).
      { intros k Hk0. destruct (Hv k Hk0) as (m & E & Hm). unfold stat_at. rewrite E. apply material_pure; [eauto|exact Hm]. }
      destruct (permP_ok h is (p_env p) k0 K L lf vf Hk HK Hli HL P1 P2) as (e & v & Hp & Se & Sv & Ae & Av).
      assert (Hef : exists ef, eps_layout 1 L K (shp e) = Some ef /\ forall p l k, ef p l k = l :: spectral_ix K k).
      { destruct (spectral_eps_layout L K _ Se) as [E|E]; [|exact E]. eexists. split; [exact E|reflexivity]. }
      destruct Hef as (ef & Eef & Hef). destruct (spectral_env_layout K _ HK Sv) as (vx & Evx & Hvx).
      assert (At : forall l, l < L -> at_ (tt (p_r p)) [l] = nth l rs 0%R). { intros l Hl0. rewrite <- Hre. symmetry. now apply entries_vec with L. }
      exists e, v, ef, vx. split; [exact Hp|]. split.
      - split; [exact Hk|now rewrite Hrs| |exact Eef|exact Evx]. intros q l Hq Hl0. rewrite Hrs. cbn [r_ix]. rewrite !At by lia. now apply Hinc.
      - intros q k Hk0. unfold element, el. rewrite Hvx, Av by exact Hk0. f_equal. apply map_ext_in. intros l Hl0. apply in_seq in Hl0.
        rewrite Hrs. cbn [r_ix]. rewrite At, Hef, Ae by lia. reflexivity.
    Qed.
    Lemma nearP_fields E0 probe Q : lower (k_backend kw) = "pena"%string -> k_n_max kw = Some n -> (1 <= n)%Z -> shp probe = [Q; 3] ->
      exists f, nearP (values_of p) h k0 probe E0 kw = Ok (squeeze_dimensions (near_dict f)) /\
      (shp (f_Ei f) = [1; K; Q; 3] /\ shp (f_Hi f) = [1; K; Q; 3] /\ shp (f_Es f) = [1; K; Q; 3] /\
       shp (f_Hs f) = [1; K; Q; 3] /\ shp (f_Et f) = [1; K; Q; 3] /\ shp (f_Ht f) = [1; K; Q; 3]) /\
      forall k i cp, k < K -> i < Q -> cp < 3 ->
        let N := Z.to_nat n in let kk := nth k (entries k0) 0%R in let env := vf k in
        let co := (nth 0 rs 0%R, lf 0 k) in let sh := map (fun l => (nth l rs 0%R, lf l k)) (seq 1 (L - 1)) in
        let s := xyz_to_sph e10 (at_ probe [i; 0]) (at_ probe [i; 1]) (at_ probe [i; 2]) in
        let pt := {| pt_r := fst (fst s); pt_theta := snd (fst s); pt_phi := snd s |} in
        at_ (f_Ei f) [0; k; i; cp] = comp cp (E_i kk env E0 pt) /\
        at_ (f_Hi f) [0; k; i; cp] = comp cp (H_i kk env E0 pt) /\
        at_ (f_Es f) [0; k; i; cp] = comp cp (E_s N 15 kk env co sh E0 pt) /\
        at_ (f_Hs f) [0; k; i; cp] = comp cp (H_s N 15 kk env co sh E0 pt) /\
        at_ (f_Et f) [0; k; i; cp] = comp cp (E_t N 15 kk env co sh E0 pt) /\
        at_ (f_Ht f) [0; k; i; cp] = comp cp (H_t N 15 kk env co sh E0 pt).
    Proof.
      intros Hb Hn Hn1 Sp. destruct particle_args as (e & v & ef & vx & Hp & Val & Hel).
      unfold nearP. rewrite Sp. cbn [rev app Nat.eqb].
      assert (Ep : permP (snd (fst (fst (values_of p)))) (snd (fst (values_of p))) (snd (values_of p)) h k0 = Ok (e, v)).
      { unfold values_of. cbn [fst snd]. now rewrite Hpe, Hpm. }
      rewrite Ep. cbn [bind].
      set (c := callP (values_of p) k0 (e, v) kw).
      destruct (pena_tail sj sy jr (without_internal c) (tt (p_r p)) e K 1 L ef vx n Hb eq_refl eq_refl Val HL Hn1 (or_introl Hn)) as (o & Eo & No & _).
      destruct (near_record sj sy jr e10 E0 probe Q c o (tt (p_r p)) e K 1 L ef vx Eo Hb eq_refl Val ltac:(lia) (le_n 1) Sp) as (f & Ef & Sf & Vf).
      unfold nearfields_api. change (a_backend c) with (k_backend kw). rewrite Hb, String.eqb_refl, Ef. cbn [bind].
      exists f. split; [reflexivity|]. split; [exact Sf|].
      intros k i cp Hk0 Hi Hcp. specialize (Vf 0 k i cp ltac:(lia) Hk0 Hi Hcp). cbv zeta in Vf. change (a_k0 c) with k0 in Vf. change (a_env c) with v in Vf.
      rewrite (Hel 0 k Hk0), No in Vf. unfold el, core_of, shells_of in Vf. cbn [fst snd] in Vf. replace (seq 0 L) with (0 :: seq 1 (L - 1)) in Vf by (destruct L; [lia|]; cbn [seq]; now rewrite Nat.sub_succ, Nat.sub_0_r).
      exact Vf.
    Qed.
    Lemma particle_fields E0 probe Q : lower (k_backend kw) = "pena"%string -> k_n_max kw = Some n -> (1 <= n)%Z -> shp probe = [Q; 3] ->
      exists h' f dict, getnf p k0 probe src E0 kw h = (h', Ok dict) /\ squeezed_dict (near_dict f) dict /\
      (shp (f_Ei f) = [1; K; Q; 3] /\ shp (f_Hi f) = [1; K; Q; 3] /\ shp (f_Es f) = [1; K; Q; 3] /\
       shp (f_Hs f) = [1; K; Q; 3] /\ shp (f_Et f) = [1; K; Q; 3] /\ shp (f_Ht f) = [1; K; Q; 3]) /\
      forall k i cp, k < K -> i < Q -> cp < 3 ->
        let N := Z.to_nat n in let kk := nth k (entries k0) 0%R in let env := vf k in
        let co := (nth 0 rs 0%R, lf 0 k) in let sh := map (fun l => (nth l rs 0%R, lf l k)) (seq 1 (L - 1)) in
        let s := xyz_to_sph e10 (at_ probe [i; 0]) (at_ probe [i; 1]) (at_ probe [i; 2]) in
        let pt := {| pt_r := fst (fst s); pt_theta := snd (fst s); pt_phi := snd s |} in
        at_ (f_Ei f) [0; k; i; cp] = comp cp (E_i kk env E0 pt) /\
        at_ (f_Hi f) [0; k; i; cp] = comp cp (H_i kk env E0 pt) /\
        at_ (f_Es f) [0; k; i; cp] = comp cp (E_s N 15 kk env co sh E0 pt) /\
        at_ (f_Hs f) [0; k; i; cp] = comp cp (H_s N 15 kk env co sh E0 pt) /\
        at_ (f_Et f) [0; k; i; cp] = comp cp (E_t N 15 kk env co sh E0 pt) /\
        at_ (f_Ht f) [0; k; i; cp] = comp cp (H_t N 15 kk env co sh E0 pt).
    Proof.
      intros Hb Hn Hn1 Sp. destruct (nearP_fields E0 probe Q Hb Hn Hn1 Sp) as (f & Ef & Sf & Vf).
      pose proof (getnf_ok d p h k0 probe src E0 kw Hw Hc) as G. destruct (getnf p k0 probe src E0 kw h) as [h' r]. destruct G as (_ & _ & ->).
      eexists. exists f. eexists. split; [rewrite Ef; reflexivity|]. split; [apply squeeze_dict_ok|]. split; [exact Sf|exact Vf].
    Qed.
    Lemma particle_torch_fails E0 probe : lower (k_backend kw) <> "pena"%string -> K <> 1 -> K <> 3 ->
      forall h' dict, getnf p k0 probe src E0 kw h <> (h', Ok dict).
    Proof.
      intros Hb H1 H3 h' dict E. destruct particle_args as (e & v & ef & vx & Hp & Val & _).
      pose proof (getnf_ok d p h k0 probe src E0 kw Hw Hc) as G. rewrite E in G. destruct G as (_ & _ & G). unfold nearP in G.
      destruct (rev (shp probe)) as [|m l]; [discriminate|]. destruct (m =? 3); [|discriminate].
      assert (Ep : permP (snd (fst (fst (values_of p)))) (snd (fst (values_of p))) (snd (values_of p)) h k0 = Ok (e, v)).
      { unfold values_of. cbn [fst snd]. now rewrite Hpe, Hpm. }
      rewrite Ep in G. cbn [bind] in G.
      set (c := callP (values_of p) k0 (e, v) kw) in G. unfold nearfields_api in G. change (a_backend c) with (k_backend kw) in G.
      apply String.eqb_neq in Hb. rewrite Hb in G. destruct (near_call _ _ _ _ _ _ _ _) as [f|] eqn:Ef; [|discriminate].
      now apply (near_call_fails sj sy jr pi e10 E0 probe c (tt (p_r p)) e K 1 L ef vx eq_refl Val H1 H3 f).
    Qed.
  End Particle.
End N.
