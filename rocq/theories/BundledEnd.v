(** Particles of bundled materials: well-posed, with non-negative absorption (C94). *)
From Coq Require Import Reals ZArith List Bool String Arith Lia Lra Permutation.
From Coquelicot Require Import Coquelicot.
From Verif Require Import Ops ROps CLemmas Tensor TensorProofs Spec StackSpec StackConsequences BesselSpec ModelMaterial MaterialSpec MaterialProofs ModelSpecial ModelMie ModelBatch ModelObs BroadcastSpec BatchReal
  ModelNear NearSpec NearLimitSpec PassiveSpec PassiveStack SeriesSpec SeriesFar ExampleMaxwell ModelParticle ParticleSpec ParticleProofs ParticleRun ParticleHist ParticleFull ParticleEnd ExampleParticle ModelBundled BundledSpec BundledProofs BundledPartSpec.
Import ListNotations.
Open Scope nat_scope.
Open Scope list_scope.

Lemma layer_at k0 env (l : list (R * C)) i : i < List.length l ->
  index_at (map (@layer_of R ROps k0 env) l) i = fst (@layer_of R ROps k0 env (nth i l (0%R, RtoC 0))) /\
  size_at (map (@layer_of R ROps k0 env) l) i = snd (@layer_of R ROps k0 env (nth i l (0%R, RtoC 0))).
Proof.
  intros H. unfold index_at, size_at. rewrite (nth_indep _ _ (@layer_of R ROps k0 env (0%R, RtoC 0))) by now rewrite map_length. now rewrite map_nth.
Qed.
Lemma physical_neq0 e : physical e -> e <> RtoC 0.
Proof. intros H ->. unfold physical in H. cbn in H. lra. Qed.
Lemma physical_over e v : physical e -> (0 < v)%R -> physical (e / RtoC v)%C.
Proof.
  intros H Hv. assert (E : (e / RtoC v = (fst e / v, snd e / v)%R)%C) by (destruct e; apply injective_projections; cbn; field; lra).
  rewrite E. unfold physical in *. cbn [fst snd]. destruct H as [H|[H1 H2]]; [left; now apply Rdiv_lt_0_compat|]. right. rewrite H1. split; [unfold Rdiv; ring|now apply Rdiv_lt_0_compat].
Qed.
Lemma layer_square k0 v e r : (0 < v)%R -> let m := fst (@layer_of R ROps k0 (RtoC v) (r, e)) in (m * m = e / RtoC v)%C.
Proof.
  intros Hv. cbn zeta. unfold layer_of. cbn [fst snd]. toC. set (s := csqrt e). set (q := csqrt (RtoC v)).
  assert (S : (s * s = e)%C) by apply csqrt_sqr. assert (Q : (q * q = RtoC v)%C) by apply csqrt_sqr.
  assert (Nq : q <> RtoC 0) by (apply csqrt_neq0; intros E; injection E; lra). rewrite <- S, <- Q. field. exact Nq.
Qed.
Lemma layer_size k0 v e r : (0 < v)%R -> snd (@layer_of R ROps k0 (RtoC v) (r, e)) = RtoC (k0 * sqrt v * r).
Proof.
  intros Hv. unfold layer_of. cbn [fst snd]. replace v with (sqrt v * sqrt v)%R at 1 by (apply sqrt_sqrt; lra). rewrite csqrt_real by apply sqrt_pos.
  toC. now rewrite !RtoC_mult.
Qed.
Lemma good_stack k0 v (l : list (R * C)) : (0 < k0)%R -> (0 < v)%R ->
  (forall i, i < List.length l -> (0 < fst (nth i l (0%R, RtoC 0)))%R /\ physical (snd (nth i l (0%R, RtoC 0))) /\
     (S i < List.length l -> (fst (nth i l (0%R, RtoC 0)) <= fst (nth (S i) l (0%R, RtoC 0)))%R)) ->
  passive_stack (map (@layer_of R ROps k0 (RtoC v)) l) /\ no_lossless_metal (map (@layer_of R ROps k0 (RtoC v)) l).
Proof.
  intros Hk Hv Hl. assert (Sv : (0 < sqrt v)%R) by now apply sqrt_lt_R0.
  assert (KP : (0 < k0 * sqrt v)%R) by now apply Rmult_lt_0_compat.
  split; intros i Hi; rewrite map_length in *; cbn zeta; destruct (Hl i Hi) as (Hr & He & Hs); destruct (layer_at k0 (RtoC v) l i Hi) as [-> EX].
  - destruct (nth i l _) as [r e] eqn:En. cbn [fst snd] in Hr, He, Hs. rewrite EX, layer_size by exact Hv.
    match goal with |- ?m <> _ /\ _ => assert (LS : (m * m = e / RtoC v)%C) by exact (layer_square k0 v e r Hv); rewrite LS end.
    pose proof (physical_over e v He Hv) as P. split; [|split; [|split; [|split]]].
    + intros E. apply (physical_neq0 _ P). rewrite <- LS, E. ring.
    + destruct P as [P|[P _]]; [now left|now right].
    + reflexivity.
    + cbn [RtoC fst]. now apply Rmult_lt_0_compat.
    + intros Hi'. destruct (layer_at k0 (RtoC v) l (S i) Hi') as [_ ->]. specialize (Hs Hi'). destruct (nth (S i) l _) as [r' e']. rewrite layer_size by exact Hv.
      cbn [fst RtoC] in *. apply Rmult_le_compat_l; lra.
  - destruct (nth i l _) as [r e]. match goal with |- snd (?m * _)%C = _ -> _ => assert (LS : (m * m = e / RtoC v)%C) by exact (layer_square k0 v e r Hv); rewrite LS end. intros E. destruct (physical_over e v He Hv) as [P|[_ P]]; [lra|exact P].
Qed.

Lemma physical_material_eps m V x : physical_material m V -> V x -> exists e, material_eps m x e /\ physical e.
Proof.
  intros [eps d He|name material f y d m0 hist Hin Hf Hl Hne E] Hx.
  - exists eps. split; [apply const_eps|exact He].
  - destruct (bundled_db (map fst bundled) f y material name d (Permutation_refl _) Hin Hf Hl Hne) as (m1 & E1 & _ & I & P).
    rewrite E1 in E. injection E as <-.
    destruct (history_phys (valid_at f) m1 hist (at_wl x None) I P (or_introl eq_refl)) as (u & Eu & Su & Pu).
    { cbn. constructor; [exact Hx|constructor]. }
    destruct (hrun_inv hist m1 I) as [I' _]. pose proof (get_epsilon_inv _ (at_wl x None) I') as G.
    unfold material_eps. cbn [get_epsilon]. change {| wa_t := scalar_t x; wa_src := None |} with (at_wl x None).
    destruct (get_epsilon_db (hrun m1 hist) (at_wl x None)) as [m' r] eqn:EG. cbn [snd] in Eu. subst r. destruct G as (_ & _ & G).
    unfold get_spec in G. cbn in G. destruct (pure (hrun m1 hist) x) as [e|] eqn:Ep; [|discriminate]. destruct G as (s & G).
    exists e. cbn [snd]. split; [eexists; split; [exact G|reflexivity]|].
    injection G as ->. apply (Pu []). rewrite Su. exact Logic.I.
Qed.

(* the permittivity of layer l at wavenumber k *)
Definition eps_at (h : @heap R) (k0 : tensor R) (is : list nat) (l k : nat) : C :=
  match nth_error h (nth l is 0) with
  | Some m => match pure_of (mstat m) (2 * PI / nth k (entries k0) 0)%R with Ok e => e | Err _ => RtoC 0 end
  | None => RtoC 0
  end.
Lemma bundled_particle (sj sy jr : @bessel_t R) d (p : @particle R) (h : @heap R) (k0 : tensor R) src (kw : kwargs) is L K (rs : list R) (vf : nat -> R) n :
  reachable sj sy jr h -> coherent d p h -> p_eps p = None -> p_mats p = Some is -> List.length is = L -> 1 <= L ->
  shp (tt (p_r p)) = [L] -> entries (tt (p_r p)) = rs -> (0 < nth 0 rs 0)%R -> (forall l, S l < L -> (nth l rs 0 < nth (S l) rs 0)%R) ->
  k0_len (shp k0) = Some K -> 1 <= K -> (forall k, k < K -> (0 < nth k (entries k0) 0)%R) ->
  (forall l, l < L -> exists m V, nth_error h (nth l is 0) = Some m /\ physical_material m V /\ forall k, k < K -> V (2 * PI / nth k (entries k0) 0)%R) ->
  (forall k, k < K -> (0 < vf k)%R /\ exists m, nth_error h (p_env p) = Some m /\ material_eps m (2 * PI / nth k (entries k0) 0)%R (RtoC (vf k))) ->
  lower (k_backend kw) = "pena"%string -> k_internal kw = false -> k_n_max kw = Some n -> (1 <= n)%Z ->
  exists (lf : nat -> nat -> C) h' o dict ta tb,
    (forall l k, l < L -> k < K -> physical (lf l k) /\ exists m, nth_error h (nth l is 0) = Some m /\ material_eps m (2 * PI / nth k (entries k0) 0)%R (lf l k)) /\
    get_mie_coefficients sj sy jr p k0 src kw h = (h', Ok dict) /\
    In ("a_n"%string, PC ta) dict /\ In ("b_n"%string, PC tb) dict /\ squeezed (o_a o) ta /\ squeezed (o_b o) tb /\
    let el k := (nth k (entries k0) 0%R, RtoC (vf k), map (fun l => (nth l rs 0%R, lf l k)) (seq 0 L)) in
    is3 (o_a o) (Z.to_nat n) 1 K (fun i _ k => fst (scalar_pena (Z.to_nat n) (el k) (S i))) /\
    is3 (o_b o) (Z.to_nat n) 1 K (fun i _ k => snd (scalar_pena (Z.to_nat n) (el k) (S i))) /\
    forall k, k < K ->
      let layer := @layer_of R ROps (nth k (entries k0) 0%R) (RtoC (vf k)) in
      let l0 := layer (nth 0 rs 0%R, lf 0 k) in let rest := map (fun l => layer (nth l rs 0%R, lf l k)) (seq 1 (L - 1)) in
      (forall j, 1 <= j -> exists As, near_solution j l0 rest As /\ forall As', near_solution j l0 rest As' -> As' = As) /\
      forall As, all_orders l0 rest As ->
        let a j := na (nth (S (List.length rest)) (As j) amp0) in let b j := nb (nth (S (List.length rest)) (As j) amp0) in
        let kk := (nth k (entries k0) 0 * sqrt (vf k))%R in
        exists Ce Cs, fast_to (fun N => @cs_ext R ROps N (RtoC kk) a b) Ce /\ fast_to (fun N => @cs_sca R ROps N (RtoC kk) a b) Cs /\
          fast_to (fun N => @cs_abs R ROps N (RtoC kk) a b) (Ce - Cs) /\ (0 <= Cs <= Ce)%R.
Proof.
  intros Hr Hc He Hm Li L1 Sr Er R0 Rs Sk K1 Kp Hl Hv Hb Hi Hn Hn1.
  pose proof (reachable_wfh sj sy jr h Hr) as W.
  set (lf := eps_at h k0 is).
  assert (LF : forall l k, l < L -> k < K -> physical (lf l k) /\ exists m, nth_error h (nth l is 0) = Some m /\ material_eps m (2 * PI / nth k (entries k0) 0)%R (lf l k)).
  { intros l k Hl0 Hk. destruct (Hl l Hl0) as (m & V & Em & PM & HV). destruct (physical_material_eps m V _ PM (HV k Hk)) as (e & Me & Pe).
    assert (lf l k = e) as ->.
    { unfold lf, eps_at. rewrite Em. assert (Wm : wf m) by (eapply W; exact Em). now rewrite (material_pure m _ e Wm Me). }
    split; [exact Pe|]. now exists m. }
  destruct (particle_mie sj sy jr d p h k0 src kw is L K rs lf (fun k => RtoC (vf k)) n W Hc He Hm Li L1 Sr Er Rs Sk K1) as (h' & o & dict & ta & tb & _ & G1 & G2 & G3 & G4 & G5 & G6 & G7);
    [intros; now apply LF|intros k Hk; apply (Hv k Hk)|exact Hb|exact Hi|exact Hn|exact Hn1|].
  exists lf, h', o, dict, ta, tb. split; [exact LF|]. repeat (split; [assumption|]).
  intros k Hk. cbn zeta. set (kk := nth k (entries k0) 0%R). set (layer := @layer_of R ROps kk (RtoC (vf k))).
  destruct (Hv k Hk) as [Vp _]. specialize (Kp k Hk). fold kk in Kp.
  set (ls := map (fun l => (nth l rs 0%R, lf l k)) (seq 0 L)).
  assert (Nth : forall i, i < L -> nth i ls (0%R, RtoC 0) = (nth i rs 0%R, lf i k)).
  { intros i Hi'. unfold ls. rewrite (nth_indep _ _ (nth 0 rs 0%R, lf 0 k)) by (rewrite map_length, seq_length; lia).
    rewrite (map_nth (fun l => (nth l rs 0%R, lf l k)) (seq 0 L) 0), seq_nth by exact Hi'. reflexivity. }
  assert (Rp : forall i, i < L -> (0 < nth i rs 0)%R).
  { induction i as [|i IH]; intros Hi'; [exact R0|]. eapply Rlt_trans; [apply IH; lia|]. now apply Rs. }
  assert (ST : passive_stack (map layer ls) /\ no_lossless_metal (map layer ls)).
  { apply good_stack; [exact Kp|exact Vp|]. intros i. unfold ls at 1. rewrite map_length, seq_length. intros Hi'. rewrite Nth by exact Hi'. cbn [fst snd].
    split; [now apply Rp|]. split; [now apply LF|]. unfold ls at 1. rewrite map_length, seq_length. intros Hs. rewrite Nth by exact Hs. cbn [fst]. left. now apply Rs. }
  assert (EL : map layer ls = layer (nth 0 rs 0%R, lf 0 k) :: map (fun l => layer (nth l rs 0%R, lf l k)) (seq 1 (L - 1))).
  { unfold ls. rewrite map_map. destruct L as [|L']; [lia|]. cbn [seq map]. now replace (S L' - 1) with L' by lia. }
  rewrite EL in ST. destruct ST as [S1 S2]. split.
  - intros j Hj. apply (passive_well_posed j _ _ Hj S1).
  - intros As HA. apply (cross_sections_converge _ _ As S1 S2 HA). assert (0 < sqrt (vf k))%R by now apply sqrt_lt_R0.
    assert (0 < kk * sqrt (vf k))%R by now apply Rmult_lt_0_compat. lra.
Qed.
