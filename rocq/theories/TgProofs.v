(** The torchgdm helpers: coefficients, layout, environment, polarisability. *)
From Coq Require Import Reals ZArith List Bool String Arith Lia Lra FunctionalExtensionality.
From Coquelicot Require Import Complex.
From Verif Require Import Ops ROps CLemmas Tensor TensorProofs ModelMaterial MaterialSpec MaterialProofs ModelSpecial ModelMie ModelBatch ModelObs BroadcastSpec BroadcastProofs BatchReal
  TruncProofs TorchBatch ModelParticle ParticleSpec ParticleProofs ParticleRun ParticleHist ParticleFull ParticleEnd ModelTg TgSpec.
Import ListNotations.
Open Scope nat_scope.
Open Scope list_scope.

(** ** the call made for a particle *)
Lemma particle_valid d (p : @particle R) (h : @heap R) (k0 : tensor R) (kw : kwargs) is L K (rs : list R) (lf : nat -> nat -> C) (vf : nat -> C) :
  coherent d p h -> p_eps p = None -> p_mats p = Some is -> List.length is = L -> 1 <= L ->
  shp (tt (p_r p)) = [L] -> entries (tt (p_r p)) = rs -> (forall l, S l < L -> (nth l rs 0 < nth (S l) rs 0)%R) ->
  k0_len (shp k0) = Some K -> 1 <= K ->
  (forall l k, l < L -> k < K -> pure_of (stat_at h (nth l is 0)) (2 * PI / nth k (entries k0) 0)%R = Ok (lf l k)) ->
  (forall k, k < K -> pure_of (stat_at h (p_env p)) (2 * PI / nth k (entries k0) 0)%R = Ok (vf k)) ->
  exists e v ef vx, let c := callP (values_of p) k0 (e, v) kw in
    (forall sj sy jr, runP sj sy jr (values_of p) h k0 kw = mie_coefficients sj sy jr c) /\
    valid (a_k0 c) (tt (p_r p)) e (a_env c) K 1 L ef vx /\ inputs_of c = Ok (tt (p_r p), e) /\
    forall q k, k < K -> element (a_k0 c) (tt (p_r p)) e (a_env c) ef vx L q k = (nth k (entries k0) 0%R, vf k, map (fun l => (nth l rs 0%R, lf l k)) (seq 0 L)).
Proof.
  intros Hc Hpe Hpm Hli HL Hrs Hre Hinc Hk HK P1 P2.
  destruct (permP_ok h is (p_env p) k0 K L lf vf Hk HK Hli HL P1 P2) as (e & v & Hp & Se & Sv & Ae & Av).
  assert (Hef : exists ef, eps_layout 1 L K (shp e) = Some ef /\ forall p l k, ef p l k = l :: spectral_ix K k).
  { destruct (spectral_eps_layout L K _ Se) as [E|E]; [|exact E]. eexists. split; [exact E|reflexivity]. }
  destruct Hef as (ef & Eef & Hef). destruct (spectral_env_layout K _ HK Sv) as (vx & Evx & Hvx).
  assert (At : forall l, l < L -> at_ (tt (p_r p)) [l] = nth l rs 0%R). { intros l Hl0. rewrite <- Hre. symmetry. now apply entries_vec with L. }
  exists e, v, ef, vx. cbv zeta. split; [|split; [|split; [reflexivity|]]].
  - intros sj sy jr. transitivity (let* ee := permP None (Some is) (p_env p) h k0 in mie_coefficients sj sy jr (callP (values_of p) k0 ee kw)).
    + unfold runP, values_of. cbn [fst snd]. rewrite Hpe, Hpm. reflexivity.
    + rewrite Hp. reflexivity.
  - split; [exact Hk|now rewrite Hrs| |exact Eef|exact Evx]. intros q l Hq Hl0. rewrite Hrs. cbn [r_ix]. rewrite !At by lia. now apply Hinc.
  - intros q k Hk0. unfold element. change (a_env (callP (values_of p) k0 (e, v) kw)) with v. change (a_k0 (callP (values_of p) k0 (e, v) kw)) with k0.
    rewrite Hvx, Av by exact Hk0. f_equal. apply map_ext_in. intros l Hl0. apply in_seq in Hl0. rewrite Hrs. cbn [r_ix]. rewrite At, Hef, Ae by lia. reflexivity.
Qed.

(** the configuration stored in the output is the broadcast input *)
Lemma mie_cfg sj sy jr (c : @call R) o r e : inputs_of c = Ok (r, e) -> mie_coefficients sj sy jr c = Ok o -> broadcast_mie_layers (a_k0 c) r e (a_env c) = Ok (o_cfg o).
Proof.
  unfold inputs_of, mie_coefficients. intros -> H. destruct (negb _); [discriminate|]. cbn [bind fst snd] in H.
  destruct (broadcast_mie_layers _ _ _ _) as [cfg|]; [|discriminate]. cbn [bind] in H.
  repeat match type of H with
  | (let* _ := ?x in _) = Ok _ => destruct x; cbn [bind] in H; [|discriminate]
  | (if ?b then Err _ else _) = Ok _ => destruct b; [discriminate|]
  | match ?x with _ => _ end = Ok _ => destruct x; try discriminate
  end.
  injection H as <-. reflexivity.
Qed.
Lemma dict_a (o : @output R) f : output_dict o = Ok f ->
  dict_tensor "a_n" (squeeze_dimensions f) = Ok (squeeze (o_a o)) /\ dict_tensor "b_n" (squeeze_dimensions f) = Ok (squeeze (o_b o)).
Proof. unfold output_dict. destruct (tbin _ _ _); cbn [bind]; [|discriminate]. intros H. injection H as <-. split; reflexivity. Qed.
Lemma dict_ok sj sy jr (c : @call R) o r e K P L ef vx : inputs_of c = Ok (r, e) -> valid (a_k0 c) r e (a_env c) K P L ef vx -> mie_coefficients sj sy jr c = Ok o ->
  exists f, output_dict o = Ok f.
Proof.
  intros Hi Hv Ho. pose proof (mie_cfg _ _ _ _ _ _ _ Hi Ho) as Hb. destruct (broadcast_accepts _ _ _ _ _ _ _ _ _ Hv) as (b & Eb & _ & _ & D3 & _ & D5).
  rewrite Eb in Hb. injection Hb as Hb. rewrite Hb in D3, D5. unfold output_dict.
  destruct (tbin_3k cdiv _ _ _ _ _ _ _ (is3_tmap csqrt _ _ _ _ _ D3) (is3_un1 _ _ _ _ D5)) as (m & -> & _). cbn [bind]. eauto.
Qed.

(** the other backends reject more than two layers *)
Lemma many_layers_rejected sj sy jr (c : @call R) r eps K P L ef vf n :
  lower (a_backend c) = "torch"%string \/ lower (a_backend c) = "scipy"%string -> inputs_of c = Ok (r, eps) ->
  valid (a_k0 c) r eps (a_env c) K P L ef vf -> 2 < L -> (0 <= n)%Z -> a_n_max c = Some n -> mie_coefficients sj sy jr c = Err ValueError.
Proof.
  intros Hb Hi Hv HL Hn Hnm. unfold mie_coefficients. assert (Hk : known (lower (a_backend c))) by (unfold known; tauto).
  rewrite (proj2 (existsb_known _) Hk). cbn [negb]. unfold inputs_of in Hi. rewrite Hi. cbn [bind fst snd].
  destruct (broadcast_accepts _ _ _ _ _ _ _ _ _ Hv) as (b & -> & Hd). cbn [bind]. destruct Hd as (Ik0 & Ir & Ie & Iv & In).
  unfold dim_size. rewrite (proj1 Ir), (proj1 Ik0). cbn [nth]. destruct (Nat.ltb_spec 0 L) as [_|]; [|lia]. cbn [guard_err bind].
  assert (HL0 : 0 < L) by lia. assert (HL1 : L - 1 < L) by lia.
  destruct (is2_broadcast_col _ P K _ (is2_unl _ _ _ (is1_select _ _ _ _ 0 HL0 Ir))) as (rc & -> & Jrc). cbn [bind].
  destruct (Nat.ltb_spec 1 L) as [_|]; [|lia].
  destruct (is2_broadcast_col _ P K _ (is2_unl _ _ _ (is1_select _ _ _ _ (L - 1) HL1 Ir))) as (rs & -> & J). cbn [bind].
  rewrite Hnm. cbn [bind]. destruct (Z.ltb_spec n 0) as [Hbad|_]; [lia|].
  destruct (tbin_22 cmul _ _ _ _ _ _ (is2_tmap (@cofr R ROps) _ _ _ _ Ik0) In) as (kk & -> & Jk). cbn [bind].
  destruct Hb as [-> | ->]; cbn [String.eqb Ascii.eqb Bool.eqb]; (destruct (Nat.ltb_spec 2 L) as [_|]; [reflexivity|lia]).
Qed.

(** ** tensors of shape (n, 1, K) after squeezing *)
Lemma layout_many (t : tensor (cplx R)) n K f : is3 t n 1 K f -> 2 <= n -> 1 <= K ->
  exists u, tg_layout (squeeze t) = Ok u /\ is2 u K n (fun k i => f i 0 k).
Proof.
  intros [Hs Ha] Hn HK. unfold tg_layout, squeeze, squeeze_shape. rewrite Hs. cbn [filter]. rewrite Nat.eqb_refl. cbn [negb].
  rewrite (proj2 (Nat.eqb_neq n 1)) by lia. cbn [negb]. destruct (Nat.eqb_spec K 1) as [->|HK1]; cbn [negb ndim shp List.length Nat.eqb].
  - eexists. split; [reflexivity|]. split; [reflexivity|]. intros k i Hk Hi. assert (k = 0) as -> by lia. cbn [at_ unsqueeze remove_at unsqueeze_ix].
    rewrite (proj2 (Nat.eqb_neq n 1)) by lia. cbn [hd tl]. apply Ha; lia.
  - eexists. split; [reflexivity|]. split; [reflexivity|]. intros k i Hk Hi. cbn [at_ unsqueeze_ix].
    rewrite (proj2 (Nat.eqb_neq n 1)), (proj2 (Nat.eqb_neq K 1)) by lia. cbn [Nat.eqb hd tl]. apply Ha; lia.
Qed.
Lemma layout_one (t : tensor (cplx R)) K f : is3 t 1 1 K f -> 2 <= K -> exists u, tg_layout (squeeze t) = Ok u /\ is2 u 1 K (fun _ k => f 0 0 k).
Proof.
  intros [Hs Ha] HK. unfold tg_layout, squeeze, squeeze_shape. rewrite Hs. cbn [filter]. rewrite Nat.eqb_refl. cbn [negb].
  rewrite (proj2 (Nat.eqb_neq K 1)) by lia. cbn [negb ndim shp List.length Nat.eqb]. eexists. split; [reflexivity|]. split; [reflexivity|].
  intros k i Hk Hi. assert (k = 0) as -> by lia. cbn [at_ unsqueeze remove_at unsqueeze_ix Nat.eqb]. rewrite (proj2 (Nat.eqb_neq K 1)) by lia. cbn [hd tl]. apply Ha; lia.
Qed.
Lemma layout_none (t : tensor (cplx R)) f : is3 t 1 1 1 f -> tg_layout (squeeze t) = Err IndexError.
Proof. intros [Hs Ha]. unfold tg_layout, squeeze, squeeze_shape. rewrite Hs. reflexivity. Qed.

(** ** preparation *)
Lemma wl_back (x : R) : (2 * PI / (2 * PI / x))%R = x.
Proof.
  pose proof PI_RGT_0. destruct (Req_dec x 0) as [->|Hx]; [|field; lra].
  unfold Rdiv. rewrite Rinv_0, Rmult_0_r, Rinv_0. ring.
Qed.
Lemma k0_eq (wls : list R) : @k0_of R ROps wls = mkT [List.length wls] (fun ix => (2 * PI / nth (nth 0%nat ix 0%nat) wls 0)%R).
Proof. reflexivity. Qed.
Lemma wl_of_k0 (wls : list R) : wl_of (@k0_of R ROps wls) = @wl_t R ROps wls.
Proof.
  unfold wl_of, k0_of, wl_t, vec_t, tmap. cbn [shp at_]. f_equal. apply functional_extensionality. intros ix. apply wl_back.
Qed.
Lemma k0_entry (wls : list R) k : k < List.length wls -> nth k (entries (@k0_of R ROps wls)) 0%R = (2 * PI / nth k wls 0)%R.
Proof. intros H. rewrite (entries_vec _ (List.length wls)); [reflexivity|reflexivity|exact H]. Qed.
Lemma k0_len_wls (wls : list R) : k0_len (shp (@k0_of R ROps wls)) = Some (List.length wls).
Proof. unfold k0_len. cbn [shp k0_of wl_t vec_t tmap filter]. destruct (Nat.eqb_spec (List.length wls) 1) as [->|]; reflexivity. Qed.
Lemma ceqb_iff (a b : C) : @ceqb R ROps a b = true <-> a = b.
Proof.
  unfold ceqb. cbn [reqb ROps]. rewrite andb_true_iff. split.
  - intros [H1 H2]. apply Reqb_true in H1. apply Reqb_true in H2. now apply injective_projections.
  - intros ->. split; now apply Reqb_true.
Qed.

Lemma env_cases (t : tensor (cplx R)) K v (n : @n_env_arg R) : shp t = [K] -> 1 <= K -> (forall k, k < K -> at_ t [k] = v) ->
  env_override t n = match n with
  | NNone => Ok t
  | NNum z => if ceqb v (csqr z) then Err TypeError else Err AssertionError
  | NTen u => if negb (numel u =? 1) then Err RuntimeError else if negb (ceqb v (csqr (first_entry u))) then Err AssertionError
              else if ndim u =? 0 then Err IndexError else Ok (tmap csqr u)
  end.
Proof.
  intros Hs HK Ha. unfold env_override, all_as_first, first_entry, ndim, numel at 1, entries. rewrite Hs. cbn [fold_right List.length repeat].
  rewrite (proj2 (Nat.eqb_neq (K * 1) 0)) by lia. rewrite Ha by lia.
  assert (F : forallb (fun z => ceqb z v) (map (at_ t) (indices [K])) = true).
  { apply forallb_forall. intros z Hz. apply in_map_iff in Hz. destruct Hz as (ix & <- & Hix). apply in_indices in Hix.
    destruct ix as [|k [|? ?]]; cbn in Hix; try tauto. rewrite Ha by tauto. now apply ceqb_iff. }
  rewrite F. reflexivity.
Qed.
Lemma spectral_atleast (t : tensor (cplx R)) K v : 1 <= K -> shp t = spectral_shape K -> (forall k, k < K -> at_ t (spectral_ix K k) = v) ->
  shp (atleast_1d t) = [K] /\ forall k, k < K -> at_ (atleast_1d t) [k] = v.
Proof.
  unfold spectral_shape, spectral_ix, atleast_1d. intros HK Hs Ha. destruct (Nat.eqb_spec K 1) as [->|]; rewrite Hs; cbn [shp at_].
  - split; [reflexivity|]. intros k Hk. exact (Ha k Hk).
  - split; [exact Hs|exact Ha].
Qed.

Section P.
  Variables (sj sy jr : @bessel_t R) (d : device) (p : @particle R) (h : @heap R) (wls : list R) (is : list nat) (L : nat) (rs : list R)
    (lf : nat -> nat -> C) (v : C).
  Hypothesis S : setting sj sy jr d p h wls is L rs lf v.
  Let K := List.length wls.
  Lemma K_pos : 1 <= K. Proof. destruct (se_wls _ _ _ _ _ _ _ _ _ _ _ _ S) as [H _]. unfold K. destruct wls; [congruence|cbn; lia]. Qed.
  Lemma h_wf : wfh h. Proof. eapply reachable_wfh, (se_reach _ _ _ _ _ _ _ _ _ _ _ _ S). Qed.

  Lemma tg_env_ok n : exists h1 t, wfh h1 /\ heq h h1 /\ shp t = [K] /\ (forall k, k < K -> at_ t [k] = v) /\ tg_env p wls n h = (h1, env_override t n).
  Proof.
    pose proof K_pos as HK. unfold tg_env, bnd. set (a := {| wa_t := wl_t wls; wa_src := None |}).
    destruct (se_env _ _ _ _ _ _ _ _ _ _ _ _ S 0 HK) as (m & Em & _).
    pose proof (eval_mat_ok a _ h m h_wf Em) as G. destruct (eval_mat a (p_env p) h) as [h1 r]. destruct G as (G1 & G2 & G3).
    unfold eval_out in G3. change (wa_t a) with (@wl_t R ROps wls) in G3. rewrite <- wl_of_k0 in G3.
    destruct (ev_spectrum (mstat m) (k0_of wls) K (fun _ => v) (k0_len_wls wls) HK) as (t & Et & St & At).
    { intros k Hk. rewrite k0_entry by exact Hk. rewrite wl_back. destruct (se_env _ _ _ _ _ _ _ _ _ _ _ _ S k Hk) as (m' & Em' & Hm').
      rewrite Em in Em'. injection Em' as <-. apply material_pure; [eapply h_wf; exact Em|exact Hm']. }
    rewrite Et in G3. destruct G3 as (u & -> & Eu & _). unfold lift. rewrite Eu.
    destruct (spectral_atleast t K v HK St At) as [B1 B2]. exists h1, (atleast_1d t). repeat (split; [assumption|]). reflexivity.
  Qed.

  Definition fits_backend (kw : kwargs) : Prop :=
    lower (k_backend kw) = "pena"%string \/ (lower (k_backend kw) = "torch"%string /\ lower (k_which_jn kw) = "recurrence"%string /\ L <= 2).
  Lemma coeffs_ok h1 kw n : wfh h1 -> heq h h1 -> k_internal kw = false -> k_n_max kw = Some n -> (1 <= n)%Z -> fits_backend kw ->
    exists h2 o dict fa fb, run_call sj sy jr p (k0_of wls) None kw h1 = (h2, Ok o) /\ get_mie_coefficients sj sy jr p (k0_of wls) None kw h1 = (h2, Ok dict) /\
      dict_tensor "a_n" dict = Ok (squeeze (o_a o)) /\ dict_tensor "b_n" dict = Ok (squeeze (o_b o)) /\
      is3 (o_a o) (Z.to_nat n) 1 K fa /\ is3 (o_b o) (Z.to_nat n) 1 K fb /\
      (lower (k_backend kw) = "pena"%string -> forall i q k, k < K -> fa i q k = fst (scalar_pena (Z.to_nat n) (sphere_at wls rs lf v k) (Datatypes.S i)) /\
                                                          fb i q k = snd (scalar_pena (Z.to_nat n) (sphere_at wls rs lf v k) (Datatypes.S i))).
  Proof.
    intros Hw Hq Hint Hn Hn1 Hb. destruct S as [s1 s2 s3 s4 [s5 s5'] (s6 & s7 & s8) s9 s10 s11]. pose proof K_pos as HK.
    assert (Hst : forall i m, nth_error h i = Some m -> stat_at h1 i = mstat m). { intros i m E. rewrite (stat_heq _ _ _ _ Hq E). unfold stat_at. now rewrite E. }
    destruct (particle_valid d p h1 (k0_of wls) kw is L K rs lf (fun _ => v) (coherent_heq _ _ _ _ Hw Hq s2) s3 s4 s5 s5' s6 s7 s8 (k0_len_wls wls) HK) as (e & ve & ef & vx & Er & Hv & Hi & Hel).
    { intros l k Hl Hk. rewrite k0_entry by exact Hk. rewrite wl_back. destruct (s10 l k Hl Hk) as (m & E & Hm). rewrite (Hst _ _ E). apply material_pure; [eapply h_wf; exact E|exact Hm]. }
    { intros k Hk. rewrite k0_entry by exact Hk. rewrite wl_back. destruct (s11 k Hk) as (m & E & Hm). rewrite (Hst _ _ E). apply material_pure; [eapply h_wf; exact E|exact Hm]. }
    cbv zeta in *. set (c := callP (values_of p) (k0_of wls) (e, ve) kw) in *.
    assert (Hlen : List.length rs = L). { rewrite <- s7, entries_length. unfold numel. rewrite s6. cbn. lia. }
    assert (Hsp : forall q k, k < K -> element (a_k0 c) (tt (p_r p)) e (a_env c) ef vx L q k = sphere_at wls rs lf v k).
    { intros q k Hk. rewrite Hel by exact Hk. rewrite k0_entry by exact Hk. unfold sphere_at. now rewrite Hlen. }
    assert (G : exists o fa fb, mie_coefficients sj sy jr c = Ok o /\ is3 (o_a o) (Z.to_nat n) 1 K fa /\ is3 (o_b o) (Z.to_nat n) 1 K fb /\
      (lower (k_backend kw) = "pena"%string -> forall i q k, k < K -> fa i q k = fst (scalar_pena (Z.to_nat n) (sphere_at wls rs lf v k) (Datatypes.S i)) /\
                                                          fb i q k = snd (scalar_pena (Z.to_nat n) (sphere_at wls rs lf v k) (Datatypes.S i)))).
    { destruct Hb as [Hb|(Hb & Hj & HL)].
      - destruct (pena_tail sj sy jr c (tt (p_r p)) e K 1 L ef vx n Hb Hint Hi Hv s5' Hn1 (or_introl Hn)) as (o & Eo & _ & _ & Ia & Ib).
        eexists o, _, _. split; [exact Eo|]. split; [exact Ia|]. split; [exact Ib|]. intros _ i q k Hk. cbn beta. rewrite Hsp by exact Hk. split; reflexivity.
      - destruct (torch_tail sj sy jr c (tt (p_r p)) e K 1 L ef vx n Hb Hj Hi Hv (conj s5' HL) Nat.lt_0_1 HK Hn1 Hn) as (o & zy & z1 & z2 & z3 & Eo & _ & _ & _ & _ & _ & Ia & Ib).
        eexists o, _, _. split; [exact Eo|]. split; [exact Ia|]. split; [exact Ib|]. intros Hp. rewrite Hp in Hb. discriminate. }
    destruct G as (o & fa & fb & Eo & Ia & Ib & Hf). destruct (dict_ok _ _ _ _ _ _ _ _ _ _ _ _ Hi Hv Eo) as (f & Ef).
    pose proof (run_call_ok sj sy jr d p h1 (k0_of wls) None kw Hw (coherent_heq _ _ _ _ Hw Hq s2)) as G. unfold get_mie_coefficients. unfold bnd at 1.
    destruct (run_call sj sy jr p (k0_of wls) None kw h1) as [h2 r]. destruct G as (_ & _ & ->). rewrite Er, Eo. unfold bnd, lift. rewrite Ef. unfold ret.
    destruct (dict_a _ _ Ef) as [Da Db]. exists h2, o, (squeeze_dimensions f), fa, fb. repeat (split; [first [reflexivity|assumption]|]). exact Hf.
  Qed.
  Lemma run_same h1 kw o h2 : wfh h1 -> heq h h1 -> run_call sj sy jr p (k0_of wls) None kw h1 = (h2, Ok o) ->
    exists h3, run_call sj sy jr p (k0_of wls) None kw h = (h3, Ok o).
  Proof.
    intros Hw Hq E. pose proof (se_coh _ _ _ _ _ _ _ _ _ _ _ _ S) as Hc.
    pose proof (run_call_ok sj sy jr d p h1 (k0_of wls) None kw Hw (coherent_heq _ _ _ _ Hw Hq Hc)) as G1. rewrite E in G1. destruct G1 as (_ & _ & G1).
    pose proof (run_call_ok sj sy jr d p h (k0_of wls) None kw h_wf Hc) as G2. destruct (run_call sj sy jr p (k0_of wls) None kw h) as [h3 r]. destruct G2 as (_ & _ & ->).
    exists h3. f_equal. rewrite G1. unfold runP, values_of. cbn [fst snd].
    rewrite (permP_same _ (p_mats p) (p_env p) h h1); [reflexivity|]. intros i Hi. destruct (co_mats _ _ _ Hc i Hi) as (m & Em & _). exact (stat_heq _ _ _ _ Hq Em).
  Qed.
  Lemma numel_r : numel (tt (p_r p)) = L.
  Proof. destruct (se_radii _ _ _ _ _ _ _ _ _ _ _ _ S) as (E & _). unfold numel. rewrite E. cbn. lia. Qed.
  Lemma auto_fits b n : backend_fits b L -> fits_backend (tg_kwargs p b n).
  Proof.
    unfold fits_backend, tg_kwargs, resolve_backend, backend_fits. cbn [k_backend k_which_jn]. rewrite numel_r. destruct b as [s|].
    - intros [H|[H1 H2]]; [now left|right]. split; [exact H1|]. split; [reflexivity|exact H2].
    - intros _. destruct (Nat.ltb_spec 2 L); [now left|right]. split; [reflexivity|]. split; [reflexivity|lia].
  Qed.
  Lemma radius_ok : shp (enclosing_radius p) = [] /\ at_ (enclosing_radius p) [] = nth (L - 1) rs 0%R.
  Proof.
    destruct (se_radii _ _ _ _ _ _ _ _ _ _ _ _ S) as (E & E2 & _). destruct (se_len _ _ _ _ _ _ _ _ _ _ _ _ S) as (_ & HL).
    unfold enclosing_radius, select, dim_size. rewrite E. cbn [shp remove_at at_ insert_at nth]. split; [reflexivity|].
    rewrite <- E2. symmetry. apply entries_vec with L; [exact E|lia].
  Qed.

  (** the whole helper, for an accepted environment argument *)
  Lemma mie_ab_ok ne n b eps : (1 <= n)%Z -> backend_fits b L -> (forall t, shp t = [K] -> (forall k, k < K -> at_ t [k] = v) -> env_override t ne = Ok (eps t)) ->
    exists h' h3 o fa fb t, run_call sj sy jr p (k0_of wls) None (tg_kwargs p b n) h = (h3, Ok o) /\
      is3 (o_a o) (Z.to_nat n) 1 K fa /\ is3 (o_b o) (Z.to_nat n) 1 K fb /\
      (lower (resolve_backend p b) = "pena"%string -> forall i q k, k < K -> fa i q k = fst (scalar_pena (Z.to_nat n) (sphere_at wls rs lf v k) (Datatypes.S i)) /\
                                                          fb i q k = snd (scalar_pena (Z.to_nat n) (sphere_at wls rs lf v k) (Datatypes.S i))) /\
      shp t = [K] /\ (forall k, k < K -> at_ t [k] = v) /\
      mie_ab sj sy jr p wls ne n b h = (h', let* a := tg_layout (squeeze (o_a o)) in let* b := tg_layout (squeeze (o_b o)) in
        Ok {| m_a := a; m_b := b; m_eps := eps t; m_n_env := tmap csqrt (eps t); m_r := enclosing_radius p; m_wls := wls |}).
  Proof.
    intros Hn Hb He. destruct (tg_env_ok ne) as (h1 & t & Hw & Hq & St & At & Et). rewrite (He t St At) in Et.
    destruct (coeffs_ok h1 (tg_kwargs p b n) n Hw Hq eq_refl eq_refl Hn (auto_fits b n Hb)) as (h2 & o & dict & fa & fb & Er & Eg & Ea & Eb & Ia & Ib & Hf).
    destruct (run_same _ _ _ _ Hw Hq Er) as (h3 & E3). exists h2, h3, o, fa, fb, t. repeat (split; [first [assumption|exact Hf]|]).
    unfold mie_ab. unfold bnd at 1. rewrite Et. unfold bnd at 1. rewrite Eg. unfold bnd, lift, ret. rewrite Ea, Eb.
    destruct (tg_layout (squeeze (o_a o))); cbn [bind]; [|reflexivity]. destruct (tg_layout (squeeze (o_b o))); reflexivity.
  Qed.
  Lemma none_ok : forall t : tensor (cplx R), shp t = [K] -> (forall k, k < K -> at_ t [k] = v) -> env_override t NNone = Ok t.
  Proof. intros t H1 H2. now rewrite (env_cases t K v NNone H1 K_pos H2). Qed.
  Lemma tensor_ok (u : tensor (cplx R)) : numel u = 1 -> 1 <= ndim u -> (first_entry u * first_entry u)%C = v ->
    forall t : tensor (cplx R), shp t = [K] -> (forall k, k < K -> at_ t [k] = v) -> env_override t (NTen u) = Ok (tmap csqr u).
  Proof.
    intros Hu Hd Hv t H1 H2. rewrite (env_cases t K v _ H1 K_pos H2). rewrite Hu. cbn [Nat.eqb negb].
    assert (E : @ceqb R ROps v (csqr (first_entry u)) = true) by (apply ceqb_iff; now rewrite <- Hv). rewrite E. cbn [negb].
    destruct (Nat.eqb_spec (ndim u) 0); [lia|reflexivity].
  Qed.

  (** C61: two or more orders *)
  Lemma mie_ab_layout ne n b eps : (2 <= n)%Z -> backend_fits b L ->
    (forall t, shp t = [K] -> (forall k, k < K -> at_ t [k] = v) -> env_override t ne = Ok (eps t)) ->
    exists h' h3 m o t, mie_ab sj sy jr p wls ne n b h = (h', Ok m) /\ run_call sj sy jr p (k0_of wls) None (tg_kwargs p b n) h = (h3, Ok o) /\
      is2 (m_a m) K (Z.to_nat n) (fun k i => at_ (o_a o) [i; 0; k]) /\ is2 (m_b m) K (Z.to_nat n) (fun k i => at_ (o_b o) [i; 0; k]) /\
      (lower (resolve_backend p b) = "pena"%string ->
        is2 (m_a m) K (Z.to_nat n) (fun k i => fst (scalar_pena (Z.to_nat n) (sphere_at wls rs lf v k) (Datatypes.S i))) /\
        is2 (m_b m) K (Z.to_nat n) (fun k i => snd (scalar_pena (Z.to_nat n) (sphere_at wls rs lf v k) (Datatypes.S i)))) /\
      shp t = [K] /\ (forall k, k < K -> at_ t [k] = v) /\ m_eps m = eps t /\ m_n_env m = tmap csqrt (eps t) /\
      shp (m_r m) = [] /\ at_ (m_r m) [] = nth (L - 1) rs 0%R /\ m_wls m = wls.
  Proof.
    intros Hn Hb He. destruct (mie_ab_ok ne n b eps ltac:(lia) Hb He) as (h' & h3 & o & fa & fb & t & E3 & Ia & Ib & Hf & St & At & Em).
    assert (Hn2 : 2 <= Z.to_nat n) by lia.
    destruct (layout_many _ _ _ _ Ia Hn2 K_pos) as (a & Ea & La). destruct (layout_many _ _ _ _ Ib Hn2 K_pos) as (b' & Eb & Lb). rewrite Ea, Eb in Em. cbn [bind] in Em.
    exists h', h3. eexists. exists o, t. split; [exact Em|]. split; [exact E3|]. cbn [m_a m_b m_eps m_n_env m_r m_wls].
    destruct La as [La1 La2], Lb as [Lb1 Lb2], Ia as [_ Ia], Ib as [_ Ib].
    split; [split; [exact La1|intros k i Hk Hi; rewrite La2, Ia by lia; reflexivity]|]. split; [split; [exact Lb1|intros k i Hk Hi; rewrite Lb2, Ib by lia; reflexivity]|].
    split; [|split; [exact St|split; [exact At|split; [reflexivity|split; [reflexivity|split; [apply radius_ok|split; [apply radius_ok|reflexivity]]]]]]].
    intros Hp. specialize (Hf Hp). split; (split; [assumption|]); intros k i Hk Hi; [rewrite La2 by lia|rewrite Lb2 by lia]; now apply Hf.
  Qed.
  (** a single order *)
  Lemma mie_ab_single b : backend_fits b L ->
    (2 <= K -> exists h' h3 m o, mie_ab sj sy jr p wls NNone 1 b h = (h', Ok m) /\ run_call sj sy jr p (k0_of wls) None (tg_kwargs p b 1) h = (h3, Ok o) /\
       is2 (m_a m) 1 K (fun _ k => at_ (o_a o) [0; 0; k]) /\ is2 (m_b m) 1 K (fun _ k => at_ (o_b o) [0; 0; k])) /\
    (K = 1 -> snd (mie_ab sj sy jr p wls NNone 1 b h) = Err IndexError).
  Proof.
    intros Hb. destruct (mie_ab_ok NNone 1%Z b (fun t => t) ltac:(lia) Hb none_ok) as (h' & h3 & o & fa & fb & t & E3 & Ia & Ib & Hf & St & At & Em).
    change (Z.to_nat 1) with 1 in Ia, Ib. split.
    - intros HK. destruct (layout_one _ _ _ Ia HK) as (a & Ea & La). destruct (layout_one _ _ _ Ib HK) as (b' & Eb & Lb). rewrite Ea, Eb in Em. cbn [bind] in Em.
      exists h', h3. eexists. exists o. split; [exact Em|]. split; [exact E3|]. cbn [m_a m_b]. destruct La as [La1 La2], Lb as [Lb1 Lb2], Ia as [_ Ia], Ib as [_ Ib].
      split; (split; [assumption|]); intros k i Hk Hi; [rewrite La2, Ia by lia|rewrite Lb2, Ib by lia]; reflexivity.
    - intros HK. rewrite HK in Ia. rewrite Em. cbn [snd]. now rewrite (layout_none _ _ Ia).
  Qed.
  (** C59 *)
  Lemma override_number z n b : ((z * z)%C = v -> snd (mie_ab sj sy jr p wls (NNum z) n b h) = Err TypeError) /\
    ((z * z)%C <> v -> snd (mie_ab sj sy jr p wls (NNum z) n b h) = Err AssertionError).
  Proof.
    destruct (tg_env_ok (NNum z)) as (h1 & t & Hw & Hq & St & At & Et). rewrite (env_cases t K v _ St K_pos At) in Et.
    assert (G : mie_ab sj sy jr p wls (NNum z) n b h = (h1, if ceqb v (csqr z) then Err TypeError else Err AssertionError)).
    { unfold mie_ab. unfold bnd at 1. rewrite Et. now destruct (ceqb v (csqr z)). }
    rewrite G. cbn [snd]. destruct (ceqb v (csqr z)) eqn:E.
    - apply ceqb_iff in E. split; [reflexivity|]. intros H. elim H. now rewrite E.
    - split; [|reflexivity]. intros H. assert (F : @ceqb R ROps v (csqr z) = true) by (apply ceqb_iff; now rewrite <- H). congruence.
  Qed.
  Lemma override_scalar (u : tensor (cplx R)) n b : shp u = [] -> (at_ u [] * at_ u [])%C = v -> snd (mie_ab sj sy jr p wls (NTen u) n b h) = Err IndexError.
  Proof.
    intros Hu Hv. destruct (tg_env_ok (NTen u)) as (h1 & t & Hw & Hq & St & At & Et). rewrite (env_cases t K v _ St K_pos At) in Et.
    unfold numel, first_entry, ndim in Et. rewrite Hu in Et. cbn [fold_right List.length repeat Nat.eqb negb] in Et.
    assert (F : @ceqb R ROps v (csqr (at_ u [])) = true) by (apply ceqb_iff; now rewrite <- Hv). rewrite F in Et. cbn [negb] in Et. unfold mie_ab. unfold bnd at 1. rewrite Et. reflexivity.
  Qed.
  (** an explicit torch or scipy backend is used even when it cannot treat the particle *)
  Lemma explicit_rejected b n : 2 < L -> lower b = "torch"%string \/ lower b = "scipy"%string -> (0 <= n)%Z ->
    snd (mie_ab sj sy jr p wls NNone n (Some b) h) = Err ValueError.
  Proof.
    intros HL Hb Hn. destruct (tg_env_ok NNone) as (h1 & t & Hw & Hq & St & At & Et). rewrite (none_ok t St At) in Et.
    assert (G : snd (get_mie_coefficients sj sy jr p (k0_of wls) None (tg_kwargs p (Some b) n) h1) = Err ValueError).
    { destruct S as [s1 s2 s3 s4 [s5 s5'] (s6 & s7 & s8) s9 s10 s11]. pose proof K_pos as HK.
      assert (Hst : forall i m, nth_error h i = Some m -> stat_at h1 i = mstat m). { intros i m E. rewrite (stat_heq _ _ _ _ Hq E). unfold stat_at. now rewrite E. }
      destruct (particle_valid d p h1 (k0_of wls) (tg_kwargs p (Some b) n) is L K rs lf (fun _ => v) (coherent_heq _ _ _ _ Hw Hq s2) s3 s4 s5 s5' s6 s7 s8 (k0_len_wls wls) HK) as (e & ve & ef & vx & Er & Hv & Hi & Hel).
      { intros l k Hl Hk. rewrite k0_entry by exact Hk. rewrite wl_back. destruct (s10 l k Hl Hk) as (m & E & Hm). rewrite (Hst _ _ E). apply material_pure; [eapply h_wf; exact E|exact Hm]. }
      { intros k Hk. rewrite k0_entry by exact Hk. rewrite wl_back. destruct (s11 k Hk) as (m & E & Hm). rewrite (Hst _ _ E). apply material_pure; [eapply h_wf; exact E|exact Hm]. }
      cbv zeta in *. pose proof (run_call_ok sj sy jr d p h1 (k0_of wls) None (tg_kwargs p (Some b) n) Hw (coherent_heq _ _ _ _ Hw Hq s2)) as G. unfold get_mie_coefficients, bnd.
      destruct (run_call sj sy jr p (k0_of wls) None (tg_kwargs p (Some b) n) h1) as [h2 r]. destruct G as (_ & _ & ->). rewrite Er.
      rewrite (many_layers_rejected sj sy jr (callP (values_of p) (k0_of wls) (e, ve) (tg_kwargs p (Some b) n)) _ _ _ _ _ _ _ n Hb Hi Hv HL Hn eq_refl). reflexivity. }
    unfold mie_ab. unfold bnd at 1. rewrite Et. unfold bnd at 1. destruct (get_mie_coefficients sj sy jr p (k0_of wls) None (tg_kwargs p (Some b) n) h1) as [h2 [r|er]]; [discriminate|]. cbn [snd] in G. injection G as ->. reflexivity.
  Qed.
End P.
