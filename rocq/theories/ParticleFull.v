(** From materials and radii to the coefficients of a particle. *)
From Coq Require Import Reals ZArith List Bool String Arith Lia Lra.
From Coquelicot Require Import Complex.
From Verif Require Import Ops ROps CLemmas Tensor TensorProofs ModelMaterial MaterialSpec MaterialProofs ModelMie ModelBatch ModelObs BroadcastSpec BatchReal
  ModelParticle ParticleSpec ParticleProofs ParticleRun ParticleHist.
Import ListNotations.
Open Scope nat_scope.
Open Scope list_scope.

Lemma scalar_inj {A} (x y : A) : scalar_t x = scalar_t y -> x = y.
Proof. intros H. exact (f_equal (fun t => at_ t []) H). Qed.
Lemma ok_inj {A} (x y : A) : Ok x = Ok y -> x = y.
Proof. now intros [= ->]. Qed.
Lemma material_pure m wl e : wf m -> material_eps m wl e -> pure_of (mstat m) wl = Ok e.
Proof.
  intros Hw (v & Hv & He). pose proof (get_epsilon_ok m {| wa_t := scalar_t wl; wa_src := None |} Hw) as G. destruct (get_epsilon m {| wa_t := scalar_t wl; wa_src := None |}) as [m' r]. destruct G as (_ & _ & _ & G). cbn [snd] in Hv. subst r.
  unfold eval_out in G. destruct (ev (mstat m) (wa_t {| wa_t := scalar_t wl; wa_src := None |})) as [e1|] eqn:E1; [|discriminate]. destruct G as (u & E & E2 & _). apply ok_inj in E. subst u.
  assert (E3 : e1 = scalar_t e) by (rewrite <- E2; cbn; now rewrite <- He). clear E2. subst e1.
  unfold ev in E1. cbn [wa_t squeeze shp scalar_t squeeze_shape filter at_] in E1. destruct (mstat m) as [e0|s].
  - apply ok_inj, (f_equal (fun t => at_ t [])) in E1. cbn in E1. cbn. now rewrite E1.
  - change (unsqueeze_ix [] []) with (@nil nat) in E1. destruct (pure_of (inr s) wl) as [e1|]; cbn [bind] in E1; [|discriminate].
    apply ok_inj, (f_equal (fun t => at_ t [])) in E1. cbn in E1. now rewrite E1.
Qed.

Definition spectral_shape (K : nat) : list nat := if K =? 1 then [] else [K].
Definition spectral_ix (K k : nat) : list nat := if K =? 1 then [] else [k].
Lemma map_res_ok {A B} (f : A -> result B) (l : list A) (g : nat -> B) d : (forall k, k < List.length l -> f (nth k l d) = Ok (g k)) ->
  map_res f l = Ok (map g (seq 0 (List.length l))).
Proof.
  revert g. induction l as [|a l IH]; intros g H; [reflexivity|]. cbn [map_res List.length seq map].
  assert (H0 : f a = Ok (g 0)) by (apply (H 0); cbn; lia). rewrite H0. cbn [bind]. rewrite (IH (fun k => g (S k))); [cbn [bind]; now rewrite <- seq_shift, map_map|].
  intros k Hk. apply (H (S k)). cbn. lia.
Qed.
Lemma k0_len_shape s K : k0_len s = Some K -> squeeze_shape s = spectral_shape K.
Proof.
  unfold k0_len, squeeze_shape, spectral_shape. intros H.
  assert (Hn : forall x, In x (filter (fun d => negb (d =? 1)) s) -> x <> 1). { intros x Hx. apply filter_In in Hx. destruct Hx as [_ Hx]. destruct (Nat.eqb_spec x 1); [discriminate|assumption]. }
  destruct (filter _ s) as [|a [|b l]]; try discriminate; injection H as <-; [reflexivity|].
  destruct (Nat.eqb_spec a 1) as [->|]; [|reflexivity]. elim (Hn 1); [now left|reflexivity].
Qed.
Lemma entries_tmap {A B} (f : A -> B) t : entries (tmap f t) = map f (entries t).
Proof. unfold entries. cbn [tmap shp at_]. now rewrite map_map. Qed.
Lemma ev_spectrum s k0 K f : k0_len (shp k0) = Some K -> 1 <= K -> (forall k, k < K -> pure_of s (2 * PI / nth k (entries k0) 0)%R = Ok (f k)) ->
  exists t, ev s (wl_of k0) = Ok t /\ shp t = spectral_shape K /\ forall k, k < K -> at_ t (spectral_ix K k) = f k.
Proof.
  intros Hk HK Hf. pose proof (k0_len_shape _ _ Hk) as Hs. unfold ev.
  assert (Es : shp (squeeze (wl_of k0)) = spectral_shape K) by exact Hs. rewrite Es.
  pose proof (entries_squeeze (wl_of k0)) as Ee. unfold wl_of in Ee at 2. rewrite entries_tmap in Ee.
  unfold spectral_shape, spectral_ix in *. destruct (Nat.eqb_spec K 1) as [->|HK1].
  - assert (E1 : entries (squeeze (wl_of k0)) = [at_ (squeeze (wl_of k0)) []]) by (unfold entries; now rewrite Es).
    rewrite E1 in Ee. destruct (entries k0) as [|x [|? ?]]; try discriminate. apply (f_equal (fun l => nth 0 l 0%R)) in Ee; change (at_ (squeeze (wl_of k0)) [] = (2*PI/x)%R) in Ee. specialize (Hf 0 ltac:(lia)). cbn [nth] in Hf.
    destruct s as [e|s].
    + eexists. split; [reflexivity|]. split; [reflexivity|]. intros k Hk0. assert (k = 0) as -> by lia. cbn in Hf. injection Hf as <-. reflexivity.
    + rewrite Ee, Hf. cbn [bind]. eexists. split; [reflexivity|]. split; [reflexivity|]. intros k Hk0. assert (k = 0) as -> by lia. reflexivity.
  - destruct s as [e|s].
    + eexists. split; [reflexivity|]. split; [reflexivity|]. intros k Hk0. specialize (Hf k Hk0). cbn in Hf. injection Hf as <-. reflexivity.
    + rewrite Ee. set (l := map _ (entries k0)).
      assert (Hl : List.length l = K). { unfold l. rewrite <- Ee, entries_length. unfold numel. rewrite Es. cbn. lia. }
      rewrite (map_res_ok _ l f (2 * PI / 0)%R).
      2:{ intros k Hk0. unfold l. rewrite (map_nth (fun k1 => 2 * PI / k1)%R (entries k0) 0%R k). apply Hf. lia. }
      rewrite Hl. cbn [bind]. destruct (map f (seq 0 K)) as [|e0 es] eqn:Em; [apply (f_equal (@List.length C)) in Em; rewrite map_length, seq_length in Em; cbn in Em; lia|].
      rewrite <- Em. eexists. split; [reflexivity|]. split; [cbn; now rewrite map_length, seq_length|]. intros k Hk0. cbn [at_ nth]. now apply nth_map_seq.
Qed.
Lemma stack_spectra (ts : list (tensor C)) K L : List.length ts = L -> 1 <= L -> (forall t, In t ts -> shp t = spectral_shape K) ->
  exists s, stack 0 ts = Ok s /\ shp s = L :: spectral_shape K /\ forall l ix d, l < L -> at_ s (l :: ix) = at_ (nth l ts d) ix.
Proof.
  intros HL H1 Hs. destruct ts as [|t0 ts]; [cbn in HL; lia|]. unfold stack.
  assert (F : forallb (fun t => shape_eqb (shp t) (shp t0)) (t0 :: ts) = true).
  { apply forallb_forall. intros t Ht. apply shape_eqb_eq. rewrite (Hs t Ht), (Hs t0); [reflexivity|now left]. }
  rewrite F. eexists. split; [reflexivity|]. split; [cbn [shp insert_at]; now rewrite HL, (Hs t0 (or_introl eq_refl))|].
  intros l ix d Hl. change (at_ (nth l (t0 :: ts) t0) ix = at_ (nth l (t0 :: ts) d) ix). f_equal. apply nth_indep. lia.
Qed.
(* layer permittivities given by materials *)
Lemma permP_ok h is env k0 K L lf vf :
  k0_len (shp k0) = Some K -> 1 <= K -> List.length is = L -> 1 <= L ->
  (forall l k, l < L -> k < K -> pure_of (stat_at h (nth l is 0)) (2 * PI / nth k (entries k0) 0)%R = Ok (lf l k)) ->
  (forall k, k < K -> pure_of (stat_at h env) (2 * PI / nth k (entries k0) 0)%R = Ok (vf k)) ->
  exists e v, permP None (Some is) env h k0 = Ok (e, v) /\ shp e = L :: spectral_shape K /\ shp v = spectral_shape K /\
    (forall l k, l < L -> k < K -> at_ e (l :: spectral_ix K k) = lf l k) /\ forall k, k < K -> at_ v (spectral_ix K k) = vf k.
Proof.
  intros Hk HK HL H1 Hl Hv. destruct (ev_spectrum _ _ _ _ Hk HK Hv) as (v & Ev & Sv & Av). unfold permP. rewrite Ev. cbn [bind].
  assert (G : exists es, map_res (fun i => ev (stat_at h i) (wl_of k0)) is = Ok es /\ List.length es = L /\ forall l d, l < L -> shp (nth l es d) = spectral_shape K /\ forall k, k < K -> at_ (nth l es d) (spectral_ix K k) = lf l k).
  { clear - Hk HK HL Hl. revert L lf HL Hl. induction is as [|i is IH]; intros L lf HL Hl.
    - exists []. split; [reflexivity|]. split; [exact HL|]. intros l d Hl0. cbn in HL. lia.
    - destruct L as [|L]; [discriminate|]. injection HL as HL. destruct (ev_spectrum _ _ _ _ Hk HK (fun k Hk0 => Hl 0 k ltac:(lia) Hk0)) as (t & Et & St & At). cbn [nth] in Et.
      destruct (IH L (fun l k => lf (S l) k) HL) as (es & Ees & Les & Hes). { intros l k Hl0 Hk0. apply (Hl (S l) k); [lia|exact Hk0]. }
      exists (t :: es). cbn [map_res]. rewrite Et. cbn [bind]. rewrite Ees. cbn [bind]. split; [reflexivity|]. split; [cbn; lia|].
      intros [|l] d Hl0; cbn [nth]; [split; [exact St|exact At]|]. apply Hes. lia. }
  destruct G as (es & -> & Les & Hes). cbn [bind].
  destruct (stack_spectra es K L Les H1) as (s & -> & Ss & As). { intros t Ht. apply (In_nth _ _ (scalar_t (RtoC 0))) in Ht. destruct Ht as (n & Hn & <-). apply Hes. lia. }
  cbn [bind]. exists s, v. split; [reflexivity|]. split; [exact Ss|]. split; [exact Sv|]. split; [|exact Av].
  intros l k Hl0 Hk0. rewrite (As l _ (scalar_t (RtoC 0)) Hl0). now apply Hes.
Qed.
Lemma spectral_eps_layout L K (s : list nat) : s = L :: spectral_shape K -> eps_layout 1 L K s = Some (fun _ l k => l :: spectral_ix K k) \/
  (exists ef, eps_layout 1 L K s = Some ef /\ forall p l k, ef p l k = l :: spectral_ix K k).
Proof.
  intros ->. unfold spectral_shape, spectral_ix. destruct (Nat.eqb_spec K 1) as [->|HK]; right; cbn [eps_layout].
  - rewrite Nat.eqb_refl. eexists. split; [reflexivity|]. reflexivity.
  - destruct (Nat.eqb_spec L 1) as [->|HL]; cbn [andb].
    + rewrite (proj2 (Nat.eqb_neq K 1) HK). cbn [andb]. rewrite !Nat.eqb_refl. cbn [andb]. eexists. split; [reflexivity|]. reflexivity.
    + rewrite !Nat.eqb_refl. cbn [andb]. eexists. split; [reflexivity|]. reflexivity.
Qed.
Lemma spectral_env_layout K (s : list nat) : 1 <= K -> s = spectral_shape K -> exists vf, env_layout K s = Some vf /\ forall k, vf k = spectral_ix K k.
Proof.
  intros H1 ->. unfold spectral_shape, spectral_ix. destruct (Nat.eqb_spec K 1) as [->|HK]; cbn [env_layout].
  - eexists. split; reflexivity.
  - rewrite Nat.eqb_refl. eexists. split; reflexivity.
Qed.
Lemma particle_mie sj sy jr d (p : @particle R) (h : @heap R) (k0 : tensor R) src (kw : kwargs) is L K (rs : list R) (lf : nat -> nat -> C) (vf : nat -> C) n :
  wfh h -> coherent d p h -> p_eps p = None -> p_mats p = Some is -> List.length is = L -> 1 <= L ->
  shp (tt (p_r p)) = [L] -> entries (tt (p_r p)) = rs -> (forall l, S l < L -> (nth l rs 0 < nth (S l) rs 0)%R) ->
  k0_len (shp k0) = Some K -> 1 <= K ->
  (forall l k, l < L -> k < K -> exists m, nth_error h (nth l is 0) = Some m /\ material_eps m (2 * PI / nth k (entries k0) 0)%R (lf l k)) ->
  (forall k, k < K -> exists m, nth_error h (p_env p) = Some m /\ material_eps m (2 * PI / nth k (entries k0) 0)%R (vf k)) ->
  lower (k_backend kw) = "pena"%string -> k_internal kw = false -> k_n_max kw = Some n -> (1 <= n)%Z ->
  exists h' o dict ta tb, run_call sj sy jr p k0 src kw h = (h', Ok o) /\ get_mie_coefficients sj sy jr p k0 src kw h = (h', Ok dict) /\
    In ("a_n"%string, PC ta) dict /\ In ("b_n"%string, PC tb) dict /\ squeezed (o_a o) ta /\ squeezed (o_b o) tb /\
    let el k := (nth k (entries k0) 0%R, vf k, map (fun l => (nth l rs 0%R, lf l k)) (seq 0 L)) in
    is3 (o_a o) (Z.to_nat n) 1 K (fun i _ k => fst (scalar_pena (Z.to_nat n) (el k) (S i))) /\
    is3 (o_b o) (Z.to_nat n) 1 K (fun i _ k => snd (scalar_pena (Z.to_nat n) (el k) (S i))).
Proof.
  intros Hw Hc Hpe Hpm Hli HL Hrs Hre Hinc Hk HK Hl Hv Hb Hint Hn Hn1.
  assert (P1 : forall l k, l < L -> k < K -> pure_of (stat_at h (nth l is 0)) (2 * PI / nth k (entries k0) 0)%R = Ok (lf l k)).
  { intros l k Hl0 Hk0. destruct (Hl l k Hl0 Hk0) as (m & E & Hm). unfold stat_at. rewrite E. apply material_pure; [eauto|exact Hm]. }
  assert (P2 : forall k, k < K -> pure_of (stat_at h (p_env p)) (2 * PI / nth k (entries k0) 0)%R = Ok (vf k)).
  { intros k Hk0. destruct (Hv k Hk0) as (m & E & Hm). unfold stat_at. rewrite E. apply material_pure; [eauto|exact Hm]. }
  destruct (permP_ok h is (p_env p) k0 K L lf vf Hk HK Hli HL P1 P2) as (e & v & Hp & Se & Sv & Ae & Av).
  pose proof (run_call_ok sj sy jr d p h k0 src kw Hw Hc) as G. unfold get_mie_coefficients. unfold bnd at 1. destruct (run_call sj sy jr p k0 src kw h) as [h' r]. destruct G as (_ & _ & ->).
  set (c := callP (values_of p) k0 (e, v) kw).
  assert (Er : runP sj sy jr (values_of p) h k0 kw = mie_coefficients sj sy jr c).
  { transitivity (let* ee := permP None (Some is) (p_env p) h k0 in mie_coefficients sj sy jr (callP (values_of p) k0 ee kw)).
    - unfold runP, values_of. cbn [fst snd]. rewrite Hpe, Hpm. reflexivity.
    - rewrite Hp. reflexivity. }
  rewrite Er.
  assert (Hef : exists ef, eps_layout 1 L K (shp e) = Some ef /\ forall p l k, ef p l k = l :: spectral_ix K k).
  { destruct (spectral_eps_layout L K _ Se) as [E|E]; [|exact E]. eexists. split; [exact E|reflexivity]. }
  destruct Hef as (ef & Eef & Hef). destruct (spectral_env_layout K _ HK Sv) as (vx & Evx & Hvx).
  assert (At : forall l, l < L -> at_ (tt (p_r p)) [l] = nth l rs 0%R). { intros l Hl0. rewrite <- Hre. symmetry. now apply entries_vec with L. }
  assert (Val : valid (a_k0 c) (tt (p_r p)) e (a_env c) K 1 L ef vx).
  { split; [exact Hk|now rewrite Hrs| |exact Eef|exact Evx]. intros q l Hq Hl0. rewrite Hrs. cbn [r_ix]. rewrite !At by lia. now apply Hinc. }
  destruct (pena_tail sj sy jr c (tt (p_r p)) e K 1 L ef vx n Hb Hint eq_refl Val HL Hn1 (or_introl Hn)) as (o & Eo & No & Den & Ia & Ib).
  rewrite Eo. destruct Den as (D1 & D2 & D3 & D4 & D5).
  assert (Hod : exists dd, output_dict o = Ok dd /\ In ("a_n"%string, PC (o_a o)) dd /\ In ("b_n"%string, PC (o_b o)) dd).
  { unfold output_dict. destruct (tbin_3k cdiv _ _ _ _ _ _ _ (is3_tmap csqrt _ _ _ _ _ D3) (is3_un1 _ _ _ _ D5)) as (m & -> & _). cbn [bind]. eexists. split; [reflexivity|].
    unfold coeff_dict. split; apply in_or_app; right; apply in_or_app; left; [left|right; left]; reflexivity. }
  destruct Hod as (dd & Ed & Ia' & Ib'). unfold bnd, lift. rewrite Ed. unfold ret.
  eexists. exists o. eexists. exists (squeeze (o_a o)), (squeeze (o_b o)). split; [reflexivity|]. split; [reflexivity|].
  unfold squeeze_dimensions. split; [exact (in_map (fun kv => (fst kv, squeeze_val (snd kv))) _ _ Ia')|]. split; [exact (in_map (fun kv => (fst kv, squeeze_val (snd kv))) _ _ Ib')|].
  split; [apply squeeze_squeezed|]. split; [apply squeeze_squeezed|].
  assert (Eel : forall q k, k < K -> element (a_k0 c) (tt (p_r p)) e (a_env c) ef vx L q k = (nth k (entries k0) 0%R, vf k, map (fun l => (nth l rs 0%R, lf l k)) (seq 0 L))).
  { intros q k Hk0. unfold element. change (a_env c) with v. change (a_k0 c) with k0. rewrite Hvx, Av by exact Hk0. f_equal. apply map_ext_in. intros l Hl0. apply in_seq in Hl0.
    rewrite Hrs. cbn [r_ix]. rewrite At, Hef, Ae by lia. reflexivity. }
  split; (eapply is3_ext; [|eassumption]); intros i q k Hi Hq Hk0; cbn beta; now rewrite Eel.
Qed.
