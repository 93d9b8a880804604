(** Construction, device moves and evaluation of particles. *)
From Coq Require Import Reals ZArith List Bool String Arith Lia Lra FunctionalExtensionality.
From Coquelicot Require Import Complex.
From Verif Require Import Ops ROps CLemmas Tensor TensorProofs ModelMaterial MaterialSpec MaterialProofs ModelBatch ModelObs ModelParticle ParticleSpec ParticleProofs.
Import ListNotations.
Open Scope nat_scope.
Open Scope list_scope.

(** ** aliases *)
Lemma mk_aliased d r e (ms : option (list nat)) env : aliased (@mk_particle R d r e ms env).
Proof.
  split; cbn [mk_particle p_rc p_r p_rs p_mc p_ms p_mats].
  - split; [reflexivity|]. split; [|reflexivity]. cbn. now destruct (shp (tt r)).
  - destruct (Nat.ltb_spec 1 (numel (tt r))) as [H|H]; [|exact H]. split; [exact H|]. split; [reflexivity|]. split; [|reflexivity]. cbn. now destruct (shp (tt r)).
  - destruct ms as [[|m l]|]; reflexivity.
  - destruct ms as [[|m [|m' l]]|]; reflexivity.
Qed.

(** ** the constructor *)
Lemma layer_args_in a m : In m (layer_args a) -> In m (mat_args a).
Proof.
  unfold layer_args, mat_args. destruct (g_mat_layers a); intros H; apply in_or_app; [now left|]. right. apply in_app_or in H. apply in_or_app. destruct H; [now left|right].
  apply in_or_app. now left.
Qed.
Lemma env_in a : In (g_mat_env a) (mat_args a).
Proof. unfold mat_args. apply in_or_app. right. apply in_or_app. right. apply in_or_app. right. now left. Qed.
Definition values_of (p : @particle R) : tensor R * option (tensor C) * option (list nat) * nat :=
  (tt (p_r p), option_map tt (p_eps p), p_mats p, p_env p).
Lemma new_accepts a h rs e ms : accepted a rs e ms -> List.Forall (usable h) (mat_args a) ->
  exists h' p, new_particle a h = (h', Ok p) /\ coherent (device_of a) p h' /\
    shp (tt (p_r p)) = [List.length rs] /\ entries (tt (p_r p)) = rs /\ option_map tt (p_eps p) = e /\
    match ms, p_mats p with Some l, Some is => Forall2 (refers h h' (device_of a)) l is | None, None => True | _, _ => False end /\
    refers h h' (device_of a) (g_mat_env a) (p_env p).
Proof.
  intros Ha Hu. rewrite Forall_forall in Hu. set (d := device_of a). unfold new_particle. fold (device_of a). fold d. unfold bnd.
  pose proof (layer_parts_ok d a h) as G. destruct (layer_parts d a h) as [h1 r]. destruct G as (G1 & G2 & G3 & G4 & _ & _).
  destruct (G4 rs e ms Ha) as (rt & ids & -> & Hs & He & Hr). { apply Forall_forall. intros m Hm. apply Hu. now apply layer_args_in. }
  pose proof (as_material_grow d (g_mat_env a) h1) as K. destruct (as_material d (g_mat_env a) h1) as [h2 r2]. destruct K as (K1 & K2 & K3 & K4 & K5).
  pose proof (Hu _ (env_in a)) as Hue. destruct (K4 (usable_grow d h h1 _ G1 Hue)) as (i & -> & Hri).
  eexists. eexists. split; [reflexivity|].
  assert (Henv : refers h h2 d (g_mat_env a) i) by (eapply refers_back; eassumption).
  assert (Hms : match ms, ids with Some l, Some is => Forall2 (refers h h2 d) l is | None, None => True | _, _ => False end).
  { destruct ms as [l|], ids as [is|]; auto. clear - Hr K1. induction Hr; constructor; auto. eapply refers_grow; eassumption. }
  assert (Hon : forall m j, refers h h2 d m j -> exists m0, nth_error h2 j = Some m0 /\ on d m0).
  { intros [n|s|j'|] j H; cbn in H; try tauto.
    - destruct H as [_ H]. eexists. split; [exact H|]. cbn. auto.
    - destruct H as (-> & m0 & _ & H). eexists. split; [exact H|]. apply move_on. }
  split; [|split; [exact Hs|split; [exact He|split; [cbn; now destruct e|split; [exact Hms|exact Henv]]]]].
  split; try reflexivity; [intros e' E; cbn in E; destruct e; [injection E as <-; reflexivity|discriminate]|apply mk_aliased|].
  intros j [<-|Hj]; [exact (Hon _ _ Henv)|]. cbn [mk_particle p_mats] in Hj. destruct ids as [is|]; [|destruct Hj]. destruct ms as [l|]; [|destruct Hms].
  clear - Hms Hj Hon. induction Hms as [|x y l' is' Hxy Hms IH]; [destruct Hj|]. destruct Hj as [<-|Hj]; eauto.
Qed.
Lemma new_rejects a h : (forall rs e ms, ~ accepted a rs e ms) -> List.Forall (usable h) (mat_args a) ->
  (~ unstackable a -> snd (new_particle a h) = Err ValueError) /\ (unstackable a -> snd (new_particle a h) = Err RuntimeError).
Proof.
  intros Ha Hu. rewrite Forall_forall in Hu. set (d := device_of a). unfold new_particle. fold (device_of a). fold d. unfold bnd.
  pose proof (layer_parts_ok d a h) as G. destruct (layer_parts d a h) as [h1 r]. destruct G as (_ & _ & _ & _ & G & _).
  destruct (G Ha) as [G1 G2]. { apply Forall_forall. intros m Hm. apply Hu. now apply layer_args_in. }
  split; intros H; [rewrite (G1 H)|rewrite (G2 H)]; reflexivity.
Qed.
Lemma new_ok_sane a h h' p : new_particle a h = (h', Ok p) ->
  (exists rs e ms, accepted a rs e ms) /\ material_like (g_mat_env a) /\ (g_eps_layers a = None -> List.Forall material_like (layer_args a)) /\
  p_dev p = device_of a /\ aliased p /\ (forall i, i < List.length h -> ~ In i (obj_ids (mat_args a)) -> nth_error h' i = nth_error h i) /\
  grow (device_of a) h h' /\ fresh_ok (device_of a) h h'.
Proof.
  set (d := device_of a). unfold new_particle. fold (device_of a). fold d. unfold bnd.
  pose proof (layer_parts_ok d a h) as G. destruct (layer_parts d a h) as [h1 [[[r e] ms]|]]; [|discriminate]. destruct G as (G1 & G2 & G3 & _ & _ & G).
  destruct (G _ eq_refl) as [Ha Hm].
  pose proof (as_material_grow d (g_mat_env a) h1) as K. destruct (as_material d (g_mat_env a) h1) as [h2 [i|]]; [|discriminate]. destruct K as (K1 & K2 & K3 & K4 & K5).
  unfold ret. intros H. injection H as <- <-. split; [exact Ha|]. split; [exact (K5 i eq_refl)|]. split; [exact Hm|]. split; [reflexivity|]. split; [apply mk_aliased|].
  split; [|split; [now apply grow_trans with h1|now apply fresh_trans with h1]].
  intros j Hj Hn. pose proof (grow_length _ _ _ G1). rewrite K2; [apply G2; [exact Hj|]|lia|].
  - intros Hin. apply Hn. unfold obj_ids in *. apply in_flat_map in Hin. destruct Hin as (m & Hin & Hx). apply in_flat_map. exists m. split; [now apply layer_args_in|exact Hx].
  - intros Hin. apply Hn. unfold obj_ids in *. apply in_flat_map in Hin. destruct Hin as (m & Hin & Hx). apply in_flat_map. exists m. split; [|exact Hx]. destruct Hin as [<-|[]]. apply env_in.
Qed.
Lemma new_not_sane a h : (~ material_like (g_mat_env a) \/ (g_eps_layers a = None /\ ~ List.Forall material_like (layer_args a))) ->
  forall h' p, new_particle a h <> (h', Ok p).
Proof.
  intros Hn h' p H. destruct (new_ok_sane _ _ _ _ H) as (_ & H1 & H2 & _). destruct Hn as [Hn|[He Hn]]; tauto.
Qed.

(** ** heap equivalence: only caches differ *)
Definition heq (h h' : @heap R) : Prop := forall i m, nth_error h i = Some m -> exists m', nth_error h' i = Some m' /\ mstat m' = mstat m /\ mdev m' = mdev m.
Lemma heq_refl h : heq h h. Proof. intros i m H. eauto. Qed.
Lemma heq_trans h1 h2 h3 : heq h1 h2 -> heq h2 h3 -> heq h1 h3.
Proof.
  intros H1 H2 i m H. destruct (H1 i m H) as (m' & E & S1 & D1). destruct (H2 i m' E) as (m2 & E2 & S2 & D2). exists m2. split; [exact E2|]. split; congruence.
Qed.
Definition wfh (h : @heap R) : Prop := forall i m, nth_error h i = Some m -> wf m.
Lemma Forall_wfh h : List.Forall wf h -> wfh h.
Proof. intros H i m E. rewrite Forall_forall in H. apply H. eapply nth_error_In. eassumption. Qed.
Definition stat_at (h : @heap R) (i : nat) : C + (model * list R * list C * list R) := match nth_error h i with Some m => mstat m | None => inl (RtoC 0) end.
Lemma eval_mat_ok a i h m : wfh h -> nth_error h i = Some m -> let (h', r) := @eval_mat R ROps a i h in
  wfh h' /\ heq h h' /\ eval_out m (wa_t a) r.
Proof.
  intros Hw E. unfold eval_mat, with_mat. rewrite E. pose proof (get_epsilon_ok m a (Hw i m E)) as G. destruct (get_epsilon m a) as [m' r]. destruct G as (G1 & G2 & G3 & G4).
  pose proof (nth_valid _ _ _ E) as Hi. split; [|split; [|exact G4]].
  - intros j mj Hj. destruct (Nat.eq_dec i j) as [<-|Hne]; [rewrite update_same in Hj by exact Hi; injection Hj as <-; exact G1|]. rewrite update_other in Hj by exact Hne. eauto.
  - intros j mj Hj. destruct (Nat.eq_dec i j) as [<-|Hne]; [|rewrite update_other by exact Hne; eauto]. exists m'. rewrite update_same by exact Hi. split; [reflexivity|]. split; congruence.
Qed.
(* all materials on one device *)
Definition all_on (d : device) (h : @heap R) (is : list nat) : Prop := forall i, In i is -> exists m, nth_error h i = Some m /\ mdev m = d.
Lemma all_on_heq d h h' is : heq h h' -> all_on d h is -> all_on d h' is.
Proof. intros H1 H2 i Hi. destruct (H2 i Hi) as (m & E & D). destruct (H1 i m E) as (m' & E' & _ & D'). exists m'. split; [exact E'|congruence]. Qed.
Lemma stat_heq h h' i m : heq h h' -> nth_error h i = Some m -> stat_at h' i = stat_at h i.
Proof. intros H E. destruct (H i m E) as (m' & E' & S & _). unfold stat_at. now rewrite E, E'. Qed.
Lemma eval_mats_ok d a is : forall h, wfh h -> all_on d h is -> let (h', r) := @eval_mats R ROps a is h in
  wfh h' /\ heq h h' /\
  match map_res (fun i => ev (stat_at h i) (wa_t a)) is with
  | Ok es => exists us, r = Ok us /\ map (tmap v_eps) us = es /\ forall u, In u us -> forall ix, v_dev (at_ u ix) = d
  | Err er => r = Err er
  end.
Proof.
  induction is as [|i is IH]; intros h Hw Ho; cbn [eval_mats map_res].
  - unfold ret. split; [exact Hw|]. split; [apply heq_refl|]. exists []. split; [reflexivity|]. split; [reflexivity|]. intros u [].
  - destruct (Ho i (or_introl eq_refl)) as (m & E & D). unfold bnd. pose proof (eval_mat_ok a i h m Hw E) as G. destruct (eval_mat a i h) as [h1 r1].
    destruct G as (G1 & G2 & G3). unfold eval_out in G3. unfold stat_at at 1. rewrite E. destruct (ev (mstat m) (wa_t a)) as [e|er]; cbn [bind].
    + destruct G3 as (u & -> & Eu & Du). specialize (IH h1 G1). destruct (eval_mats a is h1) as [h2 r2].
      destruct IH as (I1 & I2 & I3); [apply all_on_heq with h; [exact G2|]; intros j Hj; apply Ho; now right|].
      assert (Em : map_res (fun i0 => ev (stat_at h1 i0) (wa_t a)) is = map_res (fun i0 => ev (stat_at h i0) (wa_t a)) is).
      { clear - G2 Ho. assert (Ho' : forall j, In j is -> exists m, nth_error h j = Some m) by (intros j Hj; destruct (Ho j (or_intror Hj)) as (m & E & _); eauto). clear Ho.
        induction is as [|j is IH]; [reflexivity|]. cbn [map_res]. destruct (Ho' j (or_introl eq_refl)) as (m & E). rewrite (stat_heq _ _ _ _ G2 E). rewrite IH; [reflexivity|].
        intros j' Hj'. apply Ho'. now right. }
      rewrite Em in I3. destruct (map_res _ is) as [es|er]; cbn [bind].
      * destruct I3 as (us & -> & Ees & Dus). unfold ret. split; [exact I1|]. split; [now apply heq_trans with h1|]. exists (u :: us). split; [reflexivity|].
        split; [cbn [map]; now rewrite Eu, Ees|]. intros u' [<-|Hin] ix; [rewrite Du; exact D|now apply Dus].
      * subst r2. split; [exact I1|]. split; [now apply heq_trans with h1|reflexivity].
    + subst r1. split; [exact G1|]. split; [exact G2|reflexivity].
Qed.
Lemma stack_tmap {A B} (f : A -> B) us : stack 0 (map (tmap f) us) = match stack 0 us with Ok s => Ok (tmap f s) | Err e => Err e end.
Proof.
  unfold stack. destruct us as [|u us]; [reflexivity|]. cbn [map]. change (tmap f u :: map (tmap f) us) with (map (tmap f) (u :: us)).
  assert (E : forallb (fun t => shape_eqb (shp t) (shp (tmap f u))) (map (tmap f) (u :: us)) = forallb (fun t => shape_eqb (shp t) (shp u)) (u :: us)).
  { generalize (u :: us). intros l. induction l as [|t l IH]; [reflexivity|]. cbn [map forallb]. now rewrite IH. }
  rewrite E. clear E. destruct (forallb (fun t : tensor A => shape_eqb (shp t) (shp u)) (u :: us)); [|reflexivity]. f_equal. apply tensor_eq; [cbn [shp tmap]; now rewrite map_length|].
  intros ix. cbn [at_ tmap]. rewrite (map_nth (tmap f)). reflexivity.
Qed.

(** ** permittivities of a coherent particle *)
Definition wl_of (k0 : tensor R) : tensor R := tmap (fun k => 2 * PI / k)%R k0.
Definition permP (eps : option (tensor C)) (mats : option (list nat)) (env : nat) (h : @heap R) (k0 : tensor R) : result (tensor C * tensor C) :=
  let* v := ev (stat_at h env) (wl_of k0) in
  match eps, mats with
  | Some e, _ => Ok (e, v)
  | None, None => Err TypeError
  | None, Some is => let* es := map_res (fun i => ev (stat_at h i) (wl_of k0)) is in let* s := stack 0 es in Ok (s, v)
  end.
Definition rmapr {A B} (f : A -> B) (r : result A) : result B := match r with Ok a => Ok (f a) | Err e => Err e end.
Definition onto (d : device) (ev : tensor C * tensor C) : dten C * dten C := (mkD d (fst ev), mkD d (snd ev)).
Lemma wl0_of k0 : @wl0 R ROps k0 = wl_of k0. Proof. unfold wl0, wl_of, rtwo. cbn. reflexivity. Qed.
Lemma permittivities_ok d p h k0 src : wfh h -> coherent d p h -> let (h', r) := @permittivities R ROps p k0 src h in
  wfh h' /\ heq h h' /\ r = rmapr (onto d) (permP (option_map tt (p_eps p)) (p_mats p) (p_env p) h k0).
Proof.
  intros Hw Hc. unfold permittivities, bnd. rewrite wl0_of. set (a := {| wa_t := wl_of k0; wa_src := src |}).
  assert (Ho : all_on d h (addrs p)). { intros i Hi. destruct (co_mats _ _ _ Hc i Hi) as (m & E & O). exists m. split; [exact E|now apply on_dev]. }
  destruct (Ho _ (or_introl eq_refl)) as (m & E & D). pose proof (eval_mat_ok a _ h m Hw E) as G. destruct (eval_mat a (p_env p) h) as [h1 r1]. destruct G as (G1 & G2 & G3).
  unfold permP. unfold stat_at at 1. rewrite E. unfold eval_out in G3. change (wa_t a) with (wl_of k0) in G3. destruct (ev (mstat m) (wl_of k0)) as [e|er]; cbn [bind rmapr].
  2:{ subst r1. auto. }
  destruct G3 as (u & -> & Eu & Du). assert (Ev : dten_of u = mkD d e). { unfold dten_of, dev_of. now rewrite Du, Eu, D. } rewrite Ev.
  destruct (p_eps p) as [eps|] eqn:Ep; cbn [option_map].
  - unfold ret. split; [exact G1|]. split; [exact G2|]. cbn [rmapr]. unfold onto. cbn [fst snd]. pose proof (co_eps _ _ _ Hc _ Ep) as Hd. destruct eps as [de te]. cbn in Hd. subst de. reflexivity.
  - destruct (p_mats p) as [is|] eqn:Em; [|unfold fail; auto].
    assert (Ho' : all_on d h1 is). { apply all_on_heq with h; [exact G2|]. intros i Hi. apply Ho. unfold addrs. rewrite Em. now right. }
    pose proof (eval_mats_ok d a is h1 G1 Ho') as K. destruct (eval_mats a is h1) as [h2 r2]. destruct K as (K1 & K2 & K3). change (wa_t a) with (wl_of k0) in K3.
    assert (Es : map_res (fun i => ev (stat_at h1 i) (wl_of k0)) is = map_res (fun i => ev (stat_at h i) (wl_of k0)) is).
    { assert (Hx : forall j, In j is -> exists m, nth_error h j = Some m) by (intros j Hj; destruct (Ho j) as (mj & Ej & _); [unfold addrs; rewrite Em; now right|eauto]).
      clear - G2 Hx. induction is as [|j is IH]; [reflexivity|]. cbn [map_res]. destruct (Hx j (or_introl eq_refl)) as (m & E). rewrite (stat_heq _ _ _ _ G2 E). rewrite IH; [reflexivity|].
      intros j' Hj'. apply Hx. now right. }
    rewrite Es in K3. destruct (map_res _ is) as [es|er]; cbn [bind rmapr].
    2:{ subst r2. split; [exact K1|]. split; [now apply heq_trans with h1|reflexivity]. }
    destruct K3 as (us & -> & Ees & Dus). rewrite <- Ees, stack_tmap. unfold lift. destruct (stack 0 us) as [s|er] eqn:Est; cbn [bind rmapr].
    2:{ split; [exact K1|]. split; [now apply heq_trans with h1|reflexivity]. }
    destruct us as [|u0 us]; [discriminate|].
    assert (Hall : forallb (fun u1 => String.eqb (dev_of u1) (dev_of u0)) (u0 :: us) = true).
    { apply forallb_forall. intros x Hx. apply String.eqb_eq. unfold dev_of. rewrite (Dus x Hx), (Dus u0 (or_introl eq_refl)). reflexivity. }
    rewrite Hall. unfold ret. split; [exact K1|]. split; [now apply heq_trans with h1|].
    unfold onto. cbn [fst snd]. unfold dev_of. now rewrite (Dus u0 (or_introl eq_refl)).
Qed.
