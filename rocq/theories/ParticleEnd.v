(** Statements about constructed particles, assembled from the parts. *)
From Coq Require Import Reals ZArith List Bool String Arith Lia Lra.
From Coquelicot Require Import Complex.
From Verif Require Import Ops ROps CLemmas Tensor TensorProofs ModelMaterial MaterialSpec MaterialProofs ModelMie ModelBatch ModelObs BroadcastSpec BatchReal
  ModelParticle ParticleSpec ParticleProofs ParticleRun ParticleHist ParticleFull.
Import ListNotations.
Open Scope nat_scope.
Open Scope list_scope.

Lemma made_wfh h : List.Forall made h -> wfh h.
Proof. intros H. apply Forall_wfh. eapply Forall_impl; [|exact H]. apply made_wf. Qed.
Lemma new_wfh a h h' p : wfh h -> new_particle a h = (h', Ok p) -> wfh h'.
Proof. intros Hw H. destruct (new_ok_sane _ _ _ _ H) as (_ & _ & _ & _ & _ & _ & G & F). eapply grow_wfh; eassumption. Qed.

Section S.
  Variables (sj sy jr : @bessel_t R).
  Notation reachable := (reachable sj sy jr).
  Lemma reachable_wfh h : reachable h -> wfh h.
  Proof.
    induction 1 as [h H|a h h' p H IH E|d p h o H IH Hc]; [now apply made_wfh|eapply new_wfh; eassumption|].
    pose proof (prun_ok sj sy jr [o] d p h IH Hc) as G. cbn [prun fold_left] in G. destruct (pstep sj sy jr (p, h) o) as [p' h']. apply G.
  Qed.
  Lemma constructed_history a h rs e ms os : reachable h -> accepted a rs e ms -> List.Forall (usable h) (mat_args a) ->
    exists h1 p1, new_particle a h = (h1, Ok p1) /\
    let (p2, h2) := prun sj sy jr (p1, h1) os in
      coherent (last_dev (device_of a) os) p2 h2 /\
      tt (p_r p2) = tt (p_r p1) /\ option_map tt (p_eps p2) = option_map tt (p_eps p1) /\ p_mats p2 = p_mats p1 /\ p_env p2 = p_env p1 /\
      forall m, snd (invoke sj sy jr p2 m h2) = snd (invoke sj sy jr p1 m h1).
  Proof.
    intros Hr Ha Hu. destruct (new_accepts _ _ _ _ _ Ha Hu) as (h1 & p1 & E & Hc & _). exists h1, p1. split; [exact E|].
    pose proof (new_wfh _ _ _ _ (reachable_wfh _ Hr) E) as Hw.
    pose proof (fun m => history sj sy jr _ p1 h1 os m Hw Hc) as G. destruct (prun sj sy jr (p1, h1) os) as [p2 h2].
    destruct (G (MMie (scalar_t 0%R) None {| k_internal := false; k_backend := EmptyString; k_which_jn := EmptyString; k_n_max := None |})) as (G1 & G2 & _).
    split; [exact G1|]. unfold values_of in G2. injection G2 as V1 V2 V3 V4. repeat (split; [assumption|]). intros m. apply G.
  Qed.
  Lemma reachable_new_accepts a h rs e ms : accepted a rs e ms -> List.Forall (usable h) (mat_args a) ->
    exists h' p, new_particle a h = (h', Ok p) /\ coherent (device_of a) p h' /\
    shp (tt (p_r p)) = [List.length rs] /\ entries (tt (p_r p)) = rs /\ option_map tt (p_eps p) = e /\
    match ms, p_mats p with Some l, Some is => Forall2 (refers h h' (device_of a)) l is | None, None => True | _, _ => False end /\
    refers h h' (device_of a) (g_mat_env a) (p_env p).
  Proof. apply new_accepts. Qed.
  Lemma same_device_ok d p h a h' p2 m : reachable h -> coherent d p h -> new_particle a h = (h', Ok p2) -> device_of a = d ->
    coherent d p h' /\ snd (invoke sj sy jr p m h') = snd (invoke sj sy jr p m h).
  Proof. intros Hr. apply same_device_safe. now apply reachable_wfh. Qed.
  Lemma disjoint_ok d p h a h' p2 m : reachable h -> coherent d p h -> new_particle a h = (h', Ok p2) ->
    (forall i, In i (addrs p) -> ~ In (AObj i) (mat_args a)) ->
    coherent d p h' /\ snd (invoke sj sy jr p m h') = snd (invoke sj sy jr p m h).
  Proof.
    intros Hr Hc Hn Hd. apply (disjoint_safe sj sy jr d p h a h' p2 m (reachable_wfh _ Hr) Hc Hn). intros i Hi Hin. apply (Hd i Hi).
    clear - Hin. unfold obj_ids in Hin. apply in_flat_map in Hin. destruct Hin as (x & Hx & Hix). destruct x; cbn in Hix; try tauto. destruct Hix as [<-|[]]. exact Hx.
  Qed.
  Lemma invoke_fails p h i m mm : wfh h -> uses p i -> nth_error h i = Some m -> mdev m <> p_dev p -> forall d, snd (invoke sj sy jr p mm h) <> Ok d.
  Proof.
    intros Hw Hu E Hd d.
    assert (K : forall k0 src kw (f : @output R -> @st R (@dict R)), snd (bnd (run_call sj sy jr p k0 src kw) f h) <> Ok d).
    { intros k0 src kw f. pose proof (wrong_device_fails sj sy jr p h i m k0 src kw Hw Hu E Hd) as G. unfold bnd. destruct (run_call sj sy jr p k0 src kw h) as [h1 [o|er]]; [elim (G o eq_refl)|discriminate]. }
    destruct mm; apply K.
  Qed.
  (* any shared material that the first particle evaluates *)
  Lemma shared_fails d p h a rs e ms i : reachable h -> coherent d p h -> i < List.length h -> uses p i ->
    accepted a rs e ms -> List.Forall (usable h) (mat_args a) -> (g_mat_env a = AObj i \/ exists l, ms = Some l /\ In (AObj i) l) -> device_of a <> d ->
    exists h' p2, new_particle a h = (h', Ok p2) /\ forall m r, snd (invoke sj sy jr p m h') <> Ok r.
  Proof.
    intros Hr Hc Hi Hu Ha Hus Hin Hd. destruct (new_accepts _ _ _ _ _ Ha Hus) as (h' & p2 & E & Hc2 & _ & _ & _ & Rl & Re). exists h', p2. split; [exact E|].
    assert (Ad : In i (addrs p2)).
    { unfold addrs. destruct Hin as [Hin|(l & -> & Hin)].
      - rewrite Hin in Re. destruct Re as [-> _]. now left.
      - right. destruct (p_mats p2) as [is|]; [|contradiction]. clear - Rl Hin. induction Rl as [|x y l is Hxy Rl IH]; [destruct Hin|]. destruct Hin as [->|Hin]; [|right; now apply IH].
        left. destruct Hxy as [-> _]. reflexivity. }
    destruct (co_mats _ _ _ Hc2 i Ad) as (m0 & E0 & O0). intros m r. eapply invoke_fails; [eapply new_wfh; [eapply reachable_wfh; exact Hr|exact E]|exact Hu|exact E0|].
    rewrite (on_dev _ _ O0), (co_dev _ _ _ Hc). exact Hd.
  Qed.
  (** ** dictionaries *)
  Lemma run_call_inv p k0 src kw h h' o : run_call sj sy jr p k0 src kw h = (h', Ok o) ->
    exists eps env, permittivities p k0 src h = (h', Ok (eps, env)) /\ mie_coefficients sj sy jr (particle_call p k0 eps env kw) = Ok o.
  Proof.
    unfold run_call, bnd at 1. destruct (permittivities p k0 src h) as [h1 [[e v]|]]; [|discriminate]. unfold bnd, lift. cbn [fst snd].
    destruct (mie_coefficients sj sy jr _) as [o'|] eqn:E; [|discriminate]. destruct (devices_ok _ _ _ _ _); [|discriminate]. unfold ret. intros H. injection H as <- <-. exists e, v. split; [reflexivity|exact E].
  Qed.
  Lemma mie_dict p k0 src kw h h' d : get_mie_coefficients sj sy jr p k0 src kw h = (h', Ok d) ->
    exists eps env o f, permittivities p k0 src h = (h', Ok (eps, env)) /\ mie_coefficients sj sy jr (particle_call p k0 eps env kw) = Ok o /\
      output_dict o = Ok f /\ squeezed_dict f d.
  Proof.
    unfold get_mie_coefficients, bnd at 1. destruct (run_call sj sy jr p k0 src kw h) as [h1 [o|]] eqn:E; [|discriminate]. unfold bnd, lift. destruct (output_dict o) as [f|] eqn:F; [|discriminate].
    unfold ret. intros H. injection H as <- <-. destruct (run_call_inv _ _ _ _ _ _ _ E) as (eps & env & E1 & E2). exists eps, env, o, f. repeat (split; [assumption|]). apply squeeze_dict_ok.
  Qed.
  Lemma xs_dict_ok p k0 src kw h h' d : get_cross_sections sj sy jr p k0 src kw h = (h', Ok d) ->
    exists eps env o x, permittivities p k0 src h = (h', Ok (eps, env)) /\ mie_coefficients sj sy jr (particle_call p k0 eps env (no_internal kw)) = Ok o /\
      cross_sections o = Ok x /\ squeezed_dict (xs_dict x) d.
  Proof.
    unfold get_cross_sections, bnd at 1. destruct (run_call sj sy jr p k0 src _ h) as [h1 [o|]] eqn:E; [|discriminate]. unfold bnd, lift. destruct (cross_sections o) as [f|] eqn:F; [|discriminate].
    unfold ret. intros H. injection H as <- <-. destruct (run_call_inv _ _ _ _ _ _ _ E) as (eps & env & E1 & E2). exists eps, env, o, f. repeat (split; [assumption|]). apply squeeze_dict_ok.
  Qed.
  Lemma ang_dict_ok p k0 theta src kw h h' d : get_angular_scattering sj sy jr p k0 theta src kw h = (h', Ok d) ->
    exists eps env o s, permittivities p k0 src h = (h', Ok (eps, env)) /\ mie_coefficients sj sy jr (particle_call p k0 eps env (no_internal kw)) = Ok o /\
      angular_scattering theta o = Ok s /\ squeezed_dict (ang_dict o theta s) d.
  Proof.
    unfold get_angular_scattering, bnd at 1. destruct (run_call sj sy jr p k0 src _ h) as [h1 [o|]] eqn:E; [|discriminate]. unfold bnd, lift. destruct (angular_scattering theta o) as [f|] eqn:F; [|discriminate].
    unfold ret. intros H. injection H as <- <-. destruct (run_call_inv _ _ _ _ _ _ _ E) as (eps & env & E1 & E2). exists eps, env, o, f. repeat (split; [assumption|]). apply squeeze_dict_ok.
  Qed.
  (* and conversely: when the functional API succeeds on the materials' values, so does the method of a coherent particle *)
  Lemma method_complete d p h k0 src kw : reachable h -> coherent d p h -> forall eps env h', permittivities p k0 src h = (h', Ok (eps, env)) ->
    forall o f, mie_coefficients sj sy jr (particle_call p k0 eps env kw) = Ok o -> output_dict o = Ok f ->
    exists r, get_mie_coefficients sj sy jr p k0 src kw h = (h', Ok r) /\ squeezed_dict f r.
  Proof.
    intros Hr Hc eps env h' Hp o f Ho Hf. pose proof (permittivities_ok d p h k0 src (reachable_wfh _ Hr) Hc) as G. rewrite Hp in G. destruct G as (_ & _ & G).
    destruct (permP _ _ _ _ _) as [[e1 v1]|]; [|discriminate]. cbn in G. injection G as -> ->.
    unfold get_mie_coefficients, run_call. unfold bnd at 1 2. rewrite Hp. cbn [fst snd]. unfold bnd at 1. unfold lift at 1. rewrite Ho. unfold devices_ok. cbn [td].
    rewrite (co_dev _ _ _ Hc), (co_r _ _ _ Hc), !String.eqb_refl, orb_true_r. cbn [andb]. unfold ret at 1. unfold bnd, lift. rewrite Hf. unfold ret. eexists. split; [reflexivity|]. apply squeeze_dict_ok.
  Qed.
End S.
