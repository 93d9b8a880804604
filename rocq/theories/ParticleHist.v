(** Histories of particles, sharing, and the dictionaries they return. *)
From Coq Require Import Reals ZArith List Bool String Arith Lia Lra.
From Coquelicot Require Import Complex.
From Verif Require Import Ops ROps CLemmas Tensor TensorProofs ModelMaterial MaterialSpec MaterialProofs ModelBatch ModelObs ModelParticle ParticleSpec ParticleProofs ParticleRun.
Import ListNotations.
Open Scope nat_scope.
Open Scope list_scope.

(** ** moves *)
Definition same_stat (h h' : @heap R) : Prop := forall i m, nth_error h i = Some m -> exists m', nth_error h' i = Some m' /\ mstat m' = mstat m.
Lemma same_stat_refl h : same_stat h h. Proof. intros i m H. eauto. Qed.
Lemma same_stat_trans h1 h2 h3 : same_stat h1 h2 -> same_stat h2 h3 -> same_stat h1 h3.
Proof. intros H1 H2 i m H. destruct (H1 i m H) as (m' & E & S1). destruct (H2 i m' E) as (m2 & E2 & S2). exists m2. split; [exact E2|]. congruence. Qed.
Lemma heq_stat h h' : heq h h' -> same_stat h h'.
Proof. intros H i m E. destruct (H i m E) as (m' & E' & S & _). eauto. Qed.
Lemma grow_stat d h h' : grow d h h' -> same_stat h h'.
Proof. intros H i m E. destruct (H i m E) as [E'|E']; eexists; (split; [exact E'|]); [reflexivity|apply move_stat]. Qed.
Lemma stat_at_same h h' i m : same_stat h h' -> nth_error h i = Some m -> stat_at h' i = stat_at h i.
Proof. intros H E. destruct (H i m E) as (m' & E' & S). unfold stat_at. now rewrite E, E'. Qed.
Lemma grow_wfh d h h' : grow d h h' -> fresh_ok d h h' -> wfh h -> wfh h'.
Proof.
  intros Hg Hf Hw i m E. destruct (Nat.lt_ge_cases i (List.length h)) as [L|L]; [|now apply (Hf i m E)].
  destruct (nth_error h i) as [m0|] eqn:E0; [|apply nth_error_None in E0; lia]. destruct (Hg i m0 E0) as [E'|E']; rewrite E' in E; injection E as <-; [eauto|apply move_wf; eauto].
Qed.
Lemma move_all_ok d is : forall h, wfh h -> (forall i, In i is -> exists m, nth_error h i = Some m) -> let (h', r) := @move_all R d is h in
  r = Ok Datatypes.tt /\ wfh h' /\ grow d h h' /\ List.length h' = List.length h /\ (forall i, ~ In i is -> nth_error h' i = nth_error h i) /\
  forall i, In i is -> exists m, nth_error h i = Some m /\ nth_error h' i = Some (set_device_mat d m).
Proof.
  induction is as [|i is IH]; intros h Hw Hv; cbn [move_all].
  - unfold ret. split; [reflexivity|]. split; [exact Hw|]. split; [apply grow_refl|]. split; [reflexivity|]. split; [reflexivity|]. intros i [].
  - destruct (Hv i (or_introl eq_refl)) as [m E]. pose proof (nth_valid _ _ _ E) as Hi. unfold bnd, with_mat. rewrite E. set (h1 := update i (set_device_mat d m) h).
    assert (G : grow d h h1). { intros j mj Hj. destruct (Nat.eq_dec i j) as [<-|Hne]; [right; unfold h1; rewrite update_same by exact Hi; congruence|left; unfold h1; now rewrite update_other]. }
    assert (W1 : wfh h1). { apply grow_wfh with d h; [exact G| |exact Hw]. intros j mj Hj L. apply nth_valid in Hj. unfold h1 in Hj. rewrite update_length in Hj. lia. }
    specialize (IH h1 W1). destruct (move_all d is h1) as [h2 r]. destruct IH as (I1 & I2 & I3 & I4 & I5 & I6).
    { intros j Hj. destruct (Hv j (or_intror Hj)) as [mj Ej]. destruct (G j mj Ej) as [E'|E']; eauto. }
    split; [exact I1|]. split; [exact I2|]. split; [now apply grow_trans with h1|]. split; [rewrite I4; apply update_length|].
    split; [intros j Hj; rewrite I5 by (intros H; apply Hj; now right); unfold h1; apply update_other; intros ->; apply Hj; now left|].
    intros j Hj. destruct (Hv j Hj) as [mj Ej]. exists mj. split; [exact Ej|].
    destruct (in_dec Nat.eq_dec j is) as [Hin|Hout].
    + destruct (I6 j Hin) as (m1 & E1 & E2). destruct (G j mj Ej) as [E'|E']; rewrite E' in E1; injection E1 as <-; [exact E2|]. now rewrite move_idem in E2.
    + rewrite I5 by exact Hout. destruct Hj as [<-|Hj]; [|tauto]. unfold h1. rewrite update_same by exact Hi. congruence.
Qed.
Lemma set_device_ok d d' p h : wfh h -> coherent d p h -> exists h' p', set_device d' p h = (h', Ok p') /\
  wfh h' /\ grow d' h h' /\ List.length h' = List.length h /\ (forall i, ~ In i (addrs p) -> nth_error h' i = nth_error h i) /\
  coherent d' p' h' /\ values_of p' = values_of p.
Proof.
  intros Hw Hc. unfold set_device.
  set (ms := match p_mats p with Some l => l | None => [] end).
  assert (E : match p_mats p with Some is => move_all d' is | None => @ret R unit Datatypes.tt end = move_all d' ms) by (unfold ms; now destruct (p_mats p)).
  rewrite E. unfold bnd at 1. pose proof (move_all_ok d' ms h Hw) as G. destruct (move_all d' ms h) as [h1 r1].
  destruct G as (-> & W1 & G1 & L1 & F1 & M1). { intros i Hi. destruct (co_mats _ _ _ Hc i (or_intror Hi)) as (m & Em & _). eauto. }
  pose proof (move_all_ok d' [p_env p] h1 W1) as G. unfold bnd at 1. destruct (move_all d' [p_env p] h1) as [h2 r2].
  destruct G as (-> & W2 & G2 & L2 & F2 & M2).
  { intros i [<-|[]]. destruct (co_mats _ _ _ Hc _ (or_introl eq_refl)) as (m & Em & _). destruct (G1 _ _ Em) as [E'|E']; eauto. }
  unfold ret. eexists. eexists. split; [reflexivity|]. split; [exact W2|]. split; [now apply grow_trans with h1|]. split; [congruence|]. split; [|split].
  - intros i Hi. rewrite F2, F1; [reflexivity| |]; intros H; apply Hi; [now right|destruct H as [<-|[]]; now left].
  - split; try reflexivity; [|apply mk_aliased|].
    + intros e He. cbn in He. destruct (p_eps p); [injection He as <-; reflexivity|discriminate].
    + intros i Hi. assert (Hi' : i = p_env p \/ In i ms) by (destruct Hi as [<-|Hi]; [now left|right; exact Hi]).
      destruct (Nat.eq_dec i (p_env p)) as [->|Hne].
      * destruct (M2 _ (or_introl eq_refl)) as (m & _ & E2). eexists. split; [exact E2|apply move_on].
      * destruct Hi' as [->|Hin]; [congruence|]. destruct (M1 i Hin) as (m & _ & E2). exists (set_device_mat d' m). split; [|apply move_on]. rewrite F2; [exact E2|]. intros [<-|[]]. congruence.
  - unfold values_of, mk_particle, to. cbn. destruct (p_eps p); reflexivity.
Qed.

(** ** calls *)
Section Calls.
  Variables (sj sy jr : @bessel_t R).
  Definition callP (v : tensor R * option (tensor C) * option (list nat) * nat) (k0 : tensor R) (ee : tensor C * tensor C) (kw : kwargs) : @call R :=
    {| a_k0 := k0; a_r_layers := Some (fst (fst (fst v))); a_eps_layers := Some (fst ee); a_r_c := None; a_eps_c := None; a_r_s := None; a_eps_s := None;
       a_env := snd ee; a_internal := k_internal kw; a_backend := k_backend kw; a_which_jn := k_which_jn kw; a_n_max := k_n_max kw |}.
  Definition runP (v : tensor R * option (tensor C) * option (list nat) * nat) (h : @heap R) k0 kw : result (@output R) :=
    let* ee := permP (snd (fst (fst v))) (snd (fst v)) (snd v) h k0 in mie_coefficients sj sy jr (callP v k0 ee kw).
  Lemma run_call_ok d p h k0 src kw : wfh h -> coherent d p h -> let (h', r) := run_call sj sy jr p k0 src kw h in
    wfh h' /\ heq h h' /\ r = runP (values_of p) h k0 kw.
  Proof.
    intros Hw Hc. unfold run_call, runP, values_of. cbn [fst snd]. unfold bnd at 1. pose proof (permittivities_ok d p h k0 src Hw Hc) as G.
    destruct (permittivities p k0 src h) as [h1 r1]. destruct G as (G1 & G2 & ->). destruct (permP _ _ _ _ _) as [[e v]|er]; cbn [rmapr bind]; [|auto].
    unfold onto. cbn [fst snd]. unfold particle_call, callP. cbn [tt fst snd td]. unfold bnd, lift.
    destruct (mie_coefficients sj sy jr _) as [o|er]; [|auto]. unfold devices_ok. rewrite (co_dev _ _ _ Hc), (co_r _ _ _ Hc), !String.eqb_refl, orb_true_r. cbn [andb]. unfold ret. split; [exact G1|split; [exact G2|reflexivity]].
  Qed.
  Definition outP (v : tensor R * option (tensor C) * option (list nat) * nat) (h : @heap R) (m : method) : result (@dict R) :=
    match m with
    | MMie k0 _ kw => let* o := runP v h k0 kw in let* d := output_dict o in Ok (squeeze_dimensions d)
    | MXs k0 _ kw => let* o := runP v h k0 (no_internal kw) in let* x := cross_sections o in Ok (squeeze_dimensions (xs_dict x))
    | MAng k0 theta _ kw => let* o := runP v h k0 (no_internal kw) in let* s := angular_scattering theta o in Ok (squeeze_dimensions (ang_dict o theta s))
    end.
  Lemma invoke_ok d p h m : wfh h -> coherent d p h -> let (h', r) := invoke sj sy jr p m h in
    wfh h' /\ heq h h' /\ r = outP (values_of p) h m.
  Proof.
    intros Hw Hc. destruct m as [k0 src kw|k0 src kw|k0 theta src kw]; cbn [invoke outP];
      unfold get_mie_coefficients, get_cross_sections, get_angular_scattering; unfold bnd at 1.
    - pose proof (run_call_ok d p h k0 src kw Hw Hc) as G. destruct (run_call sj sy jr p k0 src kw h) as [h1 r1]. destruct G as (G1 & G2 & <-).
      destruct r1 as [o|er]; cbn [bind]; [|auto]. unfold bnd, lift, ret. destruct (output_dict o); auto.
    - pose proof (run_call_ok d p h k0 src (no_internal kw) Hw Hc) as G. destruct (run_call sj sy jr p k0 src (no_internal kw) h) as [h1 r1]. destruct G as (G1 & G2 & <-).
      destruct r1 as [o|er]; cbn [bind]; [|auto]. unfold bnd, lift, ret. destruct (cross_sections o); auto.
    - pose proof (run_call_ok d p h k0 src (no_internal kw) Hw Hc) as G. destruct (run_call sj sy jr p k0 src (no_internal kw) h) as [h1 r1]. destruct G as (G1 & G2 & <-).
      destruct r1 as [o|er]; cbn [bind]; [|auto]. unfold bnd, lift, ret. destruct (angular_scattering theta o); auto.
  Qed.
  Lemma coherent_heq d p h h' : wfh h' -> heq h h' -> coherent d p h -> coherent d p h'.
  Proof.
    intros Hw Hq [H1 H2 H3 H4 H5]. split; auto. intros i Hi. destruct (H5 i Hi) as (m & E & O). destruct (Hq i m E) as (m' & E' & _ & D).
    exists m'. split; [exact E'|]. rewrite <- (on_dev d m O), <- D. apply wf_on. eauto.
  Qed.
  Lemma permP_same eps mats env h h' k0 : (forall i, In i (env :: match mats with Some l => l | None => [] end) -> stat_at h' i = stat_at h i) ->
    permP eps mats env h' k0 = permP eps mats env h k0.
  Proof.
    intros H. unfold permP. rewrite (H env (or_introl eq_refl)). destruct (ev _ _); cbn [bind]; [|reflexivity]. destruct eps; [reflexivity|]. destruct mats as [is|]; [|reflexivity].
    assert (E : map_res (fun i => ev (stat_at h' i) (wl_of k0)) is = map_res (fun i => ev (stat_at h i) (wl_of k0)) is).
    { assert (H' : forall i, In i is -> stat_at h' i = stat_at h i) by (intros i Hi; apply H; now right). clear - H'. induction is as [|j is IH]; [reflexivity|]. cbn [map_res].
      rewrite (H' j (or_introl eq_refl)), IH; [reflexivity|]. intros i Hi. apply H'. now right. }
    now rewrite E.
  Qed.
  Lemma outP_same v h h' m : (forall i, In i (snd v :: match snd (fst v) with Some l => l | None => [] end) -> stat_at h' i = stat_at h i) -> outP v h' m = outP v h m.
  Proof. intros H. destruct m; cbn [outP]; unfold runP; now rewrite (permP_same _ _ _ _ h' k0 H). Qed.

  Lemma prun_ok os : forall d p h, wfh h -> coherent d p h -> let (p', h') := prun sj sy jr (p, h) os in
    coherent (last_dev d os) p' h' /\ wfh h' /\ values_of p' = values_of p /\ same_stat h h'.
  Proof.
    induction os as [|o os IH]; intros d p h Hw Hc; [cbn; split; [exact Hc|]; split; [exact Hw|]; split; [reflexivity|apply same_stat_refl]|].
    cbn [prun fold_left last_dev]. fold (prun sj sy jr (pstep sj sy jr (p, h) o) os). destruct o as [d'|m]; cbn [pstep fst snd].
    - destruct (set_device_ok d d' p h Hw Hc) as (h' & p' & -> & W & G & _ & _ & C' & V). specialize (IH d' p' h' W C'). destruct (prun sj sy jr (p', h') os) as [p2 h2].
      destruct IH as (I1 & I2 & I3 & I4). split; [exact I1|]. split; [exact I2|]. split; [congruence|]. apply same_stat_trans with h'; [eapply grow_stat; exact G|exact I4].
    - pose proof (invoke_ok d p h m Hw Hc) as G. destruct (invoke sj sy jr p m h) as [h' r]. destruct G as (G1 & G2 & _). cbn [fst].
      specialize (IH d p h' G1 (coherent_heq _ _ _ _ G1 G2 Hc)). destruct (prun sj sy jr (p, h') os) as [p2 h2].
      destruct IH as (I1 & I2 & I3 & I4). split; [exact I1|]. split; [exact I2|]. split; [exact I3|]. apply same_stat_trans with h'; [now apply heq_stat|exact I4].
  Qed.
  Lemma addrs_values p : addrs p = snd (values_of p) :: match snd (fst (values_of p)) with Some l => l | None => [] end.
  Proof. reflexivity. Qed.
  Lemma same_results d d' p p' h h' m : wfh h -> wfh h' -> coherent d p h -> coherent d' p' h' -> values_of p' = values_of p -> same_stat h h' ->
    snd (invoke sj sy jr p' m h') = snd (invoke sj sy jr p m h).
  Proof.
    intros W W' Hc Hc' V S. pose proof (invoke_ok d p h m W Hc) as G. pose proof (invoke_ok d' p' h' m W' Hc') as G'.
    destruct (invoke sj sy jr p m h) as [h1 r]. destruct (invoke sj sy jr p' m h') as [h1' r']. destruct G as (_ & _ & ->). destruct G' as (_ & _ & ->). cbn [snd].
    rewrite V. apply outP_same. rewrite <- addrs_values. intros i Hi. destruct (co_mats _ _ _ Hc i Hi) as (m0 & E & _). eapply stat_at_same; eassumption.
  Qed.
  Lemma history d p h os m : wfh h -> coherent d p h -> let (p', h') := prun sj sy jr (p, h) os in
    coherent (last_dev d os) p' h' /\ values_of p' = values_of p /\ snd (invoke sj sy jr p' m h') = snd (invoke sj sy jr p m h).
  Proof.
    intros Hw Hc. pose proof (prun_ok os d p h Hw Hc) as G. destruct (prun sj sy jr (p, h) os) as [p' h']. destruct G as (G1 & G2 & G3 & G4).
    split; [exact G1|]. split; [exact G3|]. eapply same_results; eassumption.
  Qed.

  (** ** sharing *)
  Lemma same_device_safe d p h a h' p2 m : wfh h -> coherent d p h -> new_particle a h = (h', Ok p2) -> device_of a = d ->
    coherent d p h' /\ snd (invoke sj sy jr p m h') = snd (invoke sj sy jr p m h).
  Proof.
    intros Hw Hc Hn Hd. destruct (new_ok_sane _ _ _ _ Hn) as (_ & _ & _ & _ & _ & _ & G & F). rewrite Hd in G, F.
    assert (Hw' : wfh h') by (eapply grow_wfh; eassumption).
    assert (Hc' : coherent d p h').
    { destruct Hc as [H1 H2 H3 H4 H5]. split; auto. intros i Hi. destruct (H5 i Hi) as (m0 & E & O). destruct (G i m0 E) as [E'|E']; [eauto|]. eexists. split; [exact E'|apply move_on]. }
    split; [exact Hc'|]. eapply same_results; try eassumption; [reflexivity|]. eapply grow_stat. exact G.
  Qed.
  Lemma disjoint_safe d p h a h' p2 m : wfh h -> coherent d p h -> new_particle a h = (h', Ok p2) ->
    (forall i, In i (addrs p) -> ~ In i (obj_ids (mat_args a))) ->
    coherent d p h' /\ snd (invoke sj sy jr p m h') = snd (invoke sj sy jr p m h).
  Proof.
    intros Hw Hc Hn Hd. destruct (new_ok_sane _ _ _ _ Hn) as (_ & _ & _ & _ & _ & Fr & G & F).
    assert (Hw' : wfh h') by (eapply grow_wfh; eassumption).
    assert (Hc' : coherent d p h').
    { destruct Hc as [H1 H2 H3 H4 H5]. split; auto. intros i Hi. destruct (H5 i Hi) as (m0 & E & O). exists m0. split; [|exact O]. rewrite Fr; [exact E|eapply nth_valid; exact E|now apply Hd]. }
    split; [exact Hc'|]. eapply same_results; try eassumption; [reflexivity|]. eapply grow_stat. exact G.
  Qed.
  (* the operations of a second particle with other materials *)
  Lemma other_moves_safe d d2 p q h d' m : wfh h -> coherent d p h -> coherent d2 q h -> (forall i, In i (addrs p) -> ~ In i (addrs q)) ->
    exists h' q', set_device d' q h = (h', Ok q') /\ coherent d p h' /\ snd (invoke sj sy jr p m h') = snd (invoke sj sy jr p m h).
  Proof.
    intros Hw Hc Hq Hd. destruct (set_device_ok d2 d' q h Hw Hq) as (h' & q' & E & W & G & _ & Fr & _ & _). exists h', q'. split; [exact E|].
    assert (Hc' : coherent d p h').
    { destruct Hc as [H1 H2 H3 H4 H5]. split; auto. intros i Hi. destruct (H5 i Hi) as (m0 & E0 & O). exists m0. split; [|exact O]. rewrite Fr; [exact E0|now apply Hd]. }
    split; [exact Hc'|]. eapply same_results; try eassumption; [reflexivity|]. eapply grow_stat. exact G.
  Qed.
  (* evaluating any particle never disturbs another *)
  Lemma other_calls_safe d d2 p q h m m' : wfh h -> coherent d p h -> coherent d2 q h ->
    let h' := fst (invoke sj sy jr q m' h) in coherent d p h' /\ snd (invoke sj sy jr p m h') = snd (invoke sj sy jr p m h).
  Proof.
    intros Hw Hc Hq. pose proof (invoke_ok d2 q h m' Hw Hq) as G. destruct (invoke sj sy jr q m' h) as [h' r]. destruct G as (G1 & G2 & _). cbn [fst].
    pose proof (coherent_heq _ _ _ _ G1 G2 Hc) as Hc'. split; [exact Hc'|]. eapply same_results; try eassumption; [reflexivity|now apply heq_stat].
  Qed.
  (* and the failure *)
  Lemma eval_mats_dev a is : forall h us, wfh h -> snd (@eval_mats R ROps a is h) = Ok us -> forall i m, nth_error h i = Some m -> In i is ->
    exists u, In u us /\ forall ix, v_dev (at_ u ix) = mdev m.
  Proof.
    induction is as [|j is IH]; intros h us Hw H i m E Hin; [destruct Hin|]. cbn [eval_mats] in H. unfold bnd in H.
    destruct (nth_error h j) as [mj|] eqn:Ej; [|unfold eval_mat, with_mat in H; rewrite Ej in H; discriminate].
    pose proof (eval_mat_ok a j h mj Hw Ej) as G. destruct (eval_mat a j h) as [h1 [u|e]]; [|discriminate]. destruct G as (G1 & G2 & G3).
    specialize (IH h1). destruct (eval_mats a is h1) as [h2 [us'|e]]; [|discriminate]. cbn in H. injection H as <-.
    destruct Hin as [->|Hin].
    - exists u. split; [now left|]. unfold eval_out in G3. assert (mj = m) by congruence. subst mj. destruct (ev (mstat m) (wa_t a)); [|discriminate]. destruct G3 as (u' & Eu & _ & Du). injection Eu as <-. exact Du.
    - destruct (G2 i m E) as (m' & E' & _ & D'). destruct (IH us' G1 eq_refl i m' E' Hin) as (u' & Hu & Du). exists u'. split; [now right|]. intros ix. rewrite Du. exact D'.
  Qed.
  Lemma wrong_device_fails p h i m k0 src kw : wfh h -> uses p i -> nth_error h i = Some m -> mdev m <> p_dev p ->
    forall o, snd (run_call sj sy jr p k0 src kw h) <> Ok o.
  Proof.
    intros Hw Hu E Hd o. unfold run_call, bnd at 1. unfold permittivities. set (a := {| wa_t := wl0 k0; wa_src := src |}). unfold bnd at 1.
    destruct (nth_error h (p_env p)) as [me|] eqn:Ee; [|unfold eval_mat, with_mat; rewrite Ee; discriminate].
    pose proof (eval_mat_ok a _ h me Hw Ee) as G. destruct (eval_mat a (p_env p) h) as [h1 [u|e]]; [|discriminate]. destruct G as (G1 & G2 & G3).
    unfold eval_out in G3. destruct (ev (mstat me) (wa_t a)); [|discriminate]. destruct G3 as (u' & Eu & _ & Du). injection Eu as <-.
    assert (Dv : td (dten_of u) = mdev me) by (cbn; apply Du).
    destruct Hu as [->|(Hne & l & Hl & Hin)].
    - assert (me = m) by congruence. subst me.
      assert (K : forall (c : @call R) (e : dten C) (hh : @heap R), snd (bnd (lift (mie_coefficients sj sy jr c)) (fun o => if devices_ok c (p_dev p) (td (p_r p)) (td e) (td (dten_of u)) then ret o else fail RuntimeError) hh) <> Ok o).
      { intros c ee hh. unfold bnd, lift. destruct (mie_coefficients sj sy jr c); [|discriminate]. unfold devices_ok. rewrite Dv.
        rewrite (proj2 (String.eqb_neq (p_dev p) (mdev m))) by congruence. discriminate. }
      destruct (p_eps p); [unfold ret; apply K|]. destruct (p_mats p) as [is|]; [|discriminate]. unfold bnd at 1. destruct (eval_mats a is h1) as [h2 [us|]]; [|discriminate].
      unfold bnd at 1. unfold lift at 1. destruct (stack 0 us); [|discriminate]. destruct us as [|u0 us]; [discriminate|]. destruct (forallb _ _); [|discriminate]. unfold ret at 1. apply K.
    - rewrite Hne, Hl. unfold bnd at 1. destruct (G2 i m E) as (m' & E' & _ & D'). pose proof (fun us H => eval_mats_dev a l h1 us G1 H i m' E' Hin) as Hdev.
      destruct (eval_mats a l h1) as [h2 [us|]]; [|discriminate]. destruct (Hdev us eq_refl) as (ui & Hui & Dui).
      unfold bnd at 1. unfold lift at 1. destruct (stack 0 us); [|discriminate]. destruct us as [|u0 us]; [discriminate|]. destruct (forallb _ _) eqn:Ef; [|discriminate]. unfold ret at 1.
      rewrite forallb_forall in Ef. specialize (Ef ui Hui). apply String.eqb_eq in Ef. unfold dev_of in Ef at 1. rewrite Dui, D' in Ef.
      unfold bnd, lift. cbn [fst snd td]. destruct (mie_coefficients sj sy jr _); [|discriminate]. unfold devices_ok. rewrite <- Ef.
      destruct (String.eqb (p_dev p) (td (dten_of u))) eqn:E1; [|discriminate]. apply String.eqb_eq in E1.
      rewrite (proj2 (String.eqb_neq (mdev m) (td (dten_of u)))) by congruence. discriminate.
  Qed.
  Lemma shared_breaks d1 p1 h a h' p2 i k0 src kw : wfh h -> coherent d1 p1 h -> uses p1 i -> new_particle a h = (h', Ok p2) ->
    In i (addrs p2) -> i < List.length h -> device_of a <> d1 -> coherent (device_of a) p2 h' ->
    forall o, snd (run_call sj sy jr p1 k0 src kw h') <> Ok o.
  Proof.
    intros Hw Hc Hu Hn Hin Hi Hd Hc2. destruct (new_ok_sane _ _ _ _ Hn) as (_ & _ & _ & _ & _ & _ & G & F).
    destruct (co_mats _ _ _ Hc2 i Hin) as (m & E & O). eapply wrong_device_fails; [eapply grow_wfh; eassumption|exact Hu|exact E|].
    rewrite (on_dev _ _ O), (co_dev _ _ _ Hc). exact Hd.
  Qed.

  (** ** dictionaries *)
  Lemma squeeze_squeezed {A} (t : tensor A) : squeezed t (squeeze t).
  Proof. split; [reflexivity|apply entries_squeeze]. Qed.
  Lemma squeeze_dict_ok d : squeezed_dict d (squeeze_dimensions d).
  Proof.
    unfold squeezed_dict, squeeze_dimensions. induction d as [|[k v] d IH]; [constructor|]. cbn [map]. constructor; [|exact IH]. split; [reflexivity|].
    destruct v; cbn; try apply squeeze_squeezed. reflexivity.
  Qed.
End Calls.
