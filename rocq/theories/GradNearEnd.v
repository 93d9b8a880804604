(** The near fields on dual numbers hold value and derivative (C87). *)
From Coq Require Import Reals ZArith Lra Lia List Bool Arith.
From Coquelicot Require Import Coquelicot.
From Verif Require Import Ops ROps Spec CTrig CLemmas ModelSpecial ModelMie ModelNear ModelGrad ModelGradNear GradSpec GradNearSpec GradOps GradPena GradStack GradObs GradNear StackConsequences.
Import ListNotations.
Open Scope R_scope.
Arguments Cmod x%C_scope.
Arguments off z%C_scope.

Section Regions.
  Variable t0 : R.
  Notation car := (carries t0).
  Notation cc := (ccarries t0).
  Notation cv := (carries_vec t0).

  Lemma lt_loc f g df dg : car f df -> car g dg -> f t0 < g t0 -> locally t0 (fun t => f t < g t).
  Proof.
    intros Hf Hg L. pose proof (car_sub t0 _ _ _ _ Hg Hf) as H.
    assert (L' : 0 < g t0 + - f t0) by lra. pose proof (car_cont t0 _ _ H _ (open_gt 0 _ L')) as Q.
    eapply filter_imp; [|exact Q]. intros t Ht. cbv beta in Ht. cbn in Ht. lra.
  Qed.
  Lemma ltb_loc f g df dg : car f df -> car g dg -> f t0 <> g t0 -> locally t0 (fun t => @rltb R ROps (f t) (g t) = @rltb dual DOps df dg).
  Proof.
    intros Hf Hg N. cbn [rltb ROps DOps]. rewrite <- (proj1 Hf), <- (proj1 Hg).
    destruct (Rtotal_order (f t0) (g t0)) as [L|[E|L]]; [| contradiction |]; [pose proof (lt_loc f g df dg Hf Hg L) as Q|pose proof (lt_loc g f dg df Hg Hf L) as Q];
      (eapply filter_imp; [|exact Q]); intros t Ht; unfold Rltb; destruct (Rlt_dec (f t) (g t)), (Rlt_dec (f t0) (g t0)); (reflexivity || lra).
  Qed.
  Lemma leb_loc f g df dg : car f df -> car g dg -> f t0 <> g t0 -> locally t0 (fun t => @rleb R ROps (f t) (g t) = @rleb dual DOps df dg).
  Proof.
    intros Hf Hg N. cbn [rleb ROps DOps]. rewrite <- (proj1 Hf), <- (proj1 Hg).
    destruct (Rtotal_order (f t0) (g t0)) as [L|[E|L]]; [| contradiction |]; [pose proof (lt_loc f g df dg Hf Hg L) as Q|pose proof (lt_loc g f dg df Hg Hf L) as Q];
      (eapply filter_imp; [|exact Q]); intros t Ht; unfold Rleb; destruct (Rle_dec (f t) (g t)), (Rle_dec (f t0) (g t0)); (reflexivity || lra).
  Qed.
  Lemma nth_car fs ds : Forall2 car fs ds -> forall i, (i < length fs)%nat -> exists f, In f fs /\ car f (nth i ds (@rzero dual DOps)) /\ forall t, nth i (map (fun f => f t) fs) (@rzero R ROps) = f t.
  Proof.
    induction 1 as [|f d fs ds Hf _ IH]; intros i Hi; cbn [length] in Hi; [lia|]. destruct i as [|i].
    - exists f. split; [now left|]. split; [exact Hf|reflexivity].
    - destruct (IH i ltac:(lia)) as (g & G1 & G2 & G3). exists g. split; [now right|]. split; [exact G2|exact G3].
  Qed.
  Lemma last_nth {A} (l : list A) d : last l d = nth (length l - 1) l d.
  Proof. induction l as [|a l IH]; [reflexivity|]. destruct l as [|b l]; [reflexivity|]. change (last (a :: b :: l) d) with (last (b :: l) d). rewrite IH. cbn [length nth]. replace (S (S (length l)) - 1)%nat with (S (length l)) by lia. replace (S (length l) - 1)%nat with (length l) by lia. reflexivity. Qed.
  Lemma imp (A B : R -> Prop) : (forall t : R, A t -> B t) -> forall t : R_UniformSpace, A t -> B t.
  Proof. intros H. exact H. Qed.
  Lemma in_region_loc fs ds r dr li : Forall2 car fs ds -> car r dr -> (forall f, In f fs -> r t0 <> f t0) -> fs <> [] -> (li <= length fs)%nat ->
    locally t0 (fun t : R => @in_region R ROps (map (fun f : R -> R => f t) fs) (r t) li = @in_region dual DOps ds dr li).
  Proof.
    intros HF Hr Hne Hf Hli. assert (Hlen : length ds = length fs) by (clear - HF; induction HF; cbn; congruence).
    assert (Hl0 : (0 < length fs)%nat) by (destruct fs; [contradiction|cbn; lia]).
    pose proof (nth_car fs ds HF) as HN.
    destruct (Nat.eqb_spec li (length fs)) as [E|E].
    - destruct (HN (length fs - 1)%nat ltac:(lia)) as (f & F1 & F2 & F3).
      assert (Q1 : f t0 <> r t0) by (intros Q; apply (Hne f F1); now symmetry).
      eapply filter_imp; [|exact (ltb_loc f r _ _ F2 Hr Q1)]. apply imp. intros t Ht. cbv beta in *. unfold in_region.
      rewrite !last_nth, map_length, Hlen, F3, E, !Nat.eqb_refl. exact Ht.
    - assert (E' : (li =? length fs)%nat = false) by now apply Nat.eqb_neq.
      destruct li as [|j].
      + destruct (HN 0%nat Hl0) as (f & F1 & F2 & F3).
        eapply filter_imp; [|exact (leb_loc r f _ _ Hr F2 (Hne f F1))]. apply imp. intros t Ht. cbv beta in *. unfold in_region.
        rewrite map_length, Hlen, E', F3. exact Ht.
      + destruct (HN j ltac:(lia)) as (f & F1 & F2 & F3). destruct (HN (S j) ltac:(lia)) as (g & G1 & G2 & G3).
        assert (Q1 : f t0 <> r t0) by (intros Q; apply (Hne f F1); now symmetry).
        pose proof (filter_and _ _ (ltb_loc f r _ _ F2 Hr Q1) (leb_loc r g _ _ Hr G2 (Hne g G1))) as Q.
        eapply filter_imp; [|exact Q]. apply imp. intros t [A B]. cbv beta in *. unfold in_region. rewrite map_length, Hlen, E', F3, G3, A, B. reflexivity.
  Qed.
  Lemma in_region_contains (layers : list (R * C)) r li : (li <= length layers)%nat -> layers <> [] ->
    @in_region R ROps (map fst layers) r li = true -> contains layers r li.
  Proof.
    intros Hli Hne. unfold in_region, contains. rewrite map_length. destruct (Nat.eqb_spec li (length layers)) as [E|E].
    - rewrite last_nth, map_length. intros Q. cbn [rltb ROps] in Q. unfold Rltb in Q. destruct (Rlt_dec _ _) as [L|L] in Q; [|discriminate]. split; [|lia].
      destruct li as [|j]; [exact I|]. replace (length layers - 1)%nat with j in L by lia. exact L.
    - destruct li as [|j]; cbn [rltb rleb ROps]; intros Q.
      + split; [exact I|]. intros _. unfold Rleb in Q. destruct (Rle_dec _ _) as [L|L] in Q; [exact L|discriminate].
      + apply andb_prop in Q. destruct Q as [Q1 Q2]. unfold Rltb in Q1. unfold Rleb in Q2.
        destruct (Rlt_dec _ _) as [L|L] in Q1; [|discriminate]. destruct (Rle_dec _ _) as [L'|L'] in Q2; [|discriminate]. split; [exact L|]. intros _. exact L'.
  Qed.
  Lemma cv_fold (B : R -> nat -> bool) (dB : nat -> bool) (F : R -> nat -> @vec3 R) (G : nat -> @vec3 dual) (l : list nat) :
    (forall li, In li l -> locally t0 (fun t => B t li = dB li)) -> (forall li, In li l -> dB li = true -> cv (fun t => F t li) (G li)) ->
    forall acc dacc, cv acc dacc -> cv (fun t => fold_left (fun a li => if B t li then F t li else a) l (acc t)) (fold_left (fun a li => if dB li then G li else a) l dacc).
  Proof.
    induction l as [|li l IH]; intros HB HF acc dacc Ha; cbn [fold_left]; [exact Ha|].
    apply (IH (fun m Hm => HB m (or_intror Hm)) (fun m Hm => HF m (or_intror Hm)) (fun t => if B t li then F t li else acc t)).
    apply (cv_loc t0 (fun t => if dB li then F t li else acc t)).
    - eapply filter_imp; [|exact (HB li (or_introl eq_refl))]. intros t Ht. cbv beta in Ht. rewrite Ht. reflexivity.
    - pose proof (HF li (or_introl eq_refl)) as Q. destruct (dB li); [exact (Q eq_refl)|exact Ha].
  Qed.
End Regions.

Section End.
  Variables (t0 : R) (n_max : nat) (k0 : R -> R) (env : R -> C) (core : R -> (R * C)%type) (shells : list (R -> (R * C)%type)) (E0 : R -> C) (P : R -> @point R).
  Variables (dk : dual) (denv : cplx dual) (dcore : dual * cplx dual) (dshells : list (dual * cplx dual)) (dE : cplx dual) (dP : @point dual).
  Notation car := (carries t0).
  Notation cc := (ccarries t0).
  Notation cv := (carries_vec t0).
  Hypothesis Hk : car k0 dk.
  Hypothesis He : cc env denv.
  Hypothesis Hc : carries_shell t0 core dcore.
  Hypothesis HF : Forall2 (carries_shell t0) shells dshells.
  Hypothesis HE : cc E0 dE.
  Hypothesis HP : carries_point t0 P dP.
  Let sh (t : R) : list (R * C) := map (fun s => s t) shells.
  Hypothesis Hs : smooth_field n_max (k0 t0) (env t0) (core t0) (sh t0) (pt_r (P t0)).

  Let fs : list (R -> R) := map (fun (s : R -> (R * C)%type) t => fst (s t)) (core :: shells).
  Lemma radii_fs t : @radii R (core t) (sh t) = map (fun f => f t) fs.
  Proof. unfold radii, fs, sh. cbn [map]. rewrite !map_map. reflexivity. Qed.
  Lemma HFS : Forall2 car fs (@radii dual dcore dshells).
  Proof.
    unfold fs, radii. cbn [map]. constructor; [exact (proj1 Hc)|]. clear - HF. induction HF as [|s d ss ds H HR IH]; cbn [map]; constructor; [exact (proj1 H)|]. apply IH. exact HR.
  Qed.
  Lemma len_fs : length fs = S (length shells). Proof. unfold fs. now rewrite map_length. Qed.
  Lemma len_d : length dshells = length shells. Proof. clear - HF. induction HF as [|s d ss ds H HR IH]; [reflexivity|]. cbn [length]. f_equal. apply IH. exact HR. Qed.
  Lemma len_rad_d : length (@radii dual dcore dshells) = S (length shells). Proof. unfold radii. rewrite map_length. cbn [length]. now rewrite len_d. Qed.
  Lemma len_rad t : length (@radii R (core t) (sh t)) = S (length shells). Proof. rewrite radii_fs, map_length. apply len_fs. Qed.
  Lemma r_off f : In f fs -> pt_r (P t0) <> f t0.
  Proof.
    intros Hf. destruct Hs as (_ & H & _). unfold fs in Hf. apply in_map_iff in Hf. destruct Hf as (s & <- & Hs').
    apply H. unfold sh. destruct Hs' as [<-|Hs']; [now left|]. right. now apply (in_map (fun s => s t0)).
  Qed.
  Lemma region_loc li : (li <= S (length shells))%nat ->
    locally t0 (fun t => @in_region R ROps (@radii R (core t) (sh t)) (pt_r (P t)) li = @in_region dual DOps (@radii dual dcore dshells) (pt_r dP) li).
  Proof.
    intros Hli. eapply filter_imp; [intros t Ht; rewrite radii_fs; exact Ht|]. apply in_region_loc; [apply HFS|apply HP|apply r_off|unfold fs; discriminate|]. now rewrite len_fs.
  Qed.
  Lemma env_cut : off_cut (env t0). Proof. apply Hs. Qed.
  Lemma env_sqrt : cc (fun t => @csqrt R ROps (env t)) (dsqrt denv). Proof. apply cc_sqrt; [exact He|exact env_cut]. Qed.
  Lemma media li : (li <= S (length shells))%nat -> cc (fun t => n_medium (env t) (core t) (sh t) li) (grad_medium denv dcore dshells li).
  Proof.
    intros Hli. unfold n_medium, grad_medium. rewrite len_rad_d.
    destruct (Nat.eqb_spec li (S (length shells))) as [E|E].
    - eapply cc_ext; [|exact env_sqrt]. intros t. cbv beta. rewrite len_rad. rewrite (proj2 (Nat.eqb_eq _ _) E). reflexivity.
    - apply (cc_ext t0 (fun t => @csqrt R ROps (snd (nth li (core t :: sh t) (core t))))).
      { intros t. rewrite len_rad. rewrite (proj2 (Nat.eqb_neq _ _) E). reflexivity. }
      apply cc_sqrt.
      + destruct li as [|j]; [exact (proj2 Hc)|]. cbn [nth]. assert (Hj : (j < length shells)%nat) by lia. unfold sh. clear - HF Hj. revert j Hj.
        induction HF as [|s d ss ds H HR IH]; intros j Hj; cbn [length] in Hj; [lia|]. destruct j as [|j]; cbn [map nth]; [exact (proj2 H)|]. apply IH; [exact HR|lia].
      + destruct Hs as ((_ & Oc & Os & _) & _). destruct li as [|j]; [exact Oc|]. cbn [nth].
        assert (Hj : (j < length (sh t0))%nat) by (unfold sh; rewrite map_length; lia).
        rewrite Forall_forall in Os. apply (Os (nth j (sh t0) (core t0))). now apply nth_In.
  Qed.
  Lemma amps_ok n i : (1 <= n <= n_max)%nat -> carries_amps t0 (fun t => nth i (amplitudes n_max 15 (k0 t) (env t) (core t) (sh t) n) amp0) (nth i (grad_amplitudes n_max 15 dk denv dcore dshells n) amp0).
  Proof.
    intros Hn. destruct Hs as ((Oe & Oc & Os & Hst) & _ & Hsp & _). specialize (Hst n Hn). specialize (Hsp n Hn).
    set (layer := fun (re : R -> (R * C)%type) (t : R) => @layer_of R ROps (k0 t) (env t) (re t)).
    assert (HF' : Forall2 (carries_layer t0) (map layer shells) (map (grad_layer dk denv) dshells)).
    { clear Hst Hsp. unfold sh in Os. clear - HF Os Oe Hk He. induction HF as [|s ds ss dss H1 HR IH]; cbn [map] in *; constructor.
      - inversion Os; subst. apply cl_layer_of; assumption.
      - inversion Os; subst. apply IH; assumption. }
    assert (EL : forall t, map (@layer_of R ROps (k0 t) (env t)) (sh t) = map (fun l => l t) (map layer shells)) by (intros t; unfold sh; rewrite !map_map; reflexivity).
    rewrite EL in Hst, Hsp.
    pose proof (ca_amps t0 n_max 15 (layer core) (map layer shells) (grad_layer dk denv dcore) _ n (proj1 Hn)
      (cl_layer_of t0 k0 env core dk denv dcore Hk He Hc Oe Oc) HF' Hst Hsp i) as Q.
    unfold grad_amplitudes. destruct Q as (Q1 & Q2 & Q3 & Q4).
    split; [|split; [|split]]; (eapply cc_ext; [|eassumption]); intros t; cbv beta; unfold amplitudes; rewrite EL; reflexivity.
  Qed.
  Lemma vsh_ok li kd n : (li <= S (length shells))%nat -> (1 <= n <= n_max)%nat -> contains (core t0 :: sh t0) (pt_r (P t0)) li ->
    carries_vsh t0 (fun t => vsh_pena n_max 15 (k0 t) (n_medium (env t) (core t) (sh t) li) (pt_r (P t)) (pt_theta (P t)) (pt_phi (P t)) kd n) (grad_vsh n_max 15 dk denv dcore dshells dP li kd n).
  Proof.
    intros Hli Hn Hco. destruct HP as (P1 & P2 & P3). pose proof (media li Hli) as Hm.
    assert (Hlen : length (core t0 :: sh t0) = S (length shells)) by (unfold sh; cbn [length]; now rewrite map_length).
    destruct Hs as (_ & _ & _ & Hrho). specialize (Hrho li n). rewrite Hlen in Hrho. specialize (Hrho Hli Hco Hn). cbv zeta in Hrho.
    assert (Ei : index_of (env t0) (core t0 :: sh t0) li = n_medium (env t0) (core t0) (sh t0) li).
    { unfold index_of, n_medium. rewrite Hlen, len_rad. destruct (Nat.eqb_spec li (S (length shells))) as [E|E]; [reflexivity|].
      f_equal. rewrite (nth_indep _ (env t0) (snd (core t0))) by (rewrite map_length, Hlen; lia). apply map_nth. }
    rewrite Ei in Hrho. destruct Hrho as [Hr0 Hsa]. unfold grad_vsh.
    apply (cvsh_pena t0 n_max 15 k0 (fun t => n_medium (env t) (core t) (sh t) li) (fun t => pt_r (P t)) (fun t => pt_theta (P t)) (fun t => pt_phi (P t))); assumption.
  Qed.
  Lemma orders_ok li n : (li <= S (length shells))%nat -> (1 <= n <= n_max)%nat -> contains (core t0 :: sh t0) (pt_r (P t0)) li ->
    cv (fun t => E_order n_max 15 (k0 t) (env t) (core t) (sh t) (E0 t) (P t) li n) (grad_E_order n_max 15 dk denv dcore dshells dE dP li n) /\
    cv (fun t => H_order n_max 15 (k0 t) (env t) (core t) (sh t) (E0 t) (P t) li n) (grad_H_order n_max 15 dk denv dcore dshells dE dP li n).
  Proof.
    intros Hli Hn Hco.
    destruct (cv_region t0 E0 dE _ _ (Nat.eqb li (S (length shells))) _ _ _ _ _ _ n (proj1 Hn) HE (media li Hli) (amps_ok n li Hn) (vsh_ok li false n Hli Hn Hco) (vsh_ok li true n Hli Hn Hco)) as [Q1 Q2].
    unfold grad_E_order, grad_H_order. rewrite len_rad_d.
    split; (eapply cv_ext; [|eassumption]); intros t; cbv beta; unfold E_order, H_order; rewrite len_rad; reflexivity.
  Qed.
  Lemma to_cart (F : R -> nat -> nat -> @vec3 R) (G : nat -> nat -> @vec3 dual) :
    (forall li n, (li <= S (length shells))%nat -> (1 <= n <= n_max)%nat -> contains (core t0 :: sh t0) (pt_r (P t0)) li -> cv (fun t => F t li n) (G li n)) ->
    cv (fun t => to_cartesian n_max (core t) (sh t) (P t) (F t)) (to_cartesian n_max dcore dshells dP G).
  Proof.
    intros H. destruct HP as (P1 & P2 & P3). unfold to_cartesian.
    apply (cv_sum t0 (orders n_max) (fun t n => field_to_xyz (pt_theta (P t)) (pt_phi (P t)) (masked (core t) (sh t) (P t) (fun li => F t li n)))
      (fun n => field_to_xyz (pt_theta dP) (pt_phi dP) (masked dcore dshells dP (fun li => G li n)))).
    intros n Hn. assert (Hn' : (1 <= n <= n_max)%nat) by (unfold orders in Hn; apply in_seq in Hn; lia).
    apply (cv_xyz t0 (fun t => pt_theta (P t)) (fun t => pt_phi (P t)) (fun t => masked (core t) (sh t) (P t) (fun li => F t li n))); [exact P2|exact P3|].
    unfold masked. rewrite len_rad_d.
    apply (cv_ext t0 (fun t => fold_left (fun acc li => if in_region (radii (core t) (sh t)) (pt_r (P t)) li then F t li n else acc) (seq 0 (S (S (length shells)))) vzero)).
    { intros t. rewrite len_rad. reflexivity. }
    apply (cv_fold t0 (fun t li => in_region (radii (core t) (sh t)) (pt_r (P t)) li) (in_region (radii dcore dshells) (pt_r dP)) (fun t li => F t li n) (fun li => G li n)) with (acc := fun _ => vzero).
    - intros li Hli. apply in_seq in Hli. apply region_loc. lia.
    - intros li Hli Hb. apply in_seq in Hli. apply H; [lia|exact Hn'|]. apply in_region_contains; [cbn [length]; unfold sh; rewrite map_length; lia|discriminate|].
      rewrite <- Hb. exact (locally_singleton _ _ (region_loc li ltac:(lia))).
    - apply cv_zero.
  Qed.
  Lemma E_s_ok : cv (fun t => E_s n_max 15 (k0 t) (env t) (core t) (sh t) (E0 t) (P t)) (grad_E_s n_max 15 dk denv dcore dshells dE dP).
  Proof. apply (to_cart (fun t => E_order n_max 15 (k0 t) (env t) (core t) (sh t) (E0 t) (P t))). intros li n A B D. exact (proj1 (orders_ok li n A B D)). Qed.
  Lemma H_s_ok : cv (fun t => H_s n_max 15 (k0 t) (env t) (core t) (sh t) (E0 t) (P t)) (grad_H_s n_max 15 dk denv dcore dshells dE dP).
  Proof. apply (to_cart (fun t => H_order n_max 15 (k0 t) (env t) (core t) (sh t) (E0 t) (P t))). intros li n A B D. exact (proj2 (orders_ok li n A B D)). Qed.
  Lemma phase_ok : cc (fun t => phase (k0 t) (env t) (P t)) (grad_phase dk denv dP).
  Proof.
    destruct HP as (P1 & P2 & P3). unfold phase, grad_phase. apply cc_exp. apply kmul; [|apply kofr; apply (rcosk t0 (fun t => pt_theta (P t))); exact P2].
    apply kmul; [|now apply kofr]. apply (kmul t0 (fun _ => ci)); [apply ki|]. unfold k_env, grad_k. apply kmul; [now apply kofr|exact env_sqrt].
  Qed.
  Lemma E_i_ok : cv (fun t => E_i (k0 t) (env t) (E0 t) (P t)) (grad_E_i dk denv dE dP).
  Proof. unfold E_i, grad_E_i. apply (cv_mk t0 (fun t => cmul (E0 t) (phase (k0 t) (env t) (P t))) (fun _ => czero) (fun _ => czero)); [|apply kzero|apply kzero]. apply kmul; [exact HE|exact phase_ok]. Qed.
  Lemma H_i_ok : cv (fun t => H_i (k0 t) (env t) (E0 t) (P t)) (grad_H_i dk denv dE dP).
  Proof.
    unfold H_i, grad_H_i. apply (cv_mk t0 (fun _ => czero) (fun t => cmul (cmul (E0 t) (csqrt (env t))) (phase (k0 t) (env t) (P t))) (fun _ => czero)); [apply kzero| |apply kzero].
    apply kmul; [|exact phase_ok]. apply kmul; [exact HE|exact env_sqrt].
  Qed.
  Lemma total_ok (S I : R -> @vec3 R) dS dI : cv S dS -> cv I dI ->
    cv (fun t => if outside (core t) (sh t) (P t) then vadd (S t) (I t) else S t) (if outside dcore dshells dP then vadd dS dI else dS).
  Proof.
    intros A B. unfold outside. rewrite len_rad_d. set (b := in_region (radii dcore dshells) (pt_r dP) (Datatypes.S (length shells))).
    apply (cv_loc t0 (fun t => if b then vadd (S t) (I t) else S t)).
    - eapply filter_imp; [|exact (region_loc (Datatypes.S (length shells)) (le_n _))]. intros t Ht. cbv beta in Ht. rewrite len_rad, Ht. reflexivity.
    - destruct b; [apply cv_add; assumption|assumption].
  Qed.
  Lemma E_t_ok : cv (fun t => E_t n_max 15 (k0 t) (env t) (core t) (sh t) (E0 t) (P t)) (grad_E_t n_max 15 dk denv dcore dshells dE dP).
  Proof. exact (total_ok _ _ _ _ E_s_ok E_i_ok). Qed.
  Lemma H_t_ok : cv (fun t => H_t n_max 15 (k0 t) (env t) (core t) (sh t) (E0 t) (P t)) (grad_H_t n_max 15 dk denv dcore dshells dE dP).
  Proof. exact (total_ok _ _ _ _ H_s_ok H_i_ok). Qed.
End End.

Lemma near_gradients (n_max : nat) (t0 : R) (k0 : R -> R) (env : R -> C) (core : R -> (R * C)%type) (shells : list (R -> (R * C)%type)) (E0 : R -> C) (P : R -> @point R)
    (dk : dual) (denv : cplx dual) (dcore : dual * cplx dual) (dshells : list (dual * cplx dual)) (dE : cplx dual) (dP : @point dual) :
  carries t0 k0 dk -> ccarries t0 env denv -> carries_shell t0 core dcore -> Forall2 (carries_shell t0) shells dshells -> ccarries t0 E0 dE -> carries_point t0 P dP ->
  let sh t := map (fun s => s t) shells in
  smooth_field n_max (k0 t0) (env t0) (core t0) (sh t0) (pt_r (P t0)) ->
  carries_vec t0 (fun t => E_s n_max 15 (k0 t) (env t) (core t) (sh t) (E0 t) (P t)) (grad_E_s n_max 15 dk denv dcore dshells dE dP) /\
  carries_vec t0 (fun t => H_s n_max 15 (k0 t) (env t) (core t) (sh t) (E0 t) (P t)) (grad_H_s n_max 15 dk denv dcore dshells dE dP) /\
  carries_vec t0 (fun t => E_i (k0 t) (env t) (E0 t) (P t)) (grad_E_i dk denv dE dP) /\
  carries_vec t0 (fun t => H_i (k0 t) (env t) (E0 t) (P t)) (grad_H_i dk denv dE dP) /\
  carries_vec t0 (fun t => E_t n_max 15 (k0 t) (env t) (core t) (sh t) (E0 t) (P t)) (grad_E_t n_max 15 dk denv dcore dshells dE dP) /\
  carries_vec t0 (fun t => H_t n_max 15 (k0 t) (env t) (core t) (sh t) (E0 t) (P t)) (grad_H_t n_max 15 dk denv dcore dshells dE dP).
Proof.
  intros Hk He Hc HF HE HP sh Hs.
  split; [|split; [|split; [|split; [|split]]]].
  - eapply E_s_ok; eassumption.
  - eapply H_s_ok; eassumption.
  - eapply E_i_ok; eassumption.
  - eapply H_i_ok; eassumption.
  - eapply E_t_ok; eassumption.
  - eapply H_t_ok; eassumption.
Qed.
