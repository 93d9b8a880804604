(** Region selection and end results for the near fields in rounded arithmetic (C108). *)
From Coq Require Import Reals ZArith Lra Lia List Bool Arith.
From Coquelicot Require Import Coquelicot.
From Verif Require Import Ops ROps Spec CTrig CLemmas ModelSpecial ModelMie ModelNear ModelRound ModelRoundNear RoundSpec RoundNearSpec GradSpec GradNearSpec GradOps GradPena GradStack GradObs StackConsequences RoundOps RoundPena RoundObs RoundNear RoundBinary RoundEnd.
From Verif Require GradNearEnd.
Import ListNotations.
Open Scope R_scope.
Arguments Cmod x%C_scope.
Arguments off z%C_scope.

(** ** comparisons *)
Lemma ev_prec : eventually (fun A => precise 1 A).
Proof. exists 1. split; [lra|]. intros A H. exact H. Qed.
Lemma ltb_ev f g x y : settles f x -> settles g y -> x <> y -> eventually (fun A => @rltb R (op A) (f A) (g A) = @rltb R ROps x y).
Proof.
  intros Hf Hg N. cbn [rltb ROps].
  destruct (Rtotal_order x y) as [L|[E|L]]; [| contradiction |]; [pose proof (st_lt f g x y Hf Hg L) as Q|pose proof (st_lt g f y x Hg Hf L) as Q];
    (eapply ev_imp; [|exact (ev_and _ _ ev_prec Q)]); intros A [HA Ht]; cbv beta in *; rewrite (pr_ltb _ _ HA); unfold Rltb; destruct (Rlt_dec (f A) (g A)), (Rlt_dec x y); (reflexivity || lra).
Qed.
Lemma leb_ev f g x y : settles f x -> settles g y -> x <> y -> eventually (fun A => @rleb R (op A) (f A) (g A) = @rleb R ROps x y).
Proof.
  intros Hf Hg N. cbn [rleb ROps].
  destruct (Rtotal_order x y) as [L|[E|L]]; [| contradiction |]; [pose proof (st_lt f g x y Hf Hg L) as Q|pose proof (st_lt g f y x Hg Hf L) as Q];
    (eapply ev_imp; [|exact (ev_and _ _ ev_prec Q)]); intros A [HA Ht]; cbv beta in *; rewrite (pr_leb _ _ HA); unfold Rleb; destruct (Rle_dec (f A) (g A)), (Rle_dec x y); (reflexivity || lra).
Qed.
Lemma nth_st fs xs : Forall2 settles fs xs -> forall i, (i < length fs)%nat -> exists f, In (nth i xs (@rzero R ROps)) xs /\ settles f (nth i xs (@rzero R ROps)) /\
  forall A d, nth i (map (fun f => f A) fs) d = f A.
Proof.
  induction 1 as [|f x fs xs Hf _ IH]; intros i Hi; cbn [length] in Hi; [lia|]. destruct i as [|i].
  - exists f. split; [now left|]. split; [exact Hf|reflexivity].
  - destruct (IH i ltac:(lia)) as (g & G1 & G2 & G3). exists g. split; [now right|]. split; [exact G2|exact G3].
Qed.
Lemma in_region_ev fs xs r x li : Forall2 settles fs xs -> settles r x -> (forall y, In y xs -> x <> y) -> fs <> [] -> (li <= length fs)%nat ->
  eventually (fun A => @in_region R (op A) (map (fun f => f A) fs) (r A) li = @in_region R ROps xs x li).
Proof.
  intros HF Hr Hne Hf Hli. assert (Hlen : length xs = length fs) by (clear - HF; induction HF; cbn; congruence).
  assert (Hl0 : (0 < length fs)%nat) by (destruct fs; [contradiction|cbn; lia]).
  pose proof (nth_st fs xs HF) as HN.
  destruct (Nat.eqb_spec li (length fs)) as [E|E].
  - destruct (HN (length fs - 1)%nat ltac:(lia)) as (f & F1 & F2 & F3).
    eapply ev_imp; [|exact (ltb_ev f r _ _ F2 Hr (not_eq_sym (Hne _ F1)))]. intros A Ht. cbv beta in *. unfold in_region.
    rewrite !GradNearEnd.last_nth, map_length, Hlen, F3, E, !Nat.eqb_refl. exact Ht.
  - assert (E' : (li =? length fs)%nat = false) by now apply Nat.eqb_neq.
    destruct li as [|j].
    + destruct (HN 0%nat Hl0) as (f & F1 & F2 & F3).
      eapply ev_imp; [|exact (leb_ev r f _ _ Hr F2 (Hne _ F1))]. intros A Ht. cbv beta in *. unfold in_region.
      rewrite map_length, Hlen, E', F3. exact Ht.
    + destruct (HN j ltac:(lia)) as (f & F1 & F2 & F3). destruct (HN (S j) ltac:(lia)) as (g & G1 & G2 & G3).
      pose proof (ev_and _ _ (ltb_ev f r _ _ F2 Hr (not_eq_sym (Hne _ F1))) (leb_ev r g _ _ Hr G2 (Hne _ G1))) as Q.
      eapply ev_imp; [|exact Q]. intros A [H1 H2]. cbv beta in *. unfold in_region. rewrite map_length, Hlen, E', F3, G3, H1, H2. reflexivity.
Qed.
Lemma cv_fold (B : arithmetic -> nat -> bool) (dB : nat -> bool) (F : arithmetic -> nat -> @vec3 R) (G : nat -> @vec3 R) (l : list nat) :
  (forall li, In li l -> eventually (fun A => B A li = dB li)) -> (forall li, In li l -> dB li = true -> cv (fun A => F A li) (G li)) ->
  forall acc dacc, cv acc dacc -> cv (fun A => fold_left (fun a li => if B A li then F A li else a) l (acc A)) (fold_left (fun a li => if dB li then G li else a) l dacc).
Proof.
  induction l as [|li l IH]; intros HB HF acc dacc Ha; cbn [fold_left]; [exact Ha|].
  apply (IH (fun m Hm => HB m (or_intror Hm)) (fun m Hm => HF m (or_intror Hm)) (fun A => if B A li then F A li else acc A)).
  apply (cv_ev (fun A => if dB li then F A li else acc A)).
  - eapply ev_imp; [|exact (HB li (or_introl eq_refl))]. intros A Ht. cbv beta in Ht. rewrite Ht. reflexivity.
  - pose proof (HF li (or_introl eq_refl)) as Q. destruct (dB li); [exact (Q eq_refl)|exact Ha].
Qed.

Section End.
  Variables (n_max : nat) (k0 : R) (env : C) (core : R * C) (shells : list (R * C)) (E0 : C) (P : @point R).
  Variables (qk : arithmetic -> R) (qenv : arithmetic -> C) (qcore : arithmetic -> R * C) (qshells : list (arithmetic -> R * C)) (qE : arithmetic -> C) (qP : arithmetic -> @point R).
  Hypothesis Hk : settles qk k0.
  Hypothesis He : csettles qenv env.
  Hypothesis Hc : settles_shell qcore core.
  Hypothesis HF : Forall2 settles_shell qshells shells.
  Hypothesis HE : csettles qE E0.
  Hypothesis HP : settles_point qP P.
  Hypothesis Hs : smooth_field n_max k0 env core shells (pt_r P).
  Let sh (A : arithmetic) : list (R * C) := map (fun s => s A) qshells.
  Let He' : cst qenv env := proj2 (cst_iff _ _) He.
  Let HE' : cst qE E0 := proj2 (cst_iff _ _) HE.
  Lemma Hc' : sst qcore core. Proof. split; [exact (proj1 Hc)|]. apply cst_iff, Hc. Qed.

  Let fs : list (arithmetic -> R) := map (fun (s : arithmetic -> R * C) A => fst (s A)) (qcore :: qshells).
  Lemma radii_fs A : @radii R (qcore A) (sh A) = map (fun f => f A) fs.
  Proof. unfold radii, fs, sh. cbn [map]. rewrite !map_map. reflexivity. Qed.
  Lemma HFS : Forall2 settles fs (@radii R core shells).
  Proof.
    unfold fs, radii. cbn [map]. constructor; [exact (proj1 Hc)|]. clear - HF. induction HF as [|s d ss ds H HR IH]; cbn [map]; constructor; [exact (proj1 H)|]. apply IH. exact HR.
  Qed.
  Lemma len_fs : length fs = S (length qshells). Proof. unfold fs. now rewrite map_length. Qed.
  Lemma len_q : length qshells = length shells. Proof. clear - HF. induction HF as [|s d ss ds H HR IH]; [reflexivity|]. cbn [length]. f_equal. apply IH. exact HR. Qed.
  Lemma len_rad : length (@radii R core shells) = S (length shells). Proof. unfold radii. rewrite map_length. reflexivity. Qed.
  Lemma len_radq A : length (@radii R (qcore A) (sh A)) = S (length shells). Proof. rewrite radii_fs, map_length, len_fs. now rewrite len_q. Qed.
  Lemma r_off y : In y (@radii R core shells) -> pt_r P <> y.
  Proof. intros Hf. destruct Hs as (_ & H & _). unfold radii in Hf. apply in_map_iff in Hf. destruct Hf as (s & <- & Hs'). now apply H. Qed.
  Lemma region_ev li : (li <= S (length shells))%nat ->
    eventually (fun A => @in_region R (op A) (@radii R (qcore A) (sh A)) (pt_r (qP A)) li = @in_region R ROps (@radii R core shells) (pt_r P) li).
  Proof.
    intros Hli. eapply ev_imp; [intros A Ht; rewrite radii_fs; exact Ht|]. apply in_region_ev; [apply HFS|apply HP|apply r_off|unfold fs; discriminate|]. now rewrite len_fs, len_q.
  Qed.
  Lemma env_cut : off_cut env. Proof. apply Hs. Qed.
  Lemma env_sqrt : cst (fun A => ar_root A (qenv A)) (@csqrt R ROps env). Proof. apply cst_root; [exact He'|exact env_cut]. Qed.
  Lemma media li : (li <= S (length shells))%nat -> cst (fun A => round_medium A (qenv A) (qcore A) (sh A) li) (@n_medium R ROps env core shells li).
  Proof.
    intros Hli. unfold n_medium, round_medium. rewrite len_rad.
    destruct (Nat.eqb_spec li (S (length shells))) as [E|E].
    - eapply cst_ext; [|exact env_sqrt]. intros A. cbv beta. rewrite len_radq. rewrite (proj2 (Nat.eqb_eq _ _) E). reflexivity.
    - apply (cst_ext (fun A => ar_root A (snd (nth li (qcore A :: sh A) (qcore A))))).
      { intros A. rewrite len_radq. rewrite (proj2 (Nat.eqb_neq _ _) E). reflexivity. }
      apply (cst_root (fun A => snd (nth li (qcore A :: sh A) (qcore A)))).
      + destruct li as [|j]; [exact (proj2 Hc')|]. cbn [nth]. assert (Hj : (j < length shells)%nat) by lia. unfold sh. clear - HF Hj. revert j Hj.
        induction HF as [|s d ss ds H HR IH]; intros j Hj; cbn [length] in Hj; [lia|]. destruct j as [|j]; cbn [map nth]; [exact (proj2 (cst_iff _ _) (proj2 H))|]. apply IH; [exact HR|lia].
      + destruct Hs as ((_ & Oc & Os & _) & _). destruct li as [|j]; [exact Oc|]. cbn [nth].
        assert (Hj : (j < length shells)%nat) by lia.
        rewrite Forall_forall in Os. apply (Os (nth j shells core)). now apply nth_In.
  Qed.
  Lemma amps_ok n i : (1 <= n <= n_max)%nat ->
    ca (fun A => nth i (round_amplitudes A n_max 15 (qk A) (qenv A) (qcore A) (sh A) n) (@amp0 R (op A))) (nth i (@amplitudes R ROps n_max 15 k0 env core shells n) (@amp0 R ROps)).
  Proof.
    intros Hn. destruct Hs as ((Oe & Oc & Os & Hst) & _ & Hsp & _). specialize (Hst n Hn). specialize (Hsp n Hn).
    set (layer := fun (p : arithmetic -> R * C) (A : arithmetic) => round_layer A (qk A) (qenv A) (p A)).
    pose proof (lst_shells qk k0 qenv env Hk He' Oe qshells shells HF Os) as HF'.
    pose proof (ca_amps n_max 15 (layer qcore) (map layer qshells) (@layer_of R ROps k0 env core) _ n (proj1 Hn)
      (lst_layer_of qk k0 qenv env qcore core Hk He' Hc' Oe Oc) HF' Hst Hsp i) as Q.
    assert (EL : forall A, map (round_layer A (qk A) (qenv A)) (sh A) = map (fun l => l A) (map layer qshells)) by (intros A; unfold sh; rewrite !map_map; reflexivity).
    unfold amplitudes. destruct Q as (Q1 & Q2 & Q3 & Q4).
    split; [|split; [|split]]; (eapply cst_ext; [|eassumption]); intros A; cbv beta; unfold round_amplitudes; rewrite EL; reflexivity.
  Qed.
  Lemma vsh_ok li kd n : (li <= S (length shells))%nat -> (1 <= n <= n_max)%nat -> contains (core :: shells) (pt_r P) li ->
    st_vsh (fun A => round_vsh A n_max 15 (qk A) (qenv A) (qcore A) (sh A) (qP A) li kd n) (@vsh_pena R ROps n_max 15 k0 (@n_medium R ROps env core shells li) (pt_r P) (pt_theta P) (pt_phi P) kd n).
  Proof.
    intros Hli Hn Hco. destruct HP as (P1 & P2 & P3). pose proof (media li Hli) as Hm.
    destruct Hs as (_ & _ & _ & Hrho). specialize (Hrho li n). specialize (Hrho Hli Hco Hn). cbv zeta in Hrho.
    assert (Ei : index_of env (core :: shells) li = @n_medium R ROps env core shells li).
    { unfold index_of, n_medium. rewrite len_rad. cbn [length]. destruct (Nat.eqb_spec li (S (length shells))) as [E|E]; [reflexivity|].
      f_equal. rewrite (nth_indep _ env (snd core)) by (rewrite map_length; cbn [length]; lia). apply map_nth. }
    rewrite Ei in Hrho. destruct Hrho as [Hr0 Hsa]. unfold round_vsh.
    apply (st_vsh_pena n_max 15 qk (fun A => round_medium A (qenv A) (qcore A) (sh A) li) (fun A => pt_r (qP A)) (fun A => pt_theta (qP A)) (fun A => pt_phi (qP A))); assumption.
  Qed.
  Lemma orders_ok li n : (li <= S (length shells))%nat -> (1 <= n <= n_max)%nat -> contains (core :: shells) (pt_r P) li ->
    cv (fun A => round_E_order A n_max 15 (qk A) (qenv A) (qcore A) (sh A) (qE A) (qP A) li n) (@E_order R ROps n_max 15 k0 env core shells E0 P li n) /\
    cv (fun A => round_H_order A n_max 15 (qk A) (qenv A) (qcore A) (sh A) (qE A) (qP A) li n) (@H_order R ROps n_max 15 k0 env core shells E0 P li n).
  Proof.
    intros Hli Hn Hco.
    destruct (cv_region qE E0 _ _ (Nat.eqb li (S (length shells))) _ _ _ _ _ _ n (proj1 Hn) HE' (media li Hli) (amps_ok n li Hn) (vsh_ok li false n Hli Hn Hco) (vsh_ok li true n Hli Hn Hco)) as [Q1 Q2].
    unfold E_order, H_order. rewrite len_rad.
    split; (eapply cv_ext; [|eassumption]); intros A; cbv beta; unfold round_E_order, round_H_order; rewrite len_radq; reflexivity.
  Qed.
  Lemma to_cart (F : arithmetic -> nat -> nat -> @vec3 R) (G : nat -> nat -> @vec3 R) :
    (forall li n, (li <= S (length shells))%nat -> (1 <= n <= n_max)%nat -> contains (core :: shells) (pt_r P) li -> cv (fun A => F A li n) (G li n)) ->
    cv (fun A => @to_cartesian R (op A) n_max (qcore A) (sh A) (qP A) (F A)) (@to_cartesian R ROps n_max core shells P G).
  Proof.
    intros H. destruct HP as (P1 & P2 & P3). unfold to_cartesian.
    apply (cv_sum (orders n_max) (fun A n => @field_to_xyz R (op A) (pt_theta (qP A)) (pt_phi (qP A)) (@masked R (op A) (qcore A) (sh A) (qP A) (fun li => F A li n)))
      (fun n => @field_to_xyz R ROps (pt_theta P) (pt_phi P) (@masked R ROps core shells P (fun li => G li n)))).
    intros n Hn. assert (Hn' : (1 <= n <= n_max)%nat) by (unfold orders in Hn; apply in_seq in Hn; lia).
    apply (cv_xyz (fun A => pt_theta (qP A)) (fun A => pt_phi (qP A)) (fun A => @masked R (op A) (qcore A) (sh A) (qP A) (fun li => F A li n))); [exact P2|exact P3|].
    unfold masked. rewrite len_rad.
    apply (cv_ext (fun A => fold_left (fun acc li => if @in_region R (op A) (@radii R (qcore A) (sh A)) (pt_r (qP A)) li then F A li n else acc) (seq 0 (S (S (length shells)))) (@vzero R (op A)))).
    { intros A. rewrite len_radq. reflexivity. }
    apply (cv_fold (fun A li => @in_region R (op A) (@radii R (qcore A) (sh A)) (pt_r (qP A)) li) (@in_region R ROps (@radii R core shells) (pt_r P)) (fun A li => F A li n) (fun li => G li n)) with (acc := fun A => @vzero R (op A)).
    - intros li Hli. apply in_seq in Hli. apply region_ev. lia.
    - intros li Hli Hb. apply in_seq in Hli. apply H; [lia|exact Hn'|]. apply GradNearEnd.in_region_contains; [cbn [length]; lia|discriminate|exact Hb].
    - apply cv_zero.
  Qed.
  Lemma E_s_ok : cv (fun A => round_E_s A n_max 15 (qk A) (qenv A) (qcore A) (sh A) (qE A) (qP A)) (@E_s R ROps n_max 15 k0 env core shells E0 P).
  Proof. apply (to_cart (fun A => round_E_order A n_max 15 (qk A) (qenv A) (qcore A) (sh A) (qE A) (qP A))). intros li n H1 H2 H3. exact (proj1 (orders_ok li n H1 H2 H3)). Qed.
  Lemma H_s_ok : cv (fun A => round_H_s A n_max 15 (qk A) (qenv A) (qcore A) (sh A) (qE A) (qP A)) (@H_s R ROps n_max 15 k0 env core shells E0 P).
  Proof. apply (to_cart (fun A => round_H_order A n_max 15 (qk A) (qenv A) (qcore A) (sh A) (qE A) (qP A))). intros li n H1 H2 H3. exact (proj2 (orders_ok li n H1 H2 H3)). Qed.
  Lemma phase_ok : cst (fun A => round_phase A (qk A) (qenv A) (qP A)) (@ModelNear.phase R ROps k0 env P).
  Proof.
    destruct HP as (P1 & P2 & P3). unfold ModelNear.phase, round_phase. apply cst_exp. apply cst_mul; [|apply kofr; apply (rcosk (fun A => pt_theta (qP A))); exact P2].
    apply cst_mul; [|now apply kofr]. apply cst_mul; [apply ki|]. unfold k_env, round_k. apply cst_mul; [now apply kofr|exact env_sqrt].
  Qed.
  Lemma E_i_ok : cv (fun A => round_E_i A (qk A) (qenv A) (qE A) (qP A)) (@E_i R ROps k0 env E0 P).
  Proof. unfold E_i, round_E_i. apply cv_mk; [|apply kzero|apply kzero]. apply cst_mul; [exact HE'|exact phase_ok]. Qed.
  Lemma H_i_ok : cv (fun A => round_H_i A (qk A) (qenv A) (qE A) (qP A)) (@H_i R ROps k0 env E0 P).
  Proof.
    unfold H_i, round_H_i. apply cv_mk; [apply kzero| |apply kzero].
    apply cst_mul; [|exact phase_ok]. apply cst_mul; [exact HE'|exact env_sqrt].
  Qed.
  Lemma total_ok (S I : arithmetic -> @vec3 R) dS dI : cv S dS -> cv I dI ->
    cv (fun A => if @ModelNear.outside R (op A) (qcore A) (sh A) (qP A) then @vadd R (op A) (S A) (I A) else S A) (if @ModelNear.outside R ROps core shells P then @vadd R ROps dS dI else dS).
  Proof.
    intros HS HI. unfold ModelNear.outside. rewrite len_rad. set (b := @in_region R ROps (@radii R core shells) (pt_r P) (Datatypes.S (length shells))).
    apply (cv_ev (fun A => if b then @vadd R (op A) (S A) (I A) else S A)).
    - eapply ev_imp; [|exact (region_ev (Datatypes.S (length shells)) (le_n _))]. intros A Ht. cbv beta in Ht. rewrite len_radq, Ht. reflexivity.
    - destruct b; [apply cv_add; assumption|assumption].
  Qed.
  Lemma E_t_ok : cv (fun A => round_E_t A n_max 15 (qk A) (qenv A) (qcore A) (sh A) (qE A) (qP A)) (@E_t R ROps n_max 15 k0 env core shells E0 P).
  Proof. exact (total_ok _ _ _ _ E_s_ok E_i_ok). Qed.
  Lemma H_t_ok : cv (fun A => round_H_t A n_max 15 (qk A) (qenv A) (qcore A) (sh A) (qE A) (qP A)) (@H_t R ROps n_max 15 k0 env core shells E0 P).
  Proof. exact (total_ok _ _ _ _ H_s_ok H_i_ok). Qed.
End End.

Lemma near_rounds (n_max : nat) (k0 : R) (env : C) (core : R * C) (shells : list (R * C)) (E0 : C) (P : @point R)
    (qk : arithmetic -> R) (qenv : arithmetic -> C) (qcore : arithmetic -> R * C) (qshells : list (arithmetic -> R * C)) (qE : arithmetic -> C) (qP : arithmetic -> @point R) :
  settles qk k0 -> csettles qenv env -> settles_shell qcore core -> Forall2 settles_shell qshells shells -> csettles qE E0 -> settles_point qP P ->
  smooth_field n_max k0 env core shells (pt_r P) ->
  let sh A := map (fun s => s A) qshells in
  settles_vec (fun A => round_E_s A n_max 15 (qk A) (qenv A) (qcore A) (sh A) (qE A) (qP A)) (@E_s R ROps n_max 15 k0 env core shells E0 P) /\
  settles_vec (fun A => round_H_s A n_max 15 (qk A) (qenv A) (qcore A) (sh A) (qE A) (qP A)) (@H_s R ROps n_max 15 k0 env core shells E0 P) /\
  settles_vec (fun A => round_E_i A (qk A) (qenv A) (qE A) (qP A)) (@E_i R ROps k0 env E0 P) /\
  settles_vec (fun A => round_H_i A (qk A) (qenv A) (qE A) (qP A)) (@H_i R ROps k0 env E0 P) /\
  settles_vec (fun A => round_E_t A n_max 15 (qk A) (qenv A) (qcore A) (sh A) (qE A) (qP A)) (@E_t R ROps n_max 15 k0 env core shells E0 P) /\
  settles_vec (fun A => round_H_t A n_max 15 (qk A) (qenv A) (qcore A) (sh A) (qE A) (qP A)) (@H_t R ROps n_max 15 k0 env core shells E0 P).
Proof.
  intros Hk He Hc HF HE HP Hs sh.
  split; [|split; [|split; [|split; [|split]]]]; apply cv_iff.
  - eapply E_s_ok; eassumption.
  - eapply H_s_ok; eassumption.
  - eapply E_i_ok; eassumption.
  - eapply H_i_ok; eassumption.
  - eapply E_t_ok; eassumption.
  - eapply H_t_ok; eassumption.
Qed.

Lemma near_bits (n_max : nat) (k0 : R) (env : C) (core : R * C) (shells : list (R * C)) (E0 : C) (P : @point R) (tol : R) :
  smooth_field n_max k0 env core shells (pt_r P) -> 0 < tol ->
  exists p0, forall p, (p0 <= p)%nat ->
    let E' := round_E_t (binary p) n_max 15 k0 env core shells E0 P in let E := @E_t R ROps n_max 15 k0 env core shells E0 P in
    let H' := round_H_t (binary p) n_max 15 k0 env core shells E0 P in let H := @H_t R ROps n_max 15 k0 env core shells E0 P in
    (Cmod (v1 E' - v1 E)%C < tol /\ Cmod (v2 E' - v2 E)%C < tol /\ Cmod (v3 E' - v3 E)%C < tol) /\
    (Cmod (v1 H' - v1 H)%C < tol /\ Cmod (v2 H' - v2 H)%C < tol /\ Cmod (v3 H' - v3 H)%C < tol).
Proof.
  intros Hs Ht.
  destruct (near_rounds n_max k0 env core shells E0 P (fun _ => k0) (fun _ => env) (fun _ => core) (map (fun s (_ : arithmetic) => s) shells) (fun _ => E0) (fun _ => P)
    (st_const k0) (proj1 (cst_iff _ _) (cst_const env)) (conj (st_const _) (proj1 (cst_iff _ _) (cst_const _))) (shells_const shells) (proj1 (cst_iff _ _) (cst_const E0))
    (conj (st_const _) (conj (st_const _) (st_const _))) Hs) as (_ & _ & _ & _ & (A1 & A2 & A3) & (B1 & B2 & B3)).
  destruct (ev_bits _ (ev_and _ _ (ev_and _ _ (A1 tol Ht) (ev_and _ _ (A2 tol Ht) (A3 tol Ht))) (ev_and _ _ (B1 tol Ht) (ev_and _ _ (B2 tol Ht) (B3 tol Ht))))) as [p0 K].
  exists p0. intros p Hp. specialize (K p Hp). cbv beta in K. rewrite map_map, map_id in K. cbv zeta. exact K.
Qed.
Lemma near_region (radii : list (arithmetic -> R)) (xs : list R) (q : arithmetic -> R) (x : R) (li : nat) :
  Forall2 settles radii xs -> settles q x -> (forall y, In y xs -> x <> y) -> xs <> [] -> (li <= length xs)%nat ->
  eventually (fun A => @in_region R (ar_ops A) (map (fun f => f A) radii) (q A) li = @in_region R ROps xs x li).
Proof.
  intros HF Hq Hx Hn Hl. assert (E : length radii = length xs) by (clear - HF; induction HF; cbn; congruence).
  apply in_region_ev; try assumption; [|now rewrite E]. intros ->. inversion HF; subst; contradiction.
Qed.
(* one third has no finite binary expansion *)
Lemma third_cut p : cut p (1 / 3) < 1 / 3.
Proof.
  assert (N : cut p (1 / 3) <> 1 / 3).
  { destruct (cut_bits p (1 / 3)) as (m & q & _ & ->). intros E.
    assert (Z3 : forall k : nat, (2 ^ Z.of_nat k mod 3 = 1 \/ 2 ^ Z.of_nat k mod 3 = 2)%Z).
    { induction k as [|k IH]; [left; reflexivity|]. rewrite Nat2Z.inj_succ, Z.pow_succ_r by lia. rewrite Z.mul_mod by lia. destruct IH as [-> | ->]; [right|left]; reflexivity. }
    destruct q as [|q|q]; cbn [powerRZ] in E.
    - assert (3 * m = 1)%Z by (apply eq_IZR; rewrite mult_IZR; lra). lia.
    - rewrite (pow_IZR 2) in E. rewrite positive_nat_Z in E. assert (3 * (m * 2 ^ Zpos q) = 1)%Z by (apply eq_IZR; rewrite !mult_IZR; lra). lia.
    - assert (P0 : 0 < 2 ^ Pos.to_nat q) by (apply pow_lt; lra).
      assert (E2 : 3 * IZR m = 2 ^ Pos.to_nat q).
      { apply (Rmult_eq_reg_r (/ 2 ^ Pos.to_nat q)); [|apply Rinv_neq_0_compat; lra]. rewrite Rinv_r by lra. rewrite Rmult_assoc, E. lra. }
      rewrite (pow_IZR 2) in E2. rewrite <- mult_IZR in E2. apply eq_IZR in E2. pose proof (Z3 (Pos.to_nat q)) as K. rewrite <- E2 in K.
      rewrite Z.mul_comm, Z_mod_mult in K. lia. }
  assert (L : cut p (1 / 3) <= 1 / 3).
  { unfold cut. destruct (Req_EM_T (1 / 3) 0); [lra|]. assert (U : 0 < ulp p (1 / 3)) by (unfold ulp; apply powerRZ_lt; lra).
    destruct (base_Int_part (1 / 3 / ulp p (1 / 3))) as [B _]. apply (Rmult_le_compat_r (ulp p (1 / 3))) in B; [|lra].
    replace (1 / 3 / ulp p (1 / 3) * ulp p (1 / 3)) with (1 / 3) in B by (field; lra). exact B. }
  lra.
Qed.
Lemma near_interface : let radius A := @rdiv R (ar_ops A) 1 3 in
  settles radius (1 / 3) /\ @in_region R ROps [1 / 3] (1 / 3) 0 = true /\ forall p, @in_region R (ar_ops (binary p)) [radius (binary p)] (1 / 3) 0 = false.
Proof.
  cbv zeta. split; [|split].
  - apply (st_div _ _ 1 3); [apply st_const|apply st_const|lra].
  - cbn. unfold Rleb. destruct (Rle_dec _ _); [reflexivity|lra].
  - intros p. pose proof (third_cut p) as L. unfold in_region. cbn [length Nat.eqb nth]. cbn [rleb rdiv ar_ops binary binary_ops]. unfold Rleb. destruct (Rle_dec _ _); [lra|reflexivity].
Qed.
