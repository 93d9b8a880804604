(** Region masks, region coefficients and the masked fields of the pena near
    fields, entry by entry. *)
From Coq Require Import Reals ZArith List Bool String Arith Lia.
From Verif Require Import Ops ROps Tensor TensorProofs TensorView ModelSpecial ModelMie ModelBatch ModelObs ModelNear ModelNearLegacy ModelNearPena NearLegacySpec NearLegacyProofs NearLegacyEval NearPenaAmps NearPenaVsh.
Import ListNotations.
Open Scope nat_scope.
Open Scope list_scope.

Section Region.
  Variables (N P K Q L : nat).
  Hypotheses (HN : 1 <= N) (HL : 1 <= L).
  Notation full := [N; P; K; Q; 3].
  Notation rp' := (rp [N; P; K; Q; 3]).
  Notation rr' := (rr [N; P; K; Q; 3]).

  (** *** coefficients of a region *)
  Lemma region_coef_ok (g : @amps_t R -> tensor Cx) (h : @amps R -> Cx) layers F li :
    List.length layers = S L -> (forall j d, j <= L -> is3 (g (nth j layers d)) (S N) P K (fun n p k => h (F j n p k))) -> li <= L ->
    exists t, region_coef N g layers li = Ok t /\ rp' t [N; P; K; 1; 1] (fun ix => h (F li (S (ax 0 ix)) (ax 1 ix) (ax 2 ix))).
  Proof.
    intros Hlen Hg Hli. unfold region_coef, stack. destruct layers as [|A0 rest]; [discriminate|]. cbn [map].
    set (ts := g A0 :: map g rest). change (g A0 :: map g rest) with ts.
    assert (Hlt : List.length ts = S L) by (unfold ts; cbn [List.length]; rewrite map_length; exact Hlen).
    assert (Hnth : forall j, nth j ts (g A0) = g (nth j (A0 :: rest) A0)) by (intros j; exact (map_nth g (A0 :: rest) A0 j)).
    assert (S0 : shp (g A0) = [S N; P; K]) by exact (proj1 (Hg 0 A0 (Nat.le_0_l L))).
    assert (Hall : forallb (fun t => shape_eqb (shp t) (shp (g A0))) ts = true).
    { apply forallb_forall. intros t Ht. apply (In_nth _ _ (g A0)) in Ht. destruct Ht as (j & Hj & <-). rewrite Hnth, S0, (proj1 (Hg j A0 ltac:(lia))). apply shape_eqb_refl. }
    rewrite Hall. cbn [bind]. rewrite S0, Hlt. cbn [insert_at]. eexists. split; [reflexivity|].
    unfold expand_coef, unsqueeze_last, unsqueeze, ndim, narrow, select. cbn [shp set_at insert_at List.length remove_at].
    split; [reflexivity|]. split; [apply fits5P; auto|]. intros ix Hix. destruct (ix5 _ _ _ _ _ _ Hix) as (n & p & k & i & c & -> & Hn & Hp & Hk & Hi & Hc).
    cbn [shp at_]. rewrite bix5. rewrite (cl N), (cl P), (cl K) by assumption. cbn [Nat.eqb insert_at remove_at nth set_at ax]. rewrite Hnth.
    rewrite (proj2 (Hg li A0 Hli)) by lia. now replace (n + 1) with (S n) by lia.
  Qed.

  (** *** masks *)
  Variables (rl : tensor R) (fr : nat -> nat -> R) (r0 : tensor R).
  Hypotheses (Ir : is2 rl P L fr) (S0 : shp r0 = [Q]).
  Definition MASK (li : nat) (ix : list nat) : bool := in_region (map (fr (ax 1 ix)) (seq 0 L)) (at_ r0 [ax 3 ix]) li.
  Lemma last_map_seq {A} (f : nat -> A) d n : 1 <= n -> last (map f (seq 0 n)) d = f (n - 1).
  Proof. intros H. destruct n as [|n]; [lia|]. rewrite seq_S, map_app. cbn [map Nat.add]. rewrite last_last. f_equal. lia. Qed.
  Lemma nth_ms {A} (f : nat -> A) d n i : i < n -> nth i (map f (seq 0 n)) d = f i.
  Proof. intros H. rewrite (nth_indep _ d (f 0)) by (rewrite map_length, seq_length; lia). rewrite (map_nth f), seq_nth by lia. reflexivity. Qed.
  Lemma lift_mask (m : tensor bool) B : rp [P; K; Q] m [P; 1; Q] B -> (forall p k k' i, B [p; k; i] = B [p; k'; i]) ->
    exists t, broadcast_to full (unsqueeze_last (unsqueeze 0 m)) = Ok t /\ rp' t full (fun ix => B [ax 1 ix; ax 2 ix; ax 3 ix]).
  Proof.
    intros [Sm [_ Vm]] HB. apply (broadcast_rp full _ [1; P; 1; Q; 1]).
    unfold unsqueeze_last, unsqueeze, ndim. cbn [shp]. rewrite Sm. cbn [insert_at List.length]. split; [reflexivity|]. split; [apply fits5P; auto|].
    intros ix Hix. destruct (ix5 _ _ _ _ _ _ Hix) as (n & p & k & i & c & -> & Hn & Hp & Hk & Hi & Hc). cbn [shp at_]. rewrite bix5. rewrite (cl P), (cl Q) by assumption.
    cbn [Nat.eqb remove_at ax nth]. rewrite <- (Vm [p; k; i]) by (cbn; auto). rewrite Sm. unfold bcast_ix. cbn [List.length Nat.sub skipn clip Nat.eqb]. now rewrite (cl P), (cl Q) by assumption.
  Qed.
  Lemma pos3 : rp [P; K; Q] (r_pos Q r0) [1; 1; Q] (fun ix => at_ r0 [ax 2 ix]).
  Proof.
    split; [reflexivity|]. split; [unfold fits; cbn; tauto|]. intros ix Hix. destruct (ix3 _ _ _ _ Hix) as (p & k & i & -> & Hp & Hk & Hi).
    unfold r_pos, bcast_ix. cbn [shp at_ List.length Nat.sub skipn clip ax nth]. now rewrite (cl Q).
  Qed.
  Lemma col3 li : li < L -> rp [P; K; Q] (r_col P rl li) [P; 1; 1] (fun ix => fr (ax 0 ix) li).
  Proof.
    intros Hl. split; [reflexivity|]. split; [unfold fits; cbn; tauto|]. intros ix Hix. destruct (ix3 _ _ _ _ Hix) as (p & k & i & -> & Hp & Hk & Hi).
    unfold r_col, bcast_ix. cbn [shp at_ List.length Nat.sub skipn clip ax nth]. rewrite (cl P) by assumption. now apply Ir.
  Qed.
  Lemma mask_ok li : li <= L -> exists t, mask_t N P K Q L rl r0 li = Ok t /\ rp' t full (MASK li).
  Proof.
    intros Hl. pose proof pos3 as R0. unfold mask_t, above.
    assert (Fin : forall (x : result (tensor bool)) B, rr [P; K; Q] x [P; 1; Q] B -> (forall p k k' i, B [p; k; i] = B [p; k'; i]) ->
       (forall n p k i c, B [p; k; i] = MASK li [n; p; k; i; c]) -> exists t, (let* m := x in broadcast_to full (unsqueeze_last (unsqueeze 0 m))) = Ok t /\ rp' t full (MASK li)).
    { intros x B (m & -> & Sm & Rm) HB HM. cbn [bind]. destruct (lift_mask m B (conj Sm Rm) HB) as (t & -> & Rt). exists t. split; [reflexivity|].
      eapply rp_ext; [|exact Rt]. intros ix Hix. destruct (ix5 _ _ _ _ _ _ Hix) as (n & p & k & i & c & -> & _). apply HM. }
    destruct (Nat.eqb_spec li L) as [E|E].
    - pose proof (col3 (L - 1) ltac:(lia)) as RL. eapply Fin; [eapply tbin_rr; [exact R0|exact RL|bs]|reflexivity|].
      intros n p k i c. unfold MASK, in_region. cbn [ax nth]. rewrite map_length, seq_length. rewrite (proj2 (Nat.eqb_eq li L) E). now rewrite last_map_seq.
    - destruct li as [|j].
      + pose proof (col3 0 ltac:(lia)) as RL. eapply Fin; [eapply tbin_rr; [exact R0|exact RL|bs]|reflexivity|].
        intros n p k i c. unfold MASK, in_region. cbn [ax nth]. rewrite map_length, seq_length. rewrite (proj2 (Nat.eqb_neq 0 L)) by lia. now rewrite nth_ms by lia.
      + pose proof (col3 j ltac:(lia)) as RL. pose proof (col3 (S j) ltac:(lia)) as RH.
        eassert (X1 : rr [P; K; Q] (tbin (fun r a => rltb a r) (r_pos Q r0) (r_col P rl j)) [P; 1; Q] _) by (eapply tbin_rr; [exact R0|exact RL|bs]).
        eassert (X2 : rr [P; K; Q] (tbin rleb (r_pos Q r0) (r_col P rl (S j))) [P; 1; Q] _) by (eapply tbin_rr; [exact R0|exact RH|bs]).
        destruct X1 as (t1 & -> & Y1). destruct X2 as (t2 & -> & Y2). cbn [bind].
        eapply Fin; [eapply tbin_rr; [exact Y1|exact Y2|bs]|reflexivity|].
        intros n p k i c. unfold MASK, in_region. cbn [ax nth]. rewrite map_length, seq_length. rewrite (proj2 (Nat.eqb_neq (S j) L)) by lia. now rewrite !nth_ms by lia.
  Qed.

  (** *** fields of one region *)
  Variables (E0 : Cx) (layers : list (@amps_t R)) (F : nat -> nat -> nat -> nat -> @amps R)
    (eps n_env : tensor Cx) (k0 : tensor R) (th ph : tensor R) (fe : nat -> nat -> nat -> Cx) (fn : nat -> Cx) (fk : nat -> R).
  Hypotheses (Hlen : List.length layers = S L) (HA : forall li d, li <= L -> isA N P K (nth li layers d) (F li)).
  Hypotheses (Ie : is3 eps P L K fe) (In_ : is2 n_env 1 K (fun _ k => fn k)) (Ik : is2 k0 1 K (fun _ k => fk k)) (St : shp th = [Q]) (Sp : shp ph = [Q]).
  Definition MED li p k : Cx := if li =? L then fn k else csqrt (fe p li k).
  Definition HV li kd3 (ix : list nat) : @vsh_t R :=
    vsh_pena N 15 (fk (ax 2 ix)) (MED li (ax 1 ix) (ax 2 ix)) (at_ r0 [ax 3 ix]) (at_ th [ax 3 ix]) (at_ ph [ax 3 ix]) kd3 (S (ax 0 ix)).
  Definition EV li (ix : list nat) : @vec3 R := E_region E0 (li =? L) (F li (S (ax 0 ix)) (ax 1 ix) (ax 2 ix)) (HV li false ix) (HV li true ix) (S (ax 0 ix)).
  Definition HVV li (ix : list nat) : @vec3 R := H_region E0 (MED li (ax 1 ix) (ax 2 ix)) (li =? L) (F li (S (ax 0 ix)) (ax 1 ix) (ax 2 ix)) (HV li false ix) (HV li true ix) (S (ax 0 ix)).
  Lemma med_ok li : li <= L -> exists d, (d = 1 \/ d = P) /\ rp' (medium_t L eps (expand_cfg n_env) li) [1; d; K; 1; 1] (fun ix => MED li (ax 1 ix) (ax 2 ix)).
  Proof.
    intros Hl. unfold medium_t, MED. destruct (Nat.eqb_spec li L) as [E|E].
    - exists 1. split; [auto|]. exact (vw_cfg1 N P K Q n_env (fun _ k => fn k) In_).
    - exists P. split; [auto|]. assert (Hl' : li < L) by lia.
      exact (vw_cfgP N P K Q _ _ (is2_select _ _ _ _ _ li Hl' (is3_tmap (@csqrt R ROps) _ _ _ _ _ Ie))).
  Qed.
  Lemma region_ok li EH GE GH : li <= L -> rp' (fst EH) full GE -> rp' (snd EH) full GH ->
    exists EH', region_t N P K Q L E0 layers rl eps (expand_cfg n_env) (expand_cfg k0) r0 (expand_pos r0) (expand_pos th) (expand_pos ph) li EH = Ok EH' /\
      rp' (fst EH') full (fun ix => if MASK li ix then comp (ax 4 ix) (EV li ix) else GE ix) /\
      rp' (snd EH') full (fun ix => if MASK li ix then comp (ax 4 ix) (HVV li ix) else GH ix).
  Proof.
    intros Hl RE RH. unfold region_t. cbv zeta.
    destruct (med_ok li Hl) as (d & Hd & Rm). set (nm := medium_t L eps (expand_cfg n_env) li) in *. clearbody nm.
    destruct (vshP_ok N P K Q d k0 fk nm _ r0 th ph HN Hd Ik S0 St Sp Rm false) as (V1 & -> & A1 & A2 & A3 & A4). cbn [bind].
    destruct (vshP_ok N P K Q d k0 fk nm _ r0 th ph HN Hd Ik S0 St Sp Rm true) as (V3 & -> & B1 & B2 & B3 & B4). cbn [bind].
    destruct (mask_ok li Hl) as (mk & -> & Rk). cbn [bind].
    destruct (region_coef_ok ta na layers F li Hlen (fun j d Hj => proj1 (HA j d Hj)) Hl) as (a & -> & Ra). cbn [bind].
    destruct (region_coef_ok tb nb layers F li Hlen (fun j d Hj => proj1 (proj2 (HA j d Hj))) Hl) as (b & -> & Rb). cbn [bind].
    destruct (region_coef_ok tc nc layers F li Hlen (fun j d Hj => proj1 (proj2 (proj2 (HA j d Hj)))) Hl) as (c & -> & Rc). cbn [bind].
    destruct (region_coef_ok td nd layers F li Hlen (fun j d Hj => proj2 (proj2 (proj2 (HA j d Hj)))) Hl) as (e & -> & Re). cbn [bind].
    pose proof (vw_En N P K Q (fun n => pw_factor n E0)) as Ren. fold (En_t N E0) in Ren.
    pose proof (rp_tmap _ (cmul ci) _ _ _ Ra) as Ria. pose proof (rp_tmap _ (cmul ci) _ _ _ Rb) as Rib. pose proof (rp_tmap _ (cmul ci) _ _ _ Rc) as Ric. pose proof (rp_tmap _ (cmul ci) _ _ _ Re) as Rie.
    pose proof (rp_tmap _ (@copp R ROps) _ _ _ Rm) as Rmm.
    assert (D1 : bcast_dim P d = Some P) by (destruct Hd as [-> | ->]; [apply bd_1r|apply bd_same]).
    assert (D2 : bcast_dim d P = Some P) by (destruct Hd as [-> | ->]; [apply bd_1l|apply bd_same]).
    clear Hd.
    Ltac bsd D1 D2 := unfold bcast_shape; cbn [rev app bcast_rev]; rewrite ?bd_1l, ?bd_1r, ?bd_same, ?D1, ?D2; cbn [rev app option_map]; reflexivity.
    Ltac evd D1 D2 := match goal with
      | |- rr _ (lift2 _ _ _) _ _ => eapply lift2_rr; [evd D1 D2|evd D1 D2|bsd D1 D2]
      | |- rr _ (Ok _) _ _ => apply rr_ok; eassumption
      end.
    Ltac pt := intros ix Hix; destruct (ix5 _ _ _ _ _ _ Hix) as (n & p & k & i & cc & -> & _ & _ & _ & _ & Hc); destruct cc as [|[|[|cc]]]; [reflexivity|reflexivity|reflexivity|lia].
    match goal with |- context [bind ?x _] => assert (X : exists t, x = Ok t /\ rp' t full (fun ix => comp (ax 4 ix) (EV li ix))) end.
    { unfold EV. destruct (li =? L); (eapply rr_conv; [evd D1 D2|unfold E_region; pt]). }
    destruct X as (E & -> & REl). cbn [bind].
    match goal with |- context [bind ?x _] => assert (X : exists t, x = Ok t /\ rp' t full (fun ix => comp (ax 4 ix) (HVV li ix))) end.
    { unfold HVV. destruct (li =? L); (eapply rr_conv; [evd D1 D2|unfold H_region; pt]). }
    destruct X as (H & -> & RHl). cbn [bind].
    destruct (mask_put_ok _ _ _ _ _ _ _ Rk REl RE) as (Es & -> & REs). cbn [bind].
    destruct (mask_put_ok _ _ _ _ _ _ _ Rk RHl RH) as (Hs & -> & RHs). cbn [bind].
    eexists. split; [reflexivity|]. split; assumption.
  Qed.
  Lemma regions_ok ls : forall EH GE GH, (forall li, In li ls -> li <= L) -> rp' (fst EH) full GE -> rp' (snd EH) full GH ->
    exists EH', regions_t N P K Q L E0 layers rl eps (expand_cfg n_env) (expand_cfg k0) r0 (expand_pos r0) (expand_pos th) (expand_pos ph) ls EH = Ok EH' /\
      rp' (fst EH') full (fun ix => fold_left (fun acc li => if MASK li ix then comp (ax 4 ix) (EV li ix) else acc) ls (GE ix)) /\
      rp' (snd EH') full (fun ix => fold_left (fun acc li => if MASK li ix then comp (ax 4 ix) (HVV li ix) else acc) ls (GH ix)).
  Proof.
    induction ls as [|li ls IH]; intros EH GE GH Hin RE RH; cbn [regions_t fold_left].
    - exists EH. auto.
    - destruct (region_ok li EH GE GH (Hin li (or_introl eq_refl)) RE RH) as (EH1 & -> & RE1 & RH1). cbn [bind].
      exact (IH EH1 _ _ (fun l Hl => Hin l (or_intror Hl)) RE1 RH1).
  Qed.
End Region.
