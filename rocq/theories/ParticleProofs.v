(** Proofs about particles: heap lemmas, construction, moves, evaluation. *)
From Coq Require Import Reals ZArith List Bool String Arith Lia Lra FunctionalExtensionality.
From Coquelicot Require Import Complex.
From Verif Require Import Ops ROps CLemmas Tensor TensorProofs ModelMaterial MaterialSpec MaterialProofs ModelBatch ModelObs ModelParticle ParticleSpec.
Import ListNotations.
Open Scope nat_scope.
Open Scope list_scope.

(** ** heap *)
Lemma update_length i m (h : @heap R) : List.length (update i m h) = List.length h.
Proof. revert i. induction h as [|m0 h IH]; intros [|i]; cbn; auto. Qed.
Lemma update_same i m (h : @heap R) : i < List.length h -> nth_error (update i m h) i = Some m.
Proof. revert i. induction h as [|m0 h IH]; intros [|i] H; cbn in *; try lia; auto. apply IH. lia. Qed.
Lemma update_other i j m (h : @heap R) : i <> j -> nth_error (update i m h) j = nth_error h j.
Proof. revert i j. induction h as [|m0 h IH]; intros [|i] [|j] H; cbn; try reflexivity; try congruence. apply IH. congruence. Qed.
Lemma nth_valid (h : @heap R) i m : nth_error h i = Some m -> i < List.length h.
Proof. intros H. apply nth_error_Some. congruence. Qed.

(** ** materials *)
Definition wf (m : @mat R) : Prop := match m with Const c => c_tdev c = c_dev c | Db b => inv b end.
Definition mdev (m : @mat R) : device := match m with Const c => c_dev c | Db b => d_dev b end.
Definition mstat (m : @mat R) : C + (model * list R * list C * list R) :=
  match m with Const c => inl (ModelMaterial.c_eps c) | Db b => inr (static b) end.
Lemma made_wf m : made m -> wf m.
Proof.
  intros [(e & d & ->)|(pf & pi & dats & d & m0 & hist & H & ->)]; [reflexivity|]. eapply load_reachable. eassumption.
Qed.
Lemma move_idem d m : @set_device_mat R d (set_device_mat d m) = set_device_mat d m.
Proof.
  destruct m as [c|b]; [reflexivity|]. cbn. unfold set_device_db. cbn. rewrite map_map. reflexivity.
Qed.
Lemma move_wf d m : wf m -> wf (set_device_mat d m).
Proof. destruct m as [c|b]; [reflexivity|]. cbn. intros H. apply (set_device_inv b d H). Qed.
Lemma move_stat d m : mstat (set_device_mat d m) = mstat m. Proof. now destruct m. Qed.
Lemma move_dev d m : mdev (set_device_mat d m) = d. Proof. now destruct m. Qed.
Lemma wf_on m : wf m -> on (mdev m) m.
Proof.
  destruct m as [c|b]; cbn; [auto|]. intros H. split; [reflexivity|]. split; [exact (inv_dev b H)|]. intros k v Hin. apply (inv_cache b H k v Hin).
Qed.
Lemma on_dev d m : on d m -> mdev m = d. Proof. destruct m as [c|b]; cbn; intuition. Qed.
Lemma move_on d m : on d (set_device_mat d m).
Proof.
  destruct m as [c|b]; cbn; [auto|]. split; [reflexivity|]. split; [auto|]. intros k v Hin. apply in_map_iff in Hin. destruct Hin as ([k' v'] & E & _). injection E as <- <-. reflexivity.
Qed.

(* the value of a material, without devices and caches *)
Definition pure_of (s : C + (model * list R * list C * list R)) (k : R) : result C :=
  match s with
  | inl e => Ok e
  | inr (MData, wl, ep, co) => bind (@interp1d R ROps (scalar_t k) wl ep) (fun y => Ok (at_ y []))
  | inr (MSellmeier, wl, ep, co) => bind (@sellmeier R ROps co k) (fun e => Ok (RtoC e))
  | inr (MOther _, _, _, _) => Err ValueError
  end.
Definition ev (s : C + (model * list R * list C * list R)) (wl : tensor R) : result (tensor C) :=
  let t := squeeze wl in
  match s, shp t with
  | inl e, [K] => Ok (mkT [K] (fun _ => e))
  | inl e, _ => Ok (scalar_t e)
  | inr _, [] => bind (pure_of s (at_ t [])) (fun e => Ok (scalar_t e))
  | inr _, [_] => bind (map_res (pure_of s) (entries t)) (fun es =>
                    match es with [] => Err RuntimeError | e0 :: _ => Ok (mkT [List.length es] (fun ix => nth (nth 0 ix 0%nat) es e0)) end)
  | inr _, _ => Err RuntimeError
  end.
Lemma pure_of_db b k : pure b k = pure_of (inr (static b)) k.
Proof. unfold pure, pure_of, static. now destruct (d_model b). Qed.
Lemma pures_of_db b ks : pures b ks = map_res (pure_of (inr (static b))) ks.
Proof. induction ks as [|k ks IH]; [reflexivity|]. cbn [pures map_res]. rewrite pure_of_db, IH. reflexivity. Qed.
Lemma tensor_eq {A} (t u : tensor A) : shp t = shp u -> (forall ix, at_ t ix = at_ u ix) -> t = u.
Proof. destruct t as [s f], u as [s' f']. cbn. intros -> H. f_equal. now apply functional_extensionality. Qed.
Definition eval_out (m : @mat R) (wl : tensor R) (r : result (tensor (@value R))) : Prop :=
  match ev (mstat m) wl with
  | Ok e => exists u, r = Ok u /\ tmap v_eps u = e /\ forall ix, v_dev (at_ u ix) = mdev m
  | Err er => r = Err er
  end.
Lemma get_epsilon_ok m a : wf m -> let (m', r) := @get_epsilon R ROps m a in
  wf m' /\ mstat m' = mstat m /\ mdev m' = mdev m /\ eval_out m (wa_t a) r.
Proof.
  intros Hw. destruct m as [c|b]; cbn [get_epsilon].
  - split; [exact Hw|]. split; [reflexivity|]. split; [reflexivity|]. unfold eval_out, ev, get_epsilon_const. cbn [mstat mdev]. cbn in Hw.
    destruct (shp (squeeze (wa_t a))) as [|K [|? ?]].
    + eexists. split; [reflexivity|]. split; [reflexivity|]. intros ix. exact Hw.
    + rewrite Hw, String.eqb_refl. eexists. split; [reflexivity|]. split; [reflexivity|]. intros ix. reflexivity.
    + eexists. split; [reflexivity|]. split; [reflexivity|]. intros ix. exact Hw.
  - pose proof (get_epsilon_inv b a Hw) as H. destruct (get_epsilon_db b a) as [b' r]. destruct H as (H1 & [H2 H3] & H4).
    split; [exact H1|]. split; [cbn; now rewrite H2|]. split; [exact H3|]. unfold eval_out, ev, get_spec in *. cbn [mstat mdev]. cbv zeta in H4.
    destruct (shp (squeeze (wa_t a))) as [|K [|? ?]].
    + rewrite pure_of_db in H4. destruct (pure_of _ _) as [e|er]; cbn [bind]; [|exact H4]. destruct H4 as [s ->].
      eexists. split; [reflexivity|]. split; [reflexivity|]. intros ix. reflexivity.
    + rewrite pures_of_db in H4. destruct (map_res _ _) as [[|e0 es]|er]; cbn [bind]; try exact H4. destruct H4 as (u & -> & Hs & Hu).
      exists u. split; [reflexivity|]. split; [|intros ix; apply Hu]. apply tensor_eq; [exact Hs|]. intros ix. cbn [tmap at_]. rewrite (proj1 (Hu ix)). reflexivity.
    + exact H4.
Qed.

(** ** construction *)
Definition grow (d : device) (h h' : @heap R) : Prop :=
  forall i m, nth_error h i = Some m -> nth_error h' i = Some m \/ nth_error h' i = Some (set_device_mat d m).
Lemma grow_refl d h : grow d h h. Proof. intros i m H. now left. Qed.
Lemma grow_trans d h1 h2 h3 : grow d h1 h2 -> grow d h2 h3 -> grow d h1 h3.
Proof.
  intros H1 H2 i m H. destruct (H1 i m H) as [E|E]; [exact (H2 i m E)|]. destruct (H2 i _ E) as [E'|E']; [now right|]. rewrite move_idem in E'. now right.
Qed.
Lemma grow_length d h h' : grow d h h' -> List.length h <= List.length h'.
Proof.
  intros H. destruct (Nat.le_gt_cases (List.length h) (List.length h')) as [L|L]; [exact L|]. exfalso.
  destruct (nth_error h (List.length h')) as [m|] eqn:E; [|apply nth_error_None in E; lia].
  destruct (H _ _ E) as [E'|E']; apply nth_valid in E'; lia.
Qed.
Lemma grow_wf d h h' : grow d h h' -> (forall i m, nth_error h' i = Some m -> List.length h <= i -> wf m) -> List.Forall wf h -> List.Forall wf h'.
Proof.
  intros Hg Hn Hf. rewrite Forall_forall in *. intros m Hm. apply In_nth_error in Hm. destruct Hm as [i Hi].
  destruct (Nat.lt_ge_cases i (List.length h)) as [L|L]; [|eauto].
  destruct (nth_error h i) as [m0|] eqn:E; [|apply nth_error_None in E; lia].
  pose proof (nth_error_In _ _ E) as Hin. destruct (Hg i m0 E) as [E'|E']; rewrite E' in Hi; injection Hi as <-; [auto|apply move_wf; auto].
Qed.
(* untouched addresses *)
Definition obj_ids (l : list (@matarg R)) : list nat := flat_map (fun m => match m with AObj i => [i] | _ => [] end) l.
Definition frame (ids : list nat) (h h' : @heap R) : Prop := forall i, i < List.length h -> ~ In i ids -> nth_error h' i = nth_error h i.
Lemma refers_grow d h h1 h2 m i : refers h h1 d m i -> grow d h1 h2 -> refers h h2 d m i.
Proof.
  destruct m as [n|s|j|]; cbn; auto.
  - intros [H1 H2] Hg. split; [exact H1|]. destruct (Hg _ _ H2) as [->| ->]; reflexivity.
  - intros (-> & m0 & H1 & H2) Hg. split; [reflexivity|]. exists m0. split; [exact H1|]. destruct (Hg _ _ H2) as [->| ->]; [reflexivity|]. now rewrite move_idem.
Qed.
Lemma refers_back d h0 h h1 m i : usable h0 m -> grow d h0 h -> refers h h1 d m i -> refers h0 h1 d m i.
Proof.
  destruct m as [n|s|j|]; cbn; auto.
  - intros _ Hg [H1 H2]. split; [apply grow_length in Hg; lia|exact H2].
  - intros Hu Hg (-> & m0 & H1 & H2). split; [reflexivity|]. destruct (nth_error h0 j) as [m|] eqn:E; [|apply nth_error_None in E; lia].
    exists m. split; [reflexivity|]. destruct (Hg j m E) as [E'|E']; rewrite E' in H1; injection H1 as <-; [exact H2|]. now rewrite move_idem in H2.
Qed.
Lemma usable_grow d h h' m : grow d h h' -> usable h m -> usable h' m.
Proof. intros Hg. apply grow_length in Hg. destruct m; cbn; auto. lia. Qed.
Lemma as_material_grow d m h : let (h', r) := @as_material R ROps d m h in
  grow d h h' /\ frame (obj_ids [m]) h h' /\ (forall i m', nth_error h' i = Some m' -> List.length h <= i -> wf m' /\ on d m') /\
  (usable h m -> exists i, r = Ok i /\ refers h h' d m i) /\ (forall i, r = Ok i -> material_like m).
Proof.
  destruct m as [n|s|j|]; cbn [as_material].
  - split; [intros i m H; left; rewrite nth_error_app1; [exact H|eapply nth_valid; eassumption]|].
    split; [intros i Hi _; now rewrite nth_error_app1|]. split.
    { intros i m' H L. assert (i = List.length h) by (apply nth_valid in H; rewrite app_length in H; cbn in H; lia). subst i.
      rewrite nth_error_app2, Nat.sub_diag in H by lia. injection H as <-. cbn. auto. }
    split; [|intros i _; exact I]. intros _. eexists. split; [reflexivity|]. cbn. split; [lia|]. rewrite nth_error_app2, Nat.sub_diag by lia. reflexivity.
  - split; [apply grow_refl|]. split; [intros i _ _; reflexivity|]. split; [intros i m' H; apply nth_valid in H; lia|]. split; [intros []|discriminate].
  - unfold with_mat. destruct (nth_error h j) as [m|] eqn:E.
    + pose proof (nth_valid _ _ _ E) as Hj. split.
      { intros i m' H. destruct (Nat.eq_dec j i) as [<-|Hne]; [|left; now rewrite update_other]. right. rewrite update_same by exact Hj. congruence. }
      split; [intros i Hi Hn; apply update_other; intros ->; apply Hn; now left|].
      split; [intros i m' H L; apply nth_valid in H; rewrite update_length in H; lia|].
      split; [|intros i _; exact I]. intros _. exists j. split; [reflexivity|]. cbn. split; [reflexivity|]. exists m. split; [exact E|now apply update_same].
    + split; [apply grow_refl|]. split; [intros i _ _; reflexivity|]. split; [intros i m' H; apply nth_valid in H; lia|]. apply nth_error_None in E.
      split; [cbn; lia|discriminate].
  - split; [apply grow_refl|]. split; [intros i _ _; reflexivity|]. split; [intros i m' H; apply nth_valid in H; lia|]. split; [intros []|discriminate].
Qed.
Definition fresh_ok (d : device) (h h' : @heap R) : Prop := forall i m', nth_error h' i = Some m' -> List.length h <= i -> wf m' /\ on d m'.
Lemma fresh_trans d h1 h2 h3 : grow d h1 h2 -> fresh_ok d h1 h2 -> grow d h2 h3 -> fresh_ok d h2 h3 -> fresh_ok d h1 h3.
Proof.
  intros G1 F1 G2 F2 i m H L. destruct (Nat.lt_ge_cases i (List.length h2)) as [Hlt|Hge]; [|eauto].
  destruct (nth_error h2 i) as [m2|] eqn:E; [|apply nth_error_None in E; lia]. destruct (F1 i m2 E L) as [W O].
  destruct (G2 i m2 E) as [E'|E']; rewrite E' in H; injection H as <-; [auto|]. split; [now apply move_wf|apply move_on].
Qed.
Lemma frame_trans l1 l2 h1 h2 h3 : List.length h1 <= List.length h2 -> frame l1 h1 h2 -> frame l2 h2 h3 -> frame (l1 ++ l2) h1 h3.
Proof.
  intros HL F1 F2 i Hi Hn. rewrite F2; [apply F1; [exact Hi|]|lia|]; intros H; apply Hn; apply in_or_app; auto.
Qed.
Lemma as_materials_grow d l : forall h, let (h', r) := @as_materials R ROps d l h in
  grow d h h' /\ frame (obj_ids l) h h' /\ fresh_ok d h h' /\
  (List.Forall (usable h) l -> exists is, r = Ok is /\ Forall2 (refers h h' d) l is) /\ (forall is, r = Ok is -> List.Forall material_like l).
Proof.
  induction l as [|m l IH]; intros h; cbn [as_materials].
  - unfold ret. split; [apply grow_refl|]. split; [intros i _ _; reflexivity|]. split; [intros i m' H; apply nth_valid in H; lia|].
    split; [intros _; exists []; auto|constructor].
  - unfold bnd. pose proof (as_material_grow d m h) as G. destruct (as_material d m h) as [h1 [i|e]].
    + destruct G as (G1 & G2 & G3 & G4 & G5). specialize (IH h1). destruct (as_materials d l h1) as [h2 [is|e]]; unfold ret.
      * destruct IH as (I1 & I2 & I3 & I4 & I5). split; [now apply grow_trans with h1|].
        split; [change (obj_ids (m :: l)) with ((match m with AObj i => [i] | _ => [] end) ++ obj_ids l); eapply frame_trans; [apply grow_length with d; exact G1| |exact I2]; destruct m; exact G2|].
        split; [now apply fresh_trans with h1|]. split.
        { intros Hf. inversion_clear Hf as [|? ? Hm Hl]. destruct (G4 Hm) as (i' & Ei & Hr). injection Ei as <-.
          destruct I4 as (is' & Eis & Hrs); [eapply Forall_impl; [|exact Hl]; intros x; now apply usable_grow with d|]. injection Eis as <-.
          exists (i :: is). split; [reflexivity|]. constructor; [eapply refers_grow; eassumption|].
          clear - Hrs Hl G1. induction Hrs as [|x y l is Hx Hrs IH]; constructor; inversion_clear Hl; [eapply refers_back; eassumption|apply IH; assumption]. }
        intros is' _. constructor; [now apply (G5 i)|now apply (I5 is)].
      * destruct IH as (I1 & I2 & I3 & I4 & I5). split; [now apply grow_trans with h1|].
        split; [change (obj_ids (m :: l)) with ((match m with AObj i => [i] | _ => [] end) ++ obj_ids l); eapply frame_trans; [apply grow_length with d; exact G1| |exact I2]; destruct m; exact G2|].
        split; [now apply fresh_trans with h1|]. split; [|discriminate].
        intros Hf. inversion_clear Hf as [|? ? Hm Hl]. destruct I4 as (is' & Eis & Hrs); [eapply Forall_impl; [|exact Hl]; intros x; now apply usable_grow with d|discriminate].
    + destruct G as (G1 & G2 & G3 & G4 & G5). split; [exact G1|].
      split; [intros j Hj Hn; apply G2; [exact Hj|]; intros Hin; apply Hn; destruct m; cbn in *; intuition|].
      split; [exact G3|]. split; [|discriminate]. intros Hf. inversion_clear Hf as [|? ? Hm Hl]. destruct (G4 Hm) as (i' & Ei & _). discriminate.
Qed.

(** the radii and the materials of a call; the error raised without them *)
Notation parts := (dten R * option (dten C) * option (list nat))%type.
Lemma numel_1d {A} (r : tensor A) : ndim r = 1 -> shp r = [numel r].
Proof. unfold ndim, numel. destruct (shp r) as [|n [|? ?]]; cbn; try lia. intros _. now rewrite Nat.mul_1_r. Qed.
Lemma entries_length {A} (t : tensor A) : List.length (entries t) = numel t.
Proof.
  unfold entries, numel. rewrite map_length. induction (shp t) as [|n s IH]; [reflexivity|]. cbn [indices fold_right].
  assert (G : forall l, List.length (flat_map (fun i => map (cons i) (indices s)) l) = List.length l * fold_right Nat.mul 1 s).
  { induction l as [|x l IHl]; [reflexivity|]. cbn [flat_map]. rewrite app_length, map_length, IH, IHl. reflexivity. }
  rewrite G, seq_length. reflexivity.
Qed.
Lemma is_some_iff {A} (o : option A) : is_some o = false -> o = None. Proof. now destruct o. Qed.
(* the materials actually converted by the first half of the constructor *)
Definition layer_args (a : @pargs R) : list (@matarg R) :=
  match g_mat_layers a with Some l => l | None => opt_list (g_mat_core a) ++ opt_list (g_mat_shell a) end.

Ltac chk_if := match goal with |- context [chk ?b] => let E := fresh "E" in destruct b eqn:E; cbn [chk] end.
Lemma bnd_ret {A B} (x : A) (f : A -> @st R B) : bnd (ret x) f = f x. Proof. reflexivity. Qed.
Lemma bnd_fail {A B} e (f : A -> @st R B) : bnd (fail e) f = fail e. Proof. reflexivity. Qed.
Definition parts_ok (d : device) (a : @pargs R) (h h' : @heap R) (r : result parts) : Prop :=
  grow d h h' /\ frame (obj_ids (layer_args a)) h h' /\ fresh_ok d h h' /\
  (forall rs e ms, accepted a rs e ms -> List.Forall (usable h) (layer_args a) ->
     exists rt ids, r = Ok (mkD d rt, option_map (mkD d) e, ids) /\ shp rt = [List.length rs] /\ entries rt = rs /\
       match ms, ids with Some l, Some is => Forall2 (refers h h' d) l is | None, None => True | _, _ => False end) /\
  ((forall rs e ms, ~ accepted a rs e ms) -> List.Forall (usable h) (layer_args a) ->
     (~ unstackable a -> r = Err ValueError) /\ (unstackable a -> r = Err RuntimeError)) /\
  (forall x, r = Ok x -> (exists rs e ms, accepted a rs e ms) /\ (g_eps_layers a = None -> List.Forall material_like (layer_args a))).
Lemma parts_err d a h e : (forall rs e ms, ~ accepted a rs e ms) -> (~ unstackable a -> e = ValueError) -> (unstackable a -> e = RuntimeError) -> parts_ok d a h h (Err e).
Proof.
  intros H1 H2 H3. split; [apply grow_refl|]. split; [intros i _ _; reflexivity|]. split; [intros i m' H; apply nth_valid in H; lia|].
  split; [intros rs e' ms Ha; elim (H1 _ _ _ Ha)|]. split; [|discriminate]. intros _ _. split; intros H; f_equal; auto.
Qed.
Ltac no_acc := let H := fresh in intros ? ? ? H; inversion H; unfold legacy_free, layers_free in *; cbn in *; intuition congruence.
Ltac no_stack := intros [(? & ? & ?) (? & ? & ? & ? & ? & ? & ? & ? & ?)]; cbn in *; congruence.
Lemma fresh_refl d h : fresh_ok d h h. Proof. intros i m' H. apply nth_valid in H. lia. Qed.
Lemma frame_refl l h : frame l h h. Proof. intros i _ _. reflexivity. Qed.
(* after the materials have been converted *)
Lemma parts_mats d a h l (k : list nat -> result parts) : layer_args a = l -> ~ unstackable a -> g_eps_layers a = None ->
  ((exists rs, accepted a rs None (Some l) /\ (forall rs' e ms, accepted a rs' e ms -> rs' = rs /\ e = None /\ ms = Some l) /\
      exists rt, shp rt = [List.length rs] /\ entries rt = rs /\ forall is, k is = Ok (mkD d rt, None, Some is)) \/
   ((forall rs e ms, ~ accepted a rs e ms) /\ forall is, k is = Err ValueError)) ->
  let (h', r) := bnd (as_materials d l) (fun is h => (h, k is)) h in parts_ok d a h h' r.
Proof.
  intros Hl Hs He Hk. unfold bnd. pose proof (as_materials_grow d l h) as G. destruct (as_materials d l h) as [h' [is|e]]; destruct G as (G1 & G2 & G3 & G4 & G5).
  - split; [exact G1|]. split; [now rewrite Hl|]. split; [exact G3|]. rewrite Hl. destruct Hk as [(rs & Ha & Hu & rt & R1 & R2 & R3)|(Hn & Hk)].
    + split; [|split].
      * intros rs' e ms Ha' Hus. destruct (Hu _ _ _ Ha') as (-> & -> & ->). exists rt, (Some is). rewrite R3. split; [reflexivity|]. split; [exact R1|]. split; [exact R2|].
        destruct (G4 Hus) as (is' & E & Hr). injection E as <-. exact Hr.
      * intros Hn. elim (Hn _ _ _ Ha).
      * intros x _. split; [eauto|]. intros _. exact (G5 is eq_refl).
    + rewrite Hk. split; [intros rs e ms Ha; elim (Hn _ _ _ Ha)|]. split; [|discriminate]. intros _ _. split; [reflexivity|intros H; elim (Hs H)].
  - split; [exact G1|]. split; [now rewrite Hl|]. split; [exact G3|]. rewrite Hl.
    split; [|split]; [| |discriminate].
    + intros rs' e' ms _ Hus. destruct (G4 Hus) as (is' & E & _). discriminate.
    + intros _ Hus. destruct (G4 Hus) as (is' & E & _). discriminate.
Qed.
Ltac acc_uniq := let H := fresh in intros ? ? ? H; inversion H; unfold legacy_free, layers_free in *; cbn in *; intuition congruence.
Lemma layer_parts_ok d a h : let (h', r) := @layer_parts R ROps d a h in parts_ok d a h h' r.
Proof.
  destruct a as [gr ge gm env dev rc mc rs ms].
  destruct gr as [gr|]; destruct ge as [ge|]; destruct gm as [gm|]; destruct rc as [rc|]; destruct mc as [mc|]; destruct rs as [rs|]; destruct ms as [ms|];
    unfold layer_parts; cbn [g_r_layers g_eps_layers g_mat_layers g_r_core g_mat_core g_r_shell g_mat_shell is_some orb andb negb xorb chk]; rewrite ?bnd_ret, ?bnd_fail;
    try (unfold fail; apply parts_err; [no_acc|reflexivity|no_stack]).
  - (* eps_layers *)
    destruct (ndim gr =? 1) eqn:E1; cbn [chk]; [|unfold bnd, fail; apply parts_err; [|reflexivity|no_stack]].
    2:{ apply Nat.eqb_neq in E1. intros ? ? ? H. inversion H; cbn in *; try congruence. injection H1 as <-. apply E1. unfold ndim. now rewrite H4. }
    apply Nat.eqb_eq in E1. rewrite bnd_ret. destruct (Nat.ltb_spec (numel gr) 1) as [E2|E2]; cbn [chk negb]; [unfold bnd, fail; apply parts_err; [|reflexivity|no_stack]|].
    { intros ? ? ? H. inversion H; cbn in *; try congruence. injection H1 as <-. apply H6. subst rs. apply length_zero_iff_nil. rewrite entries_length. lia. }
    rewrite bnd_ret. unfold ret. split; [apply grow_refl|]. split; [apply frame_refl|]. split; [apply fresh_refl|].
    assert (Ha : accepted {| g_r_layers := Some gr; g_eps_layers := Some ge; g_mat_layers := None; g_mat_env := env; g_device := dev;
                             g_r_core := None; g_mat_core := None; g_r_shell := None; g_mat_shell := None |} (entries gr) (Some ge) None).
    { apply acc_eps with gr; try reflexivity; [repeat split|rewrite entries_length; now apply numel_1d|]. intros H. apply (f_equal (@List.length R)) in H. rewrite entries_length in H. cbn in H. lia. }
    split; [|split].
    + intros rs e ms H _. inversion H; cbn in *; try congruence. injection H1 as <-. injection H2 as <-. exists gr, None. subst rs. auto.
    + intros Hn. elim (Hn _ _ _ Ha).
    + intros x _. split; [eauto|discriminate].
  - (* mat_layers *)
    destruct (ndim gr =? 1) eqn:E1; cbn [chk]; [|unfold bnd, fail; apply parts_err; [|reflexivity|no_stack]].
    2:{ apply Nat.eqb_neq in E1. intros ? ? ? H. inversion H; cbn in *; try congruence. injection H1 as <-. apply E1. unfold ndim. now rewrite H4. }
    apply Nat.eqb_eq in E1. rewrite bnd_ret. destruct (Nat.ltb_spec (numel gr) 1) as [E2|E2]; cbn [chk negb]; [unfold bnd, fail; apply parts_err; [|reflexivity|no_stack]|].
    { intros ? ? ? H. inversion H; cbn in *; try congruence. injection H1 as <-. apply H6. subst rs. apply length_zero_iff_nil. rewrite entries_length. lia. }
    rewrite bnd_ret. destruct (Nat.eqb_spec (List.length gm) (numel gr)) as [E3|E3]; cbn [chk]; [|unfold bnd, fail; apply parts_err; [|reflexivity|no_stack]].
    2:{ intros ? ? ? H. inversion H; cbn in *; try congruence. injection H1 as <-. injection H3 as <-. subst rs. rewrite entries_length in H7. congruence. }
    rewrite bnd_ret. apply parts_mats; [reflexivity|no_stack|reflexivity|]. left. exists (entries gr). split; [|split].
    + apply acc_mat with gr; try reflexivity; [repeat split|rewrite entries_length; now apply numel_1d| |now rewrite entries_length].
      intros H. apply (f_equal (@List.length R)) in H. rewrite entries_length in H. cbn in H. lia.
    + intros ? ? ? H. inversion H; cbn in *; try congruence. injection H1 as <-. injection H3 as <-. auto.
    + exists gr. split; [rewrite entries_length; now apply numel_1d|]. split; [reflexivity|]. intros is. reflexivity.
  - (* shell *)
    unfold stack. cbn [forallb]. rewrite shape_eqb_refl. cbn [andb]. destruct (shape_eqb (shp rs) (shp rc)) eqn:E1; cbn [andb].
    2:{ apply shape_eqb_neq in E1. unfold bnd at 1. unfold bnd at 1. unfold lift. apply parts_err; [| |reflexivity].
        - intros ? ? ? H. inversion H; cbn in *; try congruence.
        - intros H. elim H. split; [repeat split|]. exists rc, mc, rs, ms. repeat split. cbn. congruence. }
    apply shape_eqb_eq in E1.
    match goal with |- context [lift (Ok ?t)] => set (rt := t) end.
    match goal with |- context [bnd (bnd (lift (Ok rt)) _) ?f] =>
      assert (E : forall hh, bnd (bnd (lift (Ok rt)) (fun r => bnd (as_materials d [mc; ms]) (fun is => ret (r, is)))) f hh =
                             bnd (as_materials d [mc; ms]) (fun is h => (h, if ndim rt =? 1 then if negb ((1 <? numel rt) && negb (increasing_1d rt)) then Ok (mkD d rt, None, Some is) else Err ValueError else Err ValueError)) hh) end.
    { intros hh. unfold bnd, lift, ret. destruct (as_materials d [mc; ms] hh) as [h1 [is|e]]; [|reflexivity]. cbn [fst snd]. destruct (ndim rt =? 1); cbn [chk]; [|reflexivity].
      unfold ret. destruct (negb _); reflexivity. }
    rewrite E. clear E. apply parts_mats; [reflexivity| |reflexivity|].
    { intros [_ (? & ? & ? & ? & H1 & H2 & H3 & H4 & H5)]. cbn in *. congruence. }
    destruct (shp rc) as [|n0 s0] eqn:Es.
    + assert (Er : shp rt = [2]) by (unfold rt; cbn [shp]; rewrite ?Es; reflexivity). unfold ndim, numel. rewrite Er. cbn [List.length fold_right Nat.mul Nat.eqb Nat.ltb Nat.leb].
      unfold increasing_1d, numel. rewrite Er. cbn [fold_right Nat.mul Nat.add Nat.sub seq forallb andb].
      assert (A0 : at_ rt [0] = at_ rc []) by reflexivity. assert (A1 : at_ rt [1] = at_ rs []) by reflexivity. rewrite A0, A1. change (@rltb R ROps) with Rltb. rewrite andb_true_r.
      destruct (Rltb (at_ rc []) (at_ rs [])) eqn:EL; cbn [negb].
      * apply Rltb_true in EL. left. exists [at_ rc []; at_ rs []]. split; [|split].
        -- apply acc_shell; try reflexivity; auto. repeat split.
        -- intros ? ? ? H. inversion H; cbn in *; try congruence. injection H1 as <-. injection H2 as <-. injection H3 as <-. injection H4 as <-. auto.
        -- exists rt. split; [exact Er|]. split; [unfold entries; rewrite Er; reflexivity|]. reflexivity.
      * apply Rltb_false in EL. right. split; [|reflexivity]. intros ? ? ? H. inversion H; cbn in *; try congruence. injection H1 as <-. injection H3 as <-. lra.
    + right. assert (Er : ndim rt =? 1 = false) by (unfold ndim, rt; cbn [shp]; rewrite ?Es; reflexivity). rewrite Er. split; [|reflexivity].
      intros ? ? ? H. inversion H; cbn in *; try congruence.
  - (* core *)
    match goal with |- context [bnd (bnd (as_materials d [mc]) _) ?f] =>
      assert (E : forall hh, bnd (bnd (as_materials d [mc]) (fun is => ret (unsqueeze 0 rc, is))) f hh =
                             bnd (as_materials d [mc]) (fun is h => (h, if ndim (unsqueeze 0 rc) =? 1 then if negb ((1 <? numel (unsqueeze 0 rc)) && negb (increasing_1d (unsqueeze 0 rc))) then Ok (mkD d (unsqueeze 0 rc), None, Some is) else Err ValueError else Err ValueError)) hh) end.
    { intros hh. unfold bnd, ret. destruct (as_materials d [mc] hh) as [h1 [is|e]]; [|reflexivity]. cbn [fst snd]. destruct (ndim (unsqueeze 0 rc) =? 1); cbn [chk]; [|reflexivity].
      unfold ret. destruct (negb _); reflexivity. }
    rewrite E. clear E. apply parts_mats; [reflexivity|no_stack|reflexivity|].
    unfold ndim, numel. cbn [unsqueeze shp insert_at List.length]. destruct (shp rc) as [|n0 s0] eqn:Es.
    + cbn [List.length Nat.eqb fold_right Nat.mul Nat.ltb Nat.leb Nat.add andb negb]. left. exists [at_ rc []]. split; [|split].
      * apply acc_core; try reflexivity; auto. repeat split.
      * intros ? ? ? H. inversion H; cbn in *; try congruence. injection H1 as <-. injection H2 as <-. auto.
      * exists (unsqueeze 0 rc). split; [cbn; now rewrite Es|]. split; [unfold entries; cbn; rewrite Es; reflexivity|]. reflexivity.
    + cbn [List.length Nat.eqb]. right. split; [|reflexivity]. intros ? ? ? H. inversion H; cbn in *; try congruence.
Qed.
