(** Derivatives through get_epsilon and through whole spectra (C95). *)
From Coq Require Import Reals ZArith Lra Lia List Bool Arith String Sorted.
From Coquelicot Require Import Coquelicot.
From Verif Require Import Ops ROps Spec CTrig CLemmas Tensor TensorProofs ModelMaterial MaterialSpec MaterialProofs InterpProofs ModelSpecial ModelMie ModelGrad GradSpec GradOps GradEnd ModelGradMat GradMatSpec GradMatProofs.
Import ListNotations.
Open Scope R_scope.

Lemma combine_lift xs ys : combine (map dconst xs) (map ccst ys) = lift_rows (combine xs ys).
Proof. revert ys. induction xs as [|x xs IH]; intros [|y ys]; try reflexivity. cbn [map combine lift_rows fst snd]. f_equal. apply IH. Qed.
Lemma srt_in (t : list (R * C)) q : In q (@sort_rows R ROps t) -> In q t.
Proof.
  induction t as [|p t IH]; [easy|]. change (@sort_rows R ROps (p :: t)) with (@insert_row R ROps p (@sort_rows R ROps t)). intros H.
  assert (G : forall l, In q (@insert_row R ROps p l) -> q = p \/ In q l).
  { induction l as [|r l IHl]; cbn [insert_row]; [intros [->|[]]; now left|]. match goal with |- context [if ?b then _ else _] => destruct b end.
    - intros [->|H']; [right; now left|]. destruct (IHl H'); [now left|right; now right].
    - intros [->|H']; [now left|now right]. }
  destruct (G _ H) as [->|H']; [now left|right; now apply IH].
Qed.
Lemma srt_len (t : list (R * C)) : List.length (@sort_rows R ROps t) = List.length t.
Proof.
  induction t as [|p t IH]; [reflexivity|]. change (@sort_rows R ROps (p :: t)) with (@insert_row R ROps p (@sort_rows R ROps t)).
  assert (G : forall l, List.length (@insert_row R ROps p l) = S (List.length l)).
  { induction l as [|r l IHl]; cbn [insert_row]; [reflexivity|]. match goal with |- context [if ?b then _ else _] => destruct b end; cbn [List.length]; [now rewrite IHl|reflexivity]. }
  rewrite G, IH. reflexivity.
Qed.
Lemma keys_combine {A B} (xs : list A) (ys : list B) : List.length xs = List.length ys -> map fst (combine xs ys) = xs.
Proof. revert ys. induction xs as [|x xs IH]; intros [|y ys] H; try discriminate; [reflexivity|]. cbn. f_equal. apply IH. now injection H. Qed.

Lemma sell_ok cs ps : sellmeier_pairs cs ps -> forall w acc, exists r, @sellmeier_sum R ROps cs w acc = Ok r.
Proof. induction 1 as [|b c cs ps H IH]; intros w acc; [now exists acc|]. cbn [sellmeier_sum]. apply IH. Qed.

Lemma sq_entries (ds : list dual) : (2 <= List.length ds)%nat -> entries (squeeze (vec_t rzero ds)) = ds.
Proof.
  intros H. unfold entries, squeeze, vec_t. cbn [shp at_ squeeze_shape filter unsqueeze_ix]. destruct (List.length ds =? 1)%nat eqn:E; [apply Nat.eqb_eq in E; lia|].
  cbn [negb indices map]. rewrite flat_map_concat_map. 
  assert (G : forall k n, List.concat (map (fun i => [[i]]) (seq k n)) = map (fun i => [i]) (seq k n)).
  { intros k n. revert k. induction n as [|n IH]; intros k; [reflexivity|]. cbn [seq map List.concat List.app]. f_equal. apply IH. }
  rewrite G, map_map. cbn [hd tl nth]. apply nth_ext with (d := rzero) (d' := rzero); [now rewrite map_length, seq_length|].
  intros i Hi. rewrite map_length, seq_length in Hi. rewrite (nth_indep _ _ (nth 0%nat ds rzero)) by now rewrite map_length, seq_length.
  rewrite (map_nth (fun i => nth i ds rzero)), seq_nth by exact Hi. reflexivity.
Qed.

Section T.
  Variable t0 : R.
  Notation car := (carries t0).
  Notation cc := (ccarries t0).
  Theorem interp_table (t : list (R * C)) (x : R -> R) (d : dual) : t <> [] -> NoDup (map fst t) -> ~ In (x t0) (map fst t) -> car x d ->
    cc (fun s => @interp_at R ROps (@sort_rows R ROps t) (x s)) (@interp_at dual DOps (@sort_rows dual DOps (lift_rows t)) d).
  Proof.
    intros Hn Hd Hx Hc. rewrite sort_lift. apply cc_interp; [now apply srt_sorted| |intros q Hq E; apply Hx; rewrite <- E; now apply in_map, srt_in|exact Hc].
    rewrite srt_len. destruct t; [easy|cbn; lia].
  Qed.
  (* evaluation of a database entry *)
  Lemma eval_carries (m : @db R) cache (x : R -> R) (d : dual) s dev : d_wl_dev m = dev -> d_eps_dev m = dev -> smooth_mat m (x t0) -> car x d ->
    exists v (e : R -> C), (forall y s', exists v', @mat_eval R ROps m {| w_val := y; w_dev := dev; w_src := s' |} = Ok v' /\ v_eps v' = e y) /\
      @mat_eval dual DOps (lift_db m cache) {| w_val := d; w_dev := dev; w_src := s |} = Ok v /\ cc (fun t => e (x t)) (v_eps v).
  Proof.
    intros E1 E2 Hm Hx. unfold smooth_mat in Hm. unfold mat_eval. cbn [lift_db d_model d_wl d_eps d_coeff d_wl_dev d_eps_dev w_val w_dev w_src].
    destruct (d_model m) eqn:Em.
    - destruct Hm as (Hn & Hd & Hl & Hin). rewrite E1, E2, String.eqb_refl. cbn [andb].
      assert (Hk : map fst (combine (d_wl m) (d_eps m)) = d_wl m) by now apply keys_combine.
      assert (Hne : d_wl m <> []) by exact Hn.
      eexists. exists (@interp_at R ROps (@sort_rows R ROps (combine (d_wl m) (d_eps m)))). split; [|split].
      + intros y s'. unfold interp1d. rewrite Hl, Nat.eqb_refl. cbn [negb numel scalar_t shp fold_right].
        destruct (List.length (d_eps m) =? 0)%nat eqn:Z; [apply Nat.eqb_eq in Z; rewrite <- Hl in Z; destruct (d_wl m); easy|].
        rewrite andb_false_r. cbn [bind]. eexists. split; reflexivity.
      + unfold interp1d. rewrite !map_length, Hl, Nat.eqb_refl. cbn [negb].
        destruct (List.length (d_eps m) =? 0)%nat eqn:Z; [apply Nat.eqb_eq in Z; rewrite <- Hl in Z; destruct (d_wl m); easy|].
        rewrite andb_false_r. cbn [bind]. reflexivity.
      + cbn [v_eps tmap at_ scalar_t]. rewrite combine_lift. apply interp_table; [|exact (eq_ind_r (fun l => NoDup l) Hd Hk)|exact (eq_ind_r (fun l => ~ In (x t0) l) Hin Hk)|exact Hx].
        intros E. apply Hne. rewrite <- Hk. exact (f_equal (map fst) E).
    - destruct Hm as (c0 & cs & ps & Ec & Hp & Hpole). rewrite Ec. cbn [map sellmeier].
      set (e := fun y => match @sellmeier R ROps (c0 :: cs) y with Ok r => r | Err _ => 0 end).
      destruct (car_sellmeier t0 cs ps Hp (fun t => x t / 1000) (@rdiv dual DOps d (rofZ 1000)) (fun _ => 1 + c0) (@radd dual DOps rone (dconst c0))) as (f & df & F1 & F2 & F3).
      { apply car_div; [exact Hx|exact (car_const t0 1000)|lra]. } { apply car_add; [exact (car_const t0 1)|apply car_const]. } { exact Hpole. }
      eexists. exists (fun y => RtoC (e y)). split; [|split].
      + intros y s'. destruct (sell_ok cs ps Hp (y / 1000) (1 + c0)) as [r Er]. unfold e. cbn [sellmeier]. change (@rdiv R ROps y (rofZ 1000)) with (y / 1000).
        change (@radd R ROps rone c0) with (1 + c0). rewrite Er. cbn [bind]. eexists. split; reflexivity.
      + rewrite F2. cbn [bind]. reflexivity.
      + cbn [v_eps]. apply cc_ofr. apply (car_ext t0 f); [|exact F3]. intros t. unfold e. cbn [sellmeier].
        change (@rdiv R ROps (x t) (rofZ 1000)) with (x t / 1000). change (@radd R ROps rone c0) with (1 + c0). now rewrite F1.
    - easy.
  Qed.
  Definition misses (d : dual) (cache : list (dual * @value dual)) : Prop := forall q, In q cache -> fst (fst q) <> fst d.
  Lemma find_miss d cache : misses d cache -> @find_eps dual DOps d cache = None.
  Proof.
    induction cache as [|[k v] l IH]; intros H; [reflexivity|]. cbn [find_eps]. cbn [reqb DOps].
    rewrite (proj2 (Reqb_false (fst d) (fst k))) by (intros E; now apply (H (k, v) (or_introl eq_refl))). apply IH. intros q Hq. apply H. now right.
  Qed.
  Lemma get_dual (m : @db R) cache (d : dual) s : @get_epsilon_db dual DOps (lift_db m cache) (dual_wl d s) =
    match @get_single dual DOps (lift_db m cache) {| w_val := d; w_dev := d_dev m; w_src := s |} with
    | (m', Ok v) => (m', Ok (scalar_t v)) | (m', Err e) => (m', Err e) end.
  Proof. reflexivity. Qed.
  Lemma single_carries (m : @db R) cache (x : R -> R) (d : dual) s : smooth_material (Db m) (x t0) -> car x d -> misses d cache ->
    exists v, @get_single dual DOps (lift_db m cache) {| w_val := d; w_dev := d_dev m; w_src := s |} = (lift_db m ((d, v) :: cache), Ok v) /\
      v_dev v = d_dev m /\ cc (fun t => mat_eps (Db m) (x t)) (v_eps v).
  Proof.
    intros [[E1 E2] Hm] Hx Hc. destruct (eval_carries m cache x d s (d_dev m) E1 E2 Hm Hx) as (v & e & A & B & D).
    exists {| v_eps := v_eps v; v_dev := d_dev m; v_src := v_src v |}.
    unfold get_single. cbn [w_val lift_db d_lookup]. rewrite (find_miss d cache Hc). fold (lift_db m cache). rewrite B. split; [reflexivity|]. split; [reflexivity|].
    cbn [v_eps]. apply (cc_ext t0 (fun t => e (x t))); [|exact D]. intros t. unfold mat_eps, fresh, get_epsilon.
    change {| wa_t := scalar_t (x t); wa_src := None |} with (at_wl (x t) None). rewrite get_scalar. unfold get_single. cbn [with_lookup d_lookup find_eps w_val d_dev].
    destruct (A (x t) None) as (v' & A1 & A2).
    assert (A3 : @mat_eval R ROps (with_lookup m []) {| w_val := x t; w_dev := d_dev m; w_src := None |} = Ok v') by exact A1.
    match goal with |- context [mat_eval ?u ?w] => replace (@mat_eval R ROps u w) with (@Ok (@value R) v') by (symmetry; exact A3) end. cbn. now symmetry.
  Qed.
  Theorem material (m : @db R) cache (x : R -> R) (d : dual) s : smooth_material (Db m) (x t0) -> car x d -> misses d cache ->
    exists v, @get_epsilon_db dual DOps (lift_db m cache) (dual_wl d s) = (lift_db m ((d, v) :: cache), Ok (scalar_t v)) /\
      cc (fun t => mat_eps (Db m) (x t)) (v_eps v).
  Proof. intros Hm Hx Hc. destruct (single_carries m cache x d s Hm Hx Hc) as (v & A & _ & B). exists v. rewrite get_dual, A. now split. Qed.
  (* vectors of different wavelengths *)
  Lemma list_carries (m : @db R) s : forall (xs : list (R -> R)) (ds : list dual) cache, Forall2 car xs ds ->
    List.Forall (fun x => smooth_material (Db m) (x t0)) xs -> NoDup (map fst ds) -> (forall d, In d ds -> misses d cache) ->
    exists cache' vs, @get_list dual DOps (lift_db m cache) (map (fun d => {| w_val := d; w_dev := d_dev m; w_src := s |}) ds) = (lift_db m cache', Ok vs) /\
      List.Forall (fun v => v_dev v = d_dev m) vs /\ Forall2 (fun x v => cc (fun t => mat_eps (Db m) (x t)) (v_eps v)) xs vs.
  Proof.
    induction xs as [|x xs IH]; intros ds cache H2 Hs Hn Hc; inversion H2 as [|x' d xs' ds' Hx H2' Ex E]; subst.
    - exists cache, []. repeat split; constructor.
    - apply Forall_cons_iff in Hs. destruct Hs as [Hs1 Hs2]. cbn [map] in Hn. apply NoDup_cons_iff in Hn. destruct Hn as [N1 N2].
      destruct (single_carries m cache x d s Hs1 Hx (Hc d (or_introl eq_refl))) as (v & A & B & D).
      destruct (IH ds' ((d, v) :: cache) H2' Hs2 N2) as (cache' & vs & A' & B' & D').
      { intros d' Hd' q [<-|Hq]; [intros E; apply N1; cbn [fst] in E; rewrite E; now apply in_map|]. exact (Hc d' (or_intror Hd') q Hq). }
      exists cache', (v :: vs). cbn [map get_list]. rewrite A, A'. split; [reflexivity|]. split; now constructor.
  Qed.
  Theorem vector (m : @db R) cache (xs : list (R -> R)) (ds : list dual) s : (2 <= List.length ds)%nat -> Forall2 car xs ds ->
    List.Forall (fun x => smooth_material (Db m) (x t0)) xs -> NoDup (map fst ds) -> (forall d, In d ds -> misses d cache) ->
    exists vs u cache', @get_epsilon_db dual DOps (lift_db m cache) {| wa_t := vec_t rzero ds; wa_src := s |} = (lift_db m cache', Ok (vec_t u vs)) /\
      Forall2 (fun x v => cc (fun t => mat_eps (Db m) (x t)) (v_eps v)) xs vs.
  Proof.
    intros Hl H2 Hs Hn Hc. destruct (list_carries m s xs ds cache H2 Hs Hn Hc) as (cache' & vs & A & B & D).
    unfold get_epsilon_db. cbn [wa_t wa_src].
    assert (Esh : shp (squeeze (vec_t rzero ds)) = [List.length ds]).
    { cbn [squeeze vec_t shp squeeze_shape filter]. destruct (List.length ds =? 1)%nat eqn:E1; [apply Nat.eqb_eq in E1; lia|reflexivity]. }
    rewrite Esh, sq_entries by exact Hl. cbn [lift_db d_dev]. fold (lift_db m cache). rewrite A. destruct vs as [|v vs].
    - inversion D; subst. inversion H2; subst. cbn in Hl. lia.
    - exists (v :: vs), v, cache'. apply Forall_cons_iff in B. destruct B as [B1 B2].
      replace (forallb _ vs) with true; [now split|]. symmetry. apply forallb_forall. intros u Hu. apply String.eqb_eq.
      rewrite B1. rewrite List.Forall_forall in B2. now apply B2.
  Qed.
  (* a second call at the same wavelength *)
  Theorem memo_tangent (m : @db R) cache (d d' : dual) s s' v m' : misses d cache -> fst d' = fst d ->
    @get_epsilon_db dual DOps (lift_db m cache) (dual_wl d s) = (m', Ok (scalar_t v)) ->
    snd (@get_epsilon_db dual DOps m' (dual_wl d' s')) = Ok (scalar_t v).
  Proof.
    intros Hc Hd. rewrite get_dual. unfold get_single at 1. cbn [w_val lift_db d_lookup]. rewrite (find_miss d cache Hc). fold (lift_db m cache).
    destruct (@mat_eval dual DOps (lift_db m cache) _) as [u|e]; [|discriminate]. intros H. injection H as <- H.
    assert (Hv : {| v_eps := v_eps u; v_dev := d_dev (lift_db m cache); v_src := v_src u |} = v) by exact (f_equal (fun f => f []) H).
    assert (Hb : @reqb dual DOps d' d = true) by exact (proj2 (Reqb_true (fst d') (fst d)) Hd).
    unfold get_epsilon_db, get_single, dual_wl. cbn [wa_t wa_src scalar_t squeeze squeeze_shape filter shp at_ unsqueeze_ix w_val with_lookup d_lookup find_eps].
    rewrite Hb. cbn [snd]. now rewrite <- Hv.
  Qed.
  (* spectra *)
  Lemma wl_carries (k0 : R -> R) dk : car k0 dk -> k0 t0 <> 0 -> car (fun t => 2 * PI / k0 t) (grad_wl dk).
  Proof.
    intros Hk Hz. unfold grad_wl. apply car_div; [|exact Hk|exact Hz].
    apply (car_ext t0 (fun _ => (1 + 1) * PI)); [intros; lra|]. apply car_mul; [exact (car_two t0)|exact (car_const t0 PI)].
  Qed.
  Theorem material_eps (m : @mat R) (x : R -> R) (d : dual) : smooth_material m (x t0) -> car x d -> cc (fun t => mat_eps m (x t)) (grad_eps m d).
  Proof.
    intros Hm Hx. destruct m as [c|b].
    - exact (cc_const t0 (c_eps c)).
    - destruct (material b [] x d None Hm Hx) as (v & A & B); [intros q []|]. unfold grad_eps. cbn [lift_mat get_epsilon].
      rewrite A. exact B.
  Qed.
  Lemma layer_carries (k0 : R -> R) dk l : car k0 dk -> k0 t0 <> 0 -> smooth_material (snd l) (2 * PI / k0 t0) ->
    carries_shell t0 (fun t => mat_layer (k0 t) l) (grad_mat_layer dk l).
  Proof.
    intros Hk Hz Hm. split; [exact (car_const t0 (fst l))|].
    exact (material_eps (snd l) (fun t => 2 * PI / k0 t) (grad_wl dk) Hm (wl_carries k0 dk Hk Hz)).
  Qed.
  Lemma last_map {A B} (f : A -> B) l a : last (map f l) (f a) = f (last l a).
  Proof. induction l as [|x l IH]; [reflexivity|]. destruct l as [|y l]; [reflexivity|]. exact IH. Qed.
  Theorem spectrum (n_max : nat) (k0 : R -> R) (dk : dual) (m_env : @mat R) (core : R * @mat R) (shells : list (R * @mat R)) :
    car k0 dk -> k0 t0 <> 0 -> fst (last shells core) <> 0 ->
    (forall m, In m (m_env :: snd core :: map snd shells) -> smooth_material m (2 * PI / k0 t0)) ->
    smooth_particle n_max (k0 t0) (mat_eps m_env (2 * PI / k0 t0)) (mat_layer (k0 t0) core) (map (mat_layer (k0 t0)) shells) ->
    let env t := mat_eps m_env (2 * PI / k0 t) in let denv := grad_eps m_env (grad_wl dk) in
    let a t n := fst (@mie_pena R ROps n_max (k0 t) (env t) (mat_layer (k0 t) core) (map (mat_layer (k0 t)) shells) n) in
    let b t n := snd (@mie_pena R ROps n_max (k0 t) (env t) (mat_layer (k0 t) core) (map (mat_layer (k0 t)) shells) n) in
    let k t := @cmul R ROps (cofr (k0 t)) (csqrt (env t)) in
    let r := fst (last shells core) in
    let da n := fst (grad_pena n_max 15 dk denv (grad_mat_layer dk core) (map (grad_mat_layer dk) shells) n) in
    let db n := snd (grad_pena n_max 15 dk denv (grad_mat_layer dk core) (map (grad_mat_layer dk) shells) n) in
    let d_k := grad_k dk denv in
    car (fun t => @q_ext R ROps n_max (k t) r (a t) (b t)) (@q_ext dual DOps n_max d_k (dconst r) da db) /\
    car (fun t => @q_sca R ROps n_max (k t) r (a t) (b t)) (@q_sca dual DOps n_max d_k (dconst r) da db) /\
    car (fun t => @q_abs R ROps n_max (k t) r (a t) (b t)) (@q_abs dual DOps n_max d_k (dconst r) da db).
  Proof.
    intros Hk Hz Hr Hm Hs env denv a b k r da db d_k.
    assert (Henv : cc env denv) by exact (material_eps m_env _ _ (Hm m_env (or_introl eq_refl)) (wl_carries k0 dk Hk Hz)).
    assert (Hcore : carries_shell t0 (fun t => mat_layer (k0 t) core) (grad_mat_layer dk core)) by (apply layer_carries; [exact Hk|exact Hz|apply Hm; right; now left]).
    assert (Hsh : Forall2 (carries_shell t0) (map (fun l t => mat_layer (k0 t) l) shells) (map (grad_mat_layer dk) shells)).
    { assert (Hm' : forall l, In l shells -> smooth_material (snd l) (2 * PI / k0 t0)) by (intros l Hl; apply Hm; right; right; now apply in_map).
      clear - Hm' Hk Hz. induction shells as [|l ls IH]; [constructor|]. cbn [map]. constructor; [apply layer_carries; [exact Hk|exact Hz|apply Hm'; now left]|].
      apply IH. intros l' Hl'. apply Hm'. now right. }
    assert (Em : forall t, map (fun s : R -> R * C => s t) (map (fun l t => mat_layer (k0 t) l) shells) = map (mat_layer (k0 t)) shells) by (intros t; rewrite map_map; reflexivity).
    assert (Er : forall t, fst (last (map (fun s : R -> R * C => s t) (map (fun l t => mat_layer (k0 t) l) shells)) (mat_layer (k0 t) core)) = r).
    { intros t. rewrite Em, last_map. reflexivity. }
    pose proof (efficiencies n_max t0 k0 env (fun t => mat_layer (k0 t) core) (map (fun l t => mat_layer (k0 t) l) shells) dk denv
      (grad_mat_layer dk core) (map (grad_mat_layer dk) shells) Hk Henv Hcore Hsh) as E.
    cbv beta zeta in E. rewrite Em in E. specialize (E Hs Hz). specialize (E ltac:(rewrite last_map; exact Hr)).
    assert (Ed : fst (last (map (grad_mat_layer dk) shells) (grad_mat_layer dk core)) = dconst r) by (rewrite last_map; reflexivity).
    rewrite Ed in E. destruct E as (E1 & E2 & E3).
    split; [|split]; [eapply car_ext; [|exact E1]|eapply car_ext; [|exact E2]|eapply car_ext; [|exact E3]]; intros t; cbv beta; rewrite Er, Em; reflexivity.
  Qed.
End T.
