(** Proofs about the material classes. *)
From Coq Require Import Reals ZArith List Bool String Ascii Arith Lia Lra.
From Coquelicot Require Import Coquelicot.
From Verif Require Import Ops ROps CLemmas Tensor TensorProofs ModelMaterial MaterialSpec.
Import ListNotations.
Open Scope list_scope.

(** ** splitting *)
Lemma all_chars_app P s t : all_chars P (s ++ t)%string = all_chars P s && all_chars P t.
Proof. induction s as [|c s IH]; [reflexivity|]. cbn. now rewrite IH, andb_assoc. Qed.
Lemma ws_aux_blank b s : blank b -> b <> EmptyString -> ws_aux (b ++ s)%string = (EmptyString, split_ws s).
Proof.
  unfold blank, split_ws. induction b as [|c b IH]; intros H Hne; [congruence|]. cbn [all_chars] in H. apply andb_true_iff in H. destruct H as [Hc Hb].
  cbn [append ws_aux]. destruct b as [|c' b'].
  - cbn [append]. destruct (ws_aux s) as [w ts]. now rewrite Hc.
  - rewrite IH by (auto; discriminate). rewrite Hc. cbn [emit]. reflexivity.
Qed.
Lemma split_ws_blank b s : blank b -> split_ws (b ++ s)%string = split_ws s.
Proof.
  intros H. destruct b as [|c b']; [reflexivity|]. unfold split_ws at 1. rewrite ws_aux_blank by (auto; discriminate). reflexivity.
Qed.
Lemma starts_aux s : starts_ws s -> ws_aux s = (EmptyString, split_ws s).
Proof.
  destruct s as [|c s]; intros H; [reflexivity|]. cbn in H. change (String c s) with (String c EmptyString ++ s)%string at 1.
  rewrite ws_aux_blank; [|unfold blank; cbn; now rewrite H|discriminate]. unfold split_ws at 2. cbn [ws_aux]. unfold split_ws. destruct (ws_aux s) as [w ts]. now rewrite H.
Qed.
Lemma ws_aux_word w s : all_chars (fun c => negb (is_ws c)) w = true -> starts_ws s -> ws_aux (w ++ s)%string = (w, split_ws s).
Proof.
  intros H Hs. induction w as [|c w IH]; [now apply starts_aux|]. cbn [all_chars] in H. apply andb_true_iff in H. destruct H as [Hc Hw].
  cbn [append ws_aux]. rewrite IH by exact Hw. apply negb_true_iff in Hc. now rewrite Hc.
Qed.
Lemma split_ws_line ws s : line_of ws s -> split_ws s = ws.
Proof.
  induction 1 as [b Hb|b w ws rest Hb [Hne Hw] Hr Hl IH].
  - replace b with (b ++ EmptyString)%string by (clear; induction b as [|c b IH]; [reflexivity|cbn; now rewrite IH]). now rewrite split_ws_blank.
  - rewrite split_ws_blank by exact Hb. unfold split_ws. rewrite ws_aux_word by assumption. rewrite IH. destruct w; [congruence|reflexivity].
Qed.
Lemma lines_aux_app l s : no_newline l -> lines_aux (l ++ s)%string = (let (w, ts) := lines_aux s in ((l ++ w)%string, ts)).
Proof.
  unfold no_newline. induction l as [|c l IH]; intros H; cbn [append]; [now destruct (lines_aux s)|]. cbn [all_chars] in H. apply andb_true_iff in H. destruct H as [Hc Hl].
  cbn [lines_aux]. rewrite IH by exact Hl. destruct (lines_aux s). apply negb_true_iff in Hc. now rewrite Hc.
Qed.
Lemma app_empty s : (s ++ "")%string = s.
Proof. induction s as [|c s IH]; [reflexivity|]. cbn. now rewrite IH. Qed.
Lemma split_lines_join ls : List.Forall no_newline ls -> ls <> [] -> split_lines (join_lines ls) = ls.
Proof.
  induction ls as [|l ls IH]; intros H Hne; [congruence|]. inversion_clear H as [|? ? Hl Hls]. destruct ls as [|l' ls].
  - cbn [join_lines]. unfold split_lines. rewrite <- (app_empty l) at 1. rewrite lines_aux_app by exact Hl. cbn. now rewrite app_empty.
  - unfold split_lines in *. change (join_lines (l :: l' :: ls)) with (l ++ String newline (join_lines (l' :: ls)))%string.
    rewrite lines_aux_app by exact Hl. cbn [lines_aux]. specialize (IH Hls ltac:(discriminate)).
    destruct (lines_aux (join_lines (l' :: ls))) as [w ts]. rewrite Ascii.eqb_refl. rewrite app_empty. now rewrite IH.
Qed.

(** ** tabulated data *)
Section Tab.
  Variable pf : string -> result R.
  Notation eps_of n k := ((n * n - k * k, 2 * n * k)%R : C).
  Lemma load_row_means s r : row_means pf s r -> load_row pf s = Ok (option_map (fun q : R * R * R => let '(w, n, k) := q in (1000 * w, eps_of n k))%R r).
  Proof.
    destruct 1 as [|s0 s1 w n H0 H1|s0 s1 s2 more w n k H0 H1 H2]; [reflexivity| |]; cbn [load_row]; rewrite H0; cbn [bind]; rewrite H1; cbn [bind]; rewrite ?H2; cbn [bind option_map];
      unfold csqr, cmul, cadd, ci, cofr; cbn; do 2 f_equal; apply f_equal2; f_equal; ring.
  Qed.
  Lemma load_tabulated_means lines (toks : list (list string)) rows : lines <> [] -> List.Forall no_newline lines -> Forall2 line_of toks lines ->
    Forall2 (row_means pf) toks rows ->
    load_tabulated pf (join_lines lines) =
      Ok (map (fun q => 1000 * fst (fst q))%R (kept rows), map (fun q => eps_of (snd (fst q)) (snd q)) (kept rows)).
  Proof.
    intros Hne Hnl Hl Hr. unfold load_tabulated. rewrite split_lines_join by assumption.
    assert (E : map split_ws lines = toks). { clear - Hl. induction Hl as [|t l ts ls H _ IH]; [reflexivity|]. cbn. now rewrite IH, (split_ws_line _ _ H). }
    rewrite E. clear - Hr.
    assert (E : map_res (load_row pf) toks = Ok (map (option_map (fun q : R * R * R => let '(w, n, k) := q in (1000 * w, eps_of n k))%R) rows)).
    { induction Hr as [|t r ts rs H _ IH]; [reflexivity|]. cbn [map_res]. rewrite (load_row_means _ _ H). cbn [bind]. rewrite IH. reflexivity. }
    rewrite E. cbn [bind]. clear E Hr. f_equal. f_equal; induction rows as [|[[[w n] k]|] rows IH]; cbn [map option_map somes kept]; try exact IH; try reflexivity; cbn [map]; f_equal; exact IH.
  Qed.
  Lemma load_one_column s0 : (exists w, pf s0 = Ok w) -> load_row pf [s0] = Err IndexError.
  Proof. intros [w H]. cbn. now rewrite H. Qed.
End Tab.

(** ** Sellmeier *)
Fixpoint flat (ps : list (R * R)) : list R := match ps with [] => [] | (b, c) :: ps' => b :: c :: flat ps' end.
Definition rsumR (l : list R) : R := fold_right Rplus 0%R l.
Lemma sellmeier_sum_flat ps w acc : @sellmeier_sum R ROps (flat ps) w acc =
  Ok (acc + rsumR (map (fun bc => fst bc * (w * w) / (w * w - snd bc * snd bc)) ps))%R.
Proof.
  revert acc. induction ps as [|[b c] ps IH]; intros acc; cbn [flat sellmeier_sum map rsumR fold_right]; [f_equal; cbn; ring|].
  rewrite IH. unfold sellmeier_term, rsqr, rsub. cbn [radd rmul rdiv ropp rone ROps fst snd]. rewrite !Rmult_1_r. f_equal. unfold rsumR, Rminus. ring.
Qed.
Lemma sellmeier_flat c0 ps wl : @sellmeier R ROps (c0 :: flat ps) wl =
  Ok (1 + c0 + rsumR (map (fun bc => fst bc * (wl/1000 * (wl/1000)) / (wl/1000 * (wl/1000) - snd bc * snd bc)) ps))%R.
Proof. cbn [sellmeier]. rewrite sellmeier_sum_flat. reflexivity. Qed.
Lemma sellmeier_odd c0 ps b wl : @sellmeier R ROps (c0 :: flat ps ++ [b]) wl = Err IndexError.
Proof.
  cbn [sellmeier]. generalize (radd rone c0). induction ps as [|[b' c'] ps IH]; intros acc; [reflexivity|]. cbn [flat app sellmeier_sum]. apply IH.
Qed.

(** ** the memo table *)
Definition pure (m : @db R) (k : R) : result C :=
  match d_model m with
  | MData => bind (@interp1d R ROps (scalar_t k) (d_wl m) (d_eps m)) (fun y => Ok (at_ y []))
  | MSellmeier => bind (@sellmeier R ROps (d_coeff m) k) (fun e => Ok (RtoC e))
  | MOther _ => Err ValueError
  end.
(* the fields that evaluation depends on *)
Definition static (m : @db R) := (d_model m, d_wl m, d_eps m, d_coeff m).
Lemma pure_static m m' k : static m = static m' -> pure m k = pure m' k.
Proof. intros H. unfold static in H. injection H as H1 H2 H3 H4. unfold pure. now rewrite H1, H2, H3, H4. Qed.
Record inv (m : @db R) : Prop := {
  inv_dev : d_model m = MData -> d_wl_dev m = d_dev m /\ d_eps_dev m = d_dev m;
  inv_cache : forall k v, In (k, v) (d_lookup m) -> v_dev v = d_dev m /\ pure m k = Ok (v_eps v) }.

Lemma find_in k l v : @find_eps R ROps k l = Some v -> In (k, v) l.
Proof.
  induction l as [|[k' v'] l IH]; [discriminate|]. cbn. change (@reqb R ROps) with Reqb. destruct (Reqb k k') eqn:E.
  - apply Reqb_true in E. intros H. injection H as <-. left. congruence.
  - intros H. right. now apply IH.
Qed.
Lemma find_cons k v l : @find_eps R ROps k ((k, v) :: l) = Some v.
Proof. cbn. change (@reqb R ROps) with Reqb. now rewrite (proj2 (Reqb_true k k) eq_refl). Qed.
(* entries once found stay *)
Lemma find_other k k' v l : @find_eps R ROps k l <> None -> k' <> k -> @find_eps R ROps k ((k', v) :: l) = @find_eps R ROps k l.
Proof. intros _ H. cbn. change (@reqb R ROps) with Reqb. now rewrite (proj2 (Reqb_false k k')) by congruence. Qed.

Definition keeps (m m' : @db R) := static m' = static m /\ d_dev m' = d_dev m.
Lemma keeps_refl m : keeps m m. Proof. split; reflexivity. Qed.
Lemma keeps_trans a b c : keeps a b -> keeps b c -> keeps a c.
Proof. intros [H1 H2] [H3 H4]. split; congruence. Qed.
Definition outcome (m : @db R) (k : R) (r : result (@value R)) : Prop :=
  match pure m k with Ok e => exists s, r = Ok {| v_eps := e; v_dev := d_dev m; v_src := s |} | Err er => r = Err er end.

Lemma mat_eval_pure m w : inv m -> w_dev w = d_dev m ->
  match pure m (w_val w) with Ok e => exists s, @mat_eval R ROps m w = Ok {| v_eps := e; v_dev := d_dev m; v_src := s |} | Err er => @mat_eval R ROps m w = Err er end.
Proof.
  intros Hi Hw. unfold pure, mat_eval. destruct (d_model m) eqn:Em.
  - destruct (inv_dev m Hi Em) as [E1 E2]. rewrite Hw, E1, E2, !String.eqb_refl. cbn [andb]. destruct (interp1d _ _ _); cbn [bind]; [eexists; reflexivity|reflexivity].
  - destruct (sellmeier _ _); cbn [bind]; [|reflexivity]. rewrite Hw. eexists. reflexivity.
  - reflexivity.
Qed.
Lemma get_single_inv m w : inv m -> w_dev w = d_dev m ->
  let (m', r) := @get_single R ROps m w in inv m' /\ keeps m m' /\ outcome m (w_val w) r.
Proof.
  intros Hi Hw. unfold get_single. destruct (find_eps (w_val w) (d_lookup m)) as [v|] eqn:F.
  - split; [exact Hi|]. split; [apply keeps_refl|]. apply find_in in F. destruct (inv_cache m Hi _ _ F) as [E1 E2]. unfold outcome. rewrite E2.
    exists (v_src v). rewrite <- E1. now destruct v.
  - pose proof (mat_eval_pure m w Hi Hw) as H. destruct (pure m (w_val w)) as [e|er] eqn:Ep.
    + destruct H as [s ->]. split; [|split; [split; reflexivity|unfold outcome; rewrite Ep; exists s; reflexivity]].
      split.
      * exact (inv_dev m Hi).
      * intros k v [E|Hin]; [injection E as <- <-; cbn; split; [reflexivity|]; etransitivity; [|exact Ep]; now apply pure_static|].
        destruct (inv_cache m Hi _ _ Hin) as [E1 E2]. split; [exact E1|]. etransitivity; [|exact E2]. now apply pure_static.
    + rewrite H. split; [exact Hi|]. split; [apply keeps_refl|]. unfold outcome. now rewrite Ep.
Qed.
(* the list outcome: first error, or all values *)
Fixpoint pures (m : @db R) (ks : list R) : result (list C) :=
  match ks with [] => Ok [] | k :: ks' => let* e := pure m k in let* es := pures m ks' in Ok (e :: es) end.
Lemma pures_static m m' ks : static m = static m' -> pures m ks = pures m' ks.
Proof. intros H. induction ks as [|k ks IH]; [reflexivity|]. cbn. now rewrite (pure_static m m' k H), IH. Qed.
Lemma get_list_inv ws : forall m, inv m -> (forall w, In w ws -> w_dev w = d_dev m) ->
  let (m', r) := @get_list R ROps m ws in inv m' /\ keeps m m' /\
    match pures m (map w_val ws) with
    | Ok es => exists vs, r = Ok vs /\ map v_eps vs = es /\ forall v, In v vs -> v_dev v = d_dev m
    | Err er => r = Err er
    end.
Proof.
  induction ws as [|w ws IH]; intros m Hi Hw; cbn [get_list map pures].
  - split; [exact Hi|]. split; [apply keeps_refl|]. exists []. split; [reflexivity|]. split; [reflexivity|]. intros v [].
  - pose proof (get_single_inv m w Hi (Hw w (or_introl eq_refl))) as H. destruct (get_single m w) as [m1 r1]. destruct H as (Hi1 & Hk1 & Ho).
    unfold outcome in Ho. destruct (pure m (w_val w)) as [e|er].
    + destruct Ho as [s ->]. cbn [bind].
      specialize (IH m1 Hi1). destruct (get_list m1 ws) as [m2 r2].
      destruct IH as (Hi2 & Hk2 & Hp); [intros w' Hin; destruct Hk1 as [_ ->]; apply Hw; now right|].
      rewrite (pures_static m1 m) in Hp by apply Hk1. destruct (pures m (map w_val ws)) as [es|er]; cbn [bind].
      * destruct Hp as (vs & -> & Hes & Hd). split; [exact Hi2|]. split; [now apply keeps_trans with m1|].
        eexists. split; [reflexivity|]. split; [cbn; now rewrite Hes|]. intros v [<-|Hin]; [reflexivity|]. rewrite (Hd v Hin). apply Hk1.
      * subst r2. split; [exact Hi2|]. split; [now apply keeps_trans with m1|reflexivity].
    + subst r1. cbn [bind]. split; [exact Hi1|]. split; [exact Hk1|reflexivity].
Qed.
(* what get_epsilon returns, in terms of [pure] *)
Definition get_spec (m : @db R) (a : @warg R) (r : result (tensor (@value R))) : Prop :=
  let t := squeeze (wa_t a) in
  match shp t with
  | [] => match pure m (at_ t []) with
          | Ok e => exists s, r = Ok (scalar_t {| v_eps := e; v_dev := d_dev m; v_src := s |})
          | Err er => r = Err er end
  | [_] => match pures m (entries t) with
           | Ok [] => r = Err RuntimeError
           | Ok es => exists u, r = Ok u /\ shp u = [List.length es] /\
               forall ix, v_eps (at_ u ix) = nth (nth 0 ix 0%nat) es (hd (RtoC 0) es) /\ v_dev (at_ u ix) = d_dev m
           | Err er => r = Err er end
  | _ => r = Err RuntimeError
  end.
Lemma get_epsilon_inv m a : inv m -> let (m', r) := @get_epsilon_db R ROps m a in inv m' /\ keeps m m' /\ get_spec m a r.
Proof.
  intros Hi. unfold get_epsilon_db, get_spec. cbv zeta. destruct (shp (squeeze (wa_t a))) as [|K [|? ?]] eqn:Es.
  - set (w := {| w_val := at_ (squeeze (wa_t a)) []; w_dev := d_dev m; w_src := wa_src a |}).
    pose proof (get_single_inv m w Hi eq_refl) as H. destruct (get_single m w) as [m1 r1]. destruct H as (Hi1 & Hk1 & Ho). unfold outcome in Ho.
    change (w_val w) with (at_ (squeeze (wa_t a)) []) in Ho. destruct (pure m _) as [e|er].
    + destruct Ho as [s ->]. split; [exact Hi1|]. split; [exact Hk1|]. eexists. reflexivity.
    + subst r1. auto.
  - set (wv := fun x : R => {| w_val := x; w_dev := d_dev m; w_src := wa_src a |}). set (ws := map wv (entries (squeeze (wa_t a)))).
    pose proof (get_list_inv ws m Hi) as H. destruct (get_list m ws) as [m1 r1].
    destruct H as (Hi1 & Hk1 & Ho). { intros w Hw. apply in_map_iff in Hw. destruct Hw as (x & <- & _). reflexivity. }
    assert (E : map w_val ws = entries (squeeze (wa_t a))) by (unfold ws; rewrite map_map; apply map_id).
    rewrite E in Ho. destruct (pures m _) as [es|er].
    + destruct Ho as (us0 & -> & <- & Hd). destruct us0 as [|v us]; [cbn [map]; auto|]. cbn [map].
      assert (F : forallb (fun u => String.eqb (v_dev u) (v_dev v)) us = true).
      { apply forallb_forall. intros u Hu. apply String.eqb_eq. rewrite (Hd u (or_intror Hu)), (Hd v (or_introl eq_refl)). reflexivity. }
      rewrite F. split; [exact Hi1|]. split; [exact Hk1|]. eexists. split; [reflexivity|]. cbn [vec_t shp at_]. split; [cbn; now rewrite map_length|].
      intros ix. split; [cbn [hd]; change (v_eps v :: map v_eps us) with (map v_eps (v :: us)); symmetry; apply (map_nth v_eps)|].
      destruct (nth_in_or_default (nth 0 ix 0%nat) (v :: us) v) as [Hin| ->]; apply Hd; [exact Hin|now left].
    + subst r1. auto.
  - split; [exact Hi|]. split; [apply keeps_refl|reflexivity].
Qed.
Lemma get_spec_same m m' a r r' : static m = static m' -> d_dev m = d_dev m' -> get_spec m a r -> get_spec m' a r' -> same_eps r r'.
Proof.
  intros Hs Hd. unfold get_spec. cbv zeta. destruct (shp (squeeze (wa_t a))) as [|K [|? ?]].
  - rewrite (pure_static m m' _ Hs). destruct (pure m' _) as [e|er].
    + intros [s ->] [s' ->]. cbn. auto.
    + intros -> ->. reflexivity.
  - rewrite (pures_static m m' _ Hs). destruct (pures m' _) as [[|e es]|er].
    + intros -> ->. reflexivity.
    + intros (u & -> & E1 & H1) (u' & -> & E2 & H2). cbn. split; [congruence|]. intros ix. destruct (H1 ix) as [-> ->], (H2 ix) as [-> ->]. auto.
    + intros -> ->. reflexivity.
  - intros -> ->. reflexivity.
Qed.
Lemma set_device_inv m d : inv m -> inv (set_device_db d m) /\ static (set_device_db d m) = static m /\ d_dev (set_device_db d m) = d.
Proof.
  intros Hi. split; [|split; reflexivity]. split; [intros _; split; reflexivity|]. intros k v Hin. cbn in Hin. apply in_map_iff in Hin.
  destruct Hin as ([k' v'] & E & Hin). injection E as <- <-. split; [reflexivity|]. destruct (inv_cache m Hi _ _ Hin) as [_ E2]. etransitivity; [|exact E2]. now apply pure_static.
Qed.
Lemma hrun_inv h : forall m, inv m -> inv (hrun m h) /\ static (hrun m h) = static m.
Proof.
  induction h as [|o h IH]; intros m Hi; [split; [exact Hi|reflexivity]|]. cbn [hrun fold_left]. fold (hrun (hstep m o) h).
  assert (H : inv (hstep m o) /\ static (hstep m o) = static m).
  { destruct o as [a|d]; cbn [hstep].
    - pose proof (get_epsilon_inv m a Hi) as H. destruct (get_epsilon_db m a) as [m' r]. destruct H as (H1 & H2 & _). split; [exact H1|apply H2].
    - destruct (set_device_inv m d Hi) as (H1 & H2 & _). auto. }
  destruct H as [H1 H2]. destruct (IH _ H1) as [H3 H4]. split; [exact H3|congruence].
Qed.
Lemma init_lookup_inv ws : forall m m', inv m -> (forall w, In w ws -> w_dev w = d_dev m) -> init_lookup m ws = Ok m' -> inv m' /\ keeps m m'.
Proof.
  induction ws as [|w ws IH]; intros m m' Hi Hw H; cbn in H; [injection H as <-; split; [exact Hi|apply keeps_refl]|].
  pose proof (get_single_inv m w Hi (Hw w (or_introl eq_refl))) as G. destruct (get_single m w) as [m1 [v|e]]; [|discriminate]. destruct G as (G1 & G2 & _).
  destruct (IH m1 m' G1) as [H1 H2]; [intros w' Hin; destruct G2 as [_ ->]; apply Hw; now right|exact H|]. split; [exact H1|now apply keeps_trans with m1].
Qed.
Section Load.
  Variables (pf : string -> result R) (pi : string -> result Z).
  Lemma load_no_init dats d ws m : load_db pf pi dats d ws = Ok m -> exists m0, load_db pf pi dats d [] = Ok m0 /\ init_lookup m0 ws = Ok m.
  Proof.
    unfold load_db. destruct dats as [|y ys]; [discriminate|]. destruct (split_ws (y_type y)) as [|t0 ts]; [discriminate|].
    match goal with |- bind ?x _ = _ -> _ => destruct x as [m0|e] end; cbn [bind]; [|discriminate]. intros H. exists m0. split; [reflexivity|exact H].
  Qed.
  Lemma load_inv0 dats d m : load_db pf pi dats d [] = Ok m -> inv m /\ d_dev m = d /\ d_lookup m = [].
  Proof.
    unfold load_db. destruct dats as [|y ys]; [discriminate|]. destruct (split_ws (y_type y)) as [|t0 ts]; [discriminate|].
    destruct (String.eqb t0 "tabulated").
    - destruct (y_data y) as [s|]; [|discriminate]. destruct (load_tabulated pf s) as [[wl ep]|]; [|discriminate]. cbn [bind fst snd]. destruct wl; [discriminate|].
      cbn. intros H. injection H as <-. split; [|auto]. split; [auto|intros k v []].
    - destruct (String.eqb t0 "formula"); [|discriminate]. destruct (load_formula pf pi y) as [[[t r] co]|]; [|discriminate]. cbn.
      intros H. injection H as <-. split; [|auto]. split; [|intros k v []]. cbn. destruct (t =? 1)%Z; discriminate.
  Qed.
  (* data and coefficients do not depend on the device *)
  Lemma load_static dats d d' m m' : load_db pf pi dats d [] = Ok m -> load_db pf pi dats d' [] = Ok m' -> static m = static m'.
  Proof.
    unfold load_db. destruct dats as [|y ys]; [discriminate|]. destruct (split_ws (y_type y)) as [|t0 ts]; [discriminate|].
    destruct (String.eqb t0 "tabulated").
    - destruct (y_data y) as [s|]; [|discriminate]. destruct (load_tabulated pf s) as [[wl ep]|]; [|discriminate]. cbn [bind fst snd]. destruct wl; [discriminate|].
      cbn. intros H H'. injection H as <-. injection H' as <-. reflexivity.
    - destruct (String.eqb t0 "formula"); [|discriminate]. destruct (load_formula pf pi y) as [[[t r] co]|]; [|discriminate]. cbn.
      intros H H'. injection H as <-. injection H' as <-. reflexivity.
  Qed.
  Lemma memo_fresh dats d ws m h fresh a :
    load_db pf pi dats d ws = Ok m -> (forall w, In w ws -> w_dev w = d) ->
    load_db pf pi dats (d_dev (hrun m h)) [] = Ok fresh ->
    same_eps (snd (@get_epsilon_db R ROps (hrun m h) a)) (snd (@get_epsilon_db R ROps fresh a)).
  Proof.
    intros Hm Hw Hf. destruct (load_no_init _ _ _ _ Hm) as (m0 & H0 & Hi). destruct (load_inv0 _ _ _ H0) as (I0 & D0 & _).
    destruct (init_lookup_inv ws m0 m I0) as [I1 [S1 _]]; [intros w Hin; rewrite D0; now apply Hw|exact Hi|].
    destruct (hrun_inv h m I1) as [I2 S2]. destruct (load_inv0 _ _ _ Hf) as (IF & DF & _).
    pose proof (get_epsilon_inv _ a I2) as G. pose proof (get_epsilon_inv _ a IF) as GF.
    destruct (get_epsilon_db (hrun m h) a) as [m1 r1]. destruct (get_epsilon_db fresh a) as [m2 r2]. cbn [snd].
    eapply get_spec_same; [| |apply G|apply GF].
    - rewrite S2, S1. eapply load_static; eassumption.
    - now rewrite DF.
  Qed.
  Lemma load_any_device dats d d' m : load_db pf pi dats d [] = Ok m -> exists m', load_db pf pi dats d' [] = Ok m'.
  Proof.
    unfold load_db. destruct dats as [|y ys]; [discriminate|]. destruct (split_ws (y_type y)) as [|t0 ts]; [discriminate|].
    destruct (String.eqb t0 "tabulated").
    - destruct (y_data y) as [s|]; [|discriminate]. destruct (load_tabulated pf s) as [[wl ep]|]; [|discriminate]. cbn [bind fst snd]. destruct wl; [discriminate|].
      cbn. intros _. eexists. reflexivity.
    - destruct (String.eqb t0 "formula"); [|discriminate]. destruct (load_formula pf pi y) as [[[t r] co]|]; [|discriminate]. cbn. intros _. eexists. reflexivity.
  Qed.
End Load.

(** ** provenance: a hit returns the tensor of the first call *)
Definition at_wl (x : R) (s : option nat) : @warg R := {| wa_t := scalar_t x; wa_src := s |}.
Lemma get_scalar m x s : @get_epsilon_db R ROps m (at_wl x s) =
  match @get_single R ROps m {| w_val := x; w_dev := d_dev m; w_src := s |} with
  | (m', Ok v) => (m', Ok (scalar_t v)) | (m', Err e) => (m', Err e) end.
Proof. reflexivity. Qed.
Lemma find_keep_single m w x : @find_eps R ROps x (d_lookup m) <> None ->
  @find_eps R ROps x (d_lookup (fst (@get_single R ROps m w))) = @find_eps R ROps x (d_lookup m).
Proof.
  intros H. unfold get_single. destruct (find_eps (w_val w) (d_lookup m)) eqn:F; [reflexivity|]. destruct (mat_eval m w); [|reflexivity].
  cbn [fst with_lookup d_lookup]. apply find_other; [exact H|]. intros E. rewrite E in F. congruence.
Qed.
Lemma find_keep_list ws : forall m x, @find_eps R ROps x (d_lookup m) <> None ->
  @find_eps R ROps x (d_lookup (fst (@get_list R ROps m ws))) = @find_eps R ROps x (d_lookup m).
Proof.
  induction ws as [|w ws IH]; intros m x H; [reflexivity|]. cbn [get_list]. pose proof (find_keep_single m w x H) as E. destruct (get_single m w) as [m1 [v|e]]; cbn [fst] in *; [|exact E].
  assert (H1 : find_eps x (d_lookup m1) <> None) by congruence. specialize (IH m1 x H1). destruct (get_list m1 ws) as [m2 [vs|e]]; cbn [fst] in *; congruence.
Qed.
Lemma find_keep m a x : @find_eps R ROps x (d_lookup m) <> None ->
  @find_eps R ROps x (d_lookup (fst (@get_epsilon_db R ROps m a))) = @find_eps R ROps x (d_lookup m).
Proof.
  intros H. unfold get_epsilon_db. cbv zeta. destruct (shp (squeeze (wa_t a))) as [|K [|? ?]]; [| |reflexivity].
  - match goal with |- context [get_single m ?w] => pose proof (find_keep_single m w x H) as E; destruct (get_single m w) as [m1 [v|e]] end; exact E.
  - match goal with |- context [get_list m ?w] => pose proof (find_keep_list w m x H) as E; destruct (get_list m w) as [m1 [[|v vs]|e]] end; cbn [fst] in *; try exact E.
    destruct (forallb _ _); exact E.
Qed.
Lemma find_move d x l : @find_eps R ROps x (map (fun kv => (fst kv, move d (snd kv))) l) = option_map (move d) (@find_eps R ROps x l).
Proof. induction l as [|[k v] l IH]; [reflexivity|]. cbn. change (@reqb R ROps) with Reqb. destruct (Reqb x k); [reflexivity|exact IH]. Qed.
Lemma src_stays h : forall m x v, @find_eps R ROps x (d_lookup m) = Some v ->
  exists v', @find_eps R ROps x (d_lookup (hrun m h)) = Some v' /\ v_src v' = v_src v /\ v_eps v' = v_eps v.
Proof.
  induction h as [|o h IH]; intros m x v H; [exists v; auto|]. cbn [hrun fold_left]. fold (hrun (hstep m o) h).
  destruct o as [a|d]; cbn [hstep].
  - apply IH. rewrite find_keep by congruence. exact H.
  - destruct (IH (set_device_db d m) x (move d v)) as (v' & H1 & H2 & H3); [cbn [set_device_db d_lookup]; rewrite find_move, H; reflexivity|]. exists v'. auto.
Qed.
Lemma get_miss m x s : @find_eps R ROps x (d_lookup m) = None -> @get_epsilon_db R ROps m (at_wl x s) =
  match @mat_eval R ROps m {| w_val := x; w_dev := d_dev m; w_src := s |} with
  | Err e => (m, Err e)
  | Ok v => let v := {| v_eps := v_eps v; v_dev := d_dev m; v_src := v_src v |} in
            (with_lookup m ((x, v) :: d_lookup m), Ok (scalar_t v))
  end.
Proof. intros H. rewrite get_scalar. unfold get_single. cbn [w_val]. rewrite H. now destruct (mat_eval m _). Qed.
Lemma get_hit m x s v : @find_eps R ROps x (d_lookup m) = Some v -> @get_epsilon_db R ROps m (at_wl x s) = (m, Ok (scalar_t v)).
Proof. intros H. rewrite get_scalar. unfold get_single. cbn [w_val]. now rewrite H. Qed.
Lemma memo_src m x s1 v h s2 : @find_eps R ROps x (d_lookup m) = None ->
  snd (@get_epsilon_db R ROps m (at_wl x s1)) = Ok (scalar_t v) ->
  exists v', snd (@get_epsilon_db R ROps (hrun m (HGet (at_wl x s1) :: h)) (at_wl x s2)) = Ok (scalar_t v') /\ v_src v' = v_src v.
Proof.
  intros Hn Hv. cbn [hrun fold_left hstep]. rewrite (get_miss m x s1 Hn) in Hv |- *.
  destruct (mat_eval m _) as [v0|e]; [|discriminate]. cbn [snd fst] in *.
  match goal with |- context [fold_left hstep h ?mm] => set (m1 := mm) end. fold (hrun m1 h).
  assert (F : find_eps x (d_lookup m1) = Some {| v_eps := v_eps v0; v_dev := d_dev m; v_src := v_src v0 |}) by apply find_cons.
  destruct (src_stays h _ _ _ F) as (v' & F' & E & _). rewrite (get_hit _ _ _ _ F'). exists v'. split; [reflexivity|].
  rewrite E. cbn. apply (f_equal (fun r => match r with Ok t => v_src (at_ t []) | Err _ => None end)) in Hv. exact Hv.
Qed.
(* a miss is connected to the tensor of this call *)
Lemma fresh_src m x s v : @find_eps R ROps x (d_lookup m) = None -> snd (@get_epsilon_db R ROps m (at_wl x s)) = Ok (scalar_t v) ->
  (d_model m = MSellmeier -> (2 <= List.length (d_coeff m))%nat) -> v_src v = s.
Proof.
  intros Hn Hv Hc. rewrite (get_miss m x s Hn) in Hv. unfold mat_eval in Hv.
  assert (G : forall t : @value R, Ok (scalar_t t) = Ok (scalar_t v) -> v_src t = v_src v).
  { intros t E. apply (f_equal (fun r => match r with Ok t => v_src (at_ t []) | Err _ => None end)) in E. exact E. }
  destruct (d_model m).
  - destruct (String.eqb _ _ && _); [|discriminate]. destruct (interp1d _ _ _); [|discriminate]. cbn in Hv. apply G in Hv. now symmetry.
  - cbn [w_val] in Hv. destruct (sellmeier (d_coeff m) x); [|discriminate]. cbn [bind snd] in Hv. apply G in Hv. cbn in Hv. specialize (Hc eq_refl). destruct (d_coeff m) as [|? [|? ?]]; cbn in Hc; try lia. now symmetry.
  - discriminate.
Qed.

(** ** unknown formulas *)
Lemma other_formula m t a : d_model m = MOther t -> d_lookup m = [] -> (shp (squeeze (wa_t a)) = [] \/ exists K, shp (squeeze (wa_t a)) = [S K]) ->
  snd (@get_epsilon_db R ROps m a) = Err ValueError.
Proof.
  intros Hm Hl Hs. unfold get_epsilon_db. cbv zeta. destruct Hs as [->|[K Hs]].
  - unfold get_single. rewrite Hl. cbn [find_eps]. unfold mat_eval. now rewrite Hm.
  - rewrite Hs. unfold entries. rewrite Hs. cbn [indices seq flat_map map app get_list]. unfold get_single. cbn [w_val]. rewrite Hl. cbn [find_eps]. unfold mat_eval. now rewrite Hm.
Qed.
Lemma sellmeier_get m c0 ps wl s : inv m -> d_model m = MSellmeier -> d_coeff m = c0 :: flat ps ->
  (forall bc, In bc ps -> (wl / 1000 * (wl / 1000) <> snd bc * snd bc)%R) ->
  exists v, snd (@get_epsilon_db R ROps m (at_wl wl s)) = Ok (scalar_t v) /\
    v_eps v = RtoC (1 + c0 + fold_right Rplus 0 (map (fun bc => fst bc * (wl/1000 * (wl/1000)) / (wl/1000 * (wl/1000) - snd bc * snd bc)) ps))%R.
Proof.
  intros Hi Hm Hc _. pose proof (get_epsilon_inv m (at_wl wl s) Hi) as G. destruct (get_epsilon_db m _) as [m' r]. destruct G as (_ & _ & G).
  unfold get_spec in G. cbn in G. unfold pure in G. rewrite Hm, Hc, sellmeier_flat in G. destruct G as [s' ->]. eexists. split; [reflexivity|reflexivity].
Qed.
Lemma load_reachable pf pi dats d m h : load_db pf pi dats d [] = Ok m -> inv (hrun m h).
Proof. intros H. apply hrun_inv. apply (load_inv0 _ _ _ _ _ H). Qed.
Lemma load_unknown pf pi (y : @dat) ys d ws t0 ts : split_ws (y_type y) = t0 :: ts ->
  t0 <> "tabulated"%string -> t0 <> "formula"%string -> @load_db R ROps pf pi (y :: ys) d ws = Err ValueError.
Proof.
  intros H H1 H2. unfold load_db. rewrite H. apply String.eqb_neq in H1, H2. now rewrite H1, H2.
Qed.
