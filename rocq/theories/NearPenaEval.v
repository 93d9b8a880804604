(** The pena near fields of a batch: every entry of every returned tensor is the
    scalar field of its particle, wavelength and position. *)
From Coq Require Import Reals ZArith List Bool String Arith Lia.
From Verif Require Import Ops ROps Tensor TensorProofs TensorView ModelSpecial ModelMie CLemmas ModelBatch ModelObs ModelJn JnProofs ModelNear ModelNearLegacy ModelNearPena NearLegacySpec NearLegacyProofs NearLegacyEval NearPenaAmps NearPenaVsh NearPenaRegion.
Import ListNotations.
Open Scope nat_scope.
Open Scope list_scope.

Lemma assignP P K Q : assignable [P; K; Q] [1; 1; K; Q] = true.
Proof.
  unfold assignable. destruct K as [|[|K]].
  - change (drop_ones [1; 1; 0; Q]) with [0; Q]. unfold bcast_shape. cbn [rev app bcast_rev]. rewrite !bd_same. cbn [option_map rev app]. apply shape_eqb_refl.
  - destruct Q as [|[|Q]].
    + change (drop_ones [1; 1; 1; 0]) with [0]. unfold bcast_shape. cbn [rev app bcast_rev]. rewrite !bd_same. cbn [option_map rev app]. apply shape_eqb_refl.
    + change (drop_ones [1; 1; 1; 1]) with (@nil nat). unfold bcast_shape. cbn [rev app bcast_rev option_map]. apply shape_eqb_refl.
    + change (drop_ones [1; 1; 1; S (S Q)]) with [S (S Q)]. generalize (S (S Q)). intros q.
      unfold bcast_shape. cbn [rev app bcast_rev]. rewrite bd_same. cbn [option_map rev app]. apply shape_eqb_refl.
  - change (drop_ones [1; 1; S (S K); Q]) with [S (S K); Q]. generalize (S (S K)). intros q.
    unfold bcast_shape. cbn [rev app bcast_rev]. rewrite !bd_same. cbn [option_map rev app]. apply shape_eqb_refl.
Qed.
Lemma assignP_ix K Q p k i : k < K -> i < Q ->
  repeat 0 (4 - List.length (drop_ones [1; 1; K; Q])) ++ bcast_ix (drop_ones [1; 1; K; Q]) [p; k; i] = [0; 0; k; i].
Proof.
  intros Hk Hi. destruct K as [|[|K]]; [lia| |].
  - assert (k = 0) as -> by lia. destruct Q as [|[|Q]]; [lia|assert (i = 0) as -> by lia; reflexivity|]. change (drop_ones [1; 1; 1; S (S Q)]) with [S (S Q)].
    unfold bcast_ix. cbn [List.length Nat.sub repeat app skipn]. cbn [clip]. revert Hi. generalize (S (S Q)). intros q Hi. now rewrite (cl q).
  - change (drop_ones [1; 1; S (S K); Q]) with [S (S K); Q]. revert Hk. generalize (S (S K)). intros q Hk.
    unfold bcast_ix. cbn [List.length Nat.sub repeat app skipn]. cbn [clip]. now rewrite (cl q), (cl Q).
Qed.
Lemma put_lastP P K Q c (src : tensor (cplx R)) : shp src = [1; 1; K; Q] ->
  exists t, put_last [P; K; Q] c src = Ok t /\ rp [P; K; Q; 3] t [P; K; Q; 3] (fun ix => if ax 3 ix =? c then at_ src [0; 0; ax 1 ix; ax 2 ix] else czero).
Proof.
  intros S. unfold put_last. rewrite S, (assignP P K Q). eexists. split; [reflexivity|]. split; [reflexivity|]. split; [apply fits_refl|].
  intros ix Hix. destruct (ix4 _ _ _ _ _ Hix) as (p & k & i & c' & -> & Hp & Hk & Hi & Hc). cbn [shp at_ app].
  assert (E : bcast_ix [P; K; Q; 3] [p; k; i; c'] = [p; k; i; c']) by (unfold bcast_ix; cbn [List.length Nat.sub skipn]; now apply clip_id).
  rewrite E. cbn [last removelast ax nth]. unfold ndim. rewrite S. cbn [List.length]. now rewrite assignP_ix by assumption.
Qed.
Lemma select4P N P K Q (t : tensor (cplx R)) F : 1 <= N -> 1 <= P -> rp [N; P; K; Q; 3] t [1; 1; K; Q; 1] F ->
  shp (select (ndim t - 1) 0 t) = [1; 1; K; Q] /\ forall k i, k < K -> i < Q -> at_ (select (ndim t - 1) 0 t) [0; 0; k; i] = F [0; 0; k; i; 0].
Proof.
  intros HN HP [S [_ V]]. unfold ndim, select. rewrite S. cbn [List.length Nat.sub shp at_ remove_at]. split; [reflexivity|]. intros k i Hk Hi. cbn [insert_at].
  assert (Hb : in_bounds [N; P; K; Q; 3] [0; 0; k; i; 0]) by (cbn; lia). specialize (V _ Hb). rewrite S, bix5 in V. rewrite (cl K), (cl Q) in V by lia. cbn [Nat.eqb] in V. exact V.
Qed.
Lemma cartesianP N P K Q e10 probe (F : tensor Cx) G : rp [N; P; K; Q; 3] F [N; P; K; Q; 3] G ->
  rp [P; K; Q; 3] (cartesian (spherical e10 probe) F) [P; K; Q; 3] (fun ix =>
     let s := at_ (spherical e10 probe) [ax 2 ix] in
     csum (map (fun n => comp (ax 3 ix) (field_to_xyz (snd (fst s)) (snd s) (G [n; ax 0 ix; ax 1 ix; ax 2 ix; 0], G [n; ax 0 ix; ax 1 ix; ax 2 ix; 1], G [n; ax 0 ix; ax 1 ix; ax 2 ix; 2]))) (seq 0 N))).
Proof.
  intros [SF RF]. unfold cartesian, dim_size. rewrite SF. cbn [skipn nth]. split; [reflexivity|]. split; [apply fits_refl|].
  intros ix Hix. destruct (ix4 _ _ _ _ _ Hix) as (p & k & i & c & -> & Hp & Hk' & Hi' & Hc). cbn [shp at_].
  assert (E : bcast_ix [P; K; Q; 3] [p; k; i; c] = [p; k; i; c]) by (unfold bcast_ix; cbn [List.length Nat.sub skipn]; now apply clip_id).
  rewrite E. cbn [nth ax]. cbv zeta. destruct (at_ (spherical e10 probe) [i]) as [[r th] ph]. cbn [fst snd].
  f_equal. apply map_ext_in. intros n Hn'. apply in_seq in Hn'.
  rewrite !(rep_full_at _ F G RF SF) by (cbn; lia). reflexivity.
Qed.

Lemma comp_fold (B : nat -> bool) (f : nat -> V3) c ls : forall v,
  comp c (fold_left (fun acc li => if B li then f li else acc) ls v) = fold_left (fun acc li => if B li then comp c (f li) else acc) ls (comp c v).
Proof. induction ls as [|li ls IH]; intros v; cbn [fold_left]; [reflexivity|]. rewrite IH. now destruct (B li). Qed.
Lemma comp_vadd c (u v : V3) : comp c (vadd u v) = cadd (comp c u) (comp c v).
Proof. destruct c as [|[|c]]; reflexivity. Qed.
Lemma comp_vsum c (l : list V3) : comp c (vsum l) = csum (map (comp c) l).
Proof.
  unfold vsum, csum. assert (H : forall v, comp c (fold_left vadd l v) = fold_left cadd (map (comp c) l) (comp c v)).
  { induction l as [|u l IH]; intros v; cbn [fold_left map]; [reflexivity|]. now rewrite IH, comp_vadd. }
  rewrite H. f_equal. destruct c as [|[|c]]; reflexivity.
Qed.
Lemma comp_eta (v : V3) : (comp 0 v, comp 1 v, comp 2 v) = v.
Proof. destruct v as [[? ?] ?]. reflexivity. Qed.

Section Eval.
  Variables (N P K Q L : nat) (e10 : R) (E0 : Cx) (probe : tensor R) (o : @output R).
  Variables (fk : nat -> R) (fr : nat -> nat -> R) (fe : nat -> nat -> nat -> Cx) (fv : nat -> Cx).
  Hypotheses (HN : 1 <= N) (HL : 1 <= L) (Hn : o_n_max o = Z.of_nat N) (Spr : shp probe = [Q; 3]).
  Hypotheses (Ik0 : is2 (c_k0 (o_cfg o)) 1 K (fun _ k => fk k)) (Ir : is2 (c_r (o_cfg o)) P L fr) (Ie : is3 (c_eps (o_cfg o)) P L K fe)
    (Inv : is2 (c_n_env (o_cfg o)) 1 K (fun _ k => csqrt (fv k))) (Ik : is2 (o_k o) 1 K (fun _ k => cmul (cofr (fk k)) (csqrt (fv k)))).
  Definition core_pk p k : R * Cx := (fr p 0, fe p 0 k).
  Definition shells_pk p k : list (R * Cx) := map (fun l => (fr p l, fe p l k)) (seq 1 (L - 1)).
  Definition ab_pk p k n : Cx * Cx := pena_ab N 15 (layer_of (fk k) (fv k) (core_pk p k)) (map (layer_of (fk k) (fv k)) (shells_pk p k)) n.
  Hypotheses (Ia : is3 (o_a o) N P K (fun i p k => fst (ab_pk p k (S i)))) (Ib : is3 (o_b o) N P K (fun i p k => snd (ab_pk p k (S i)))).
  Definition point_i i : @point R := let s := at_ (spherical e10 probe) [i] in {| pt_r := fst (fst s); pt_theta := snd (fst s); pt_phi := snd s |}.
  Notation full := [N; P; K; Q; 3].
  Notation rp' := (rp [N; P; K; Q; 3]).

  Definition fm_ p l k : Cx := cdiv (csqrt (fe p l k)) (csqrt (fv k)).
  Definition fx_ p l k : Cx := cmul (cmul (cofr (fk k)) (csqrt (fv k))) (cofr (fr p l)).
  Definition fext_ n p k : @amps R := match n with 0 => exterior czero czero | S i => exterior (fst (ab_pk p k (S i))) (snd (ab_pk p k (S i))) end.
  Lemma radii_pk p k : radii (core_pk p k) (shells_pk p k) = map (fr p) (seq 0 L).
  Proof.
    unfold radii, core_pk, shells_pk. cbn [map fst]. rewrite map_map. cbn [fst].
    replace (seq 0 L) with (0 :: seq 1 (L - 1)) by (change (0 :: seq 1 (L - 1)) with (seq 0 (S (L - 1))); f_equal; lia). reflexivity.
  Qed.
  Lemma radii_len p k : List.length (radii (core_pk p k) (shells_pk p k)) = L.
  Proof. rewrite radii_pk, map_length, seq_length. reflexivity. Qed.
  Lemma near_pk li i p k : nth li (amplitudes N 15 (fk k) (fv k) (core_pk p k) (shells_pk p k) (S i)) amp0 = NEAR N L fm_ fx_ fext_ li (S i) p k.
  Proof.
    unfold amplitudes, near_amps, NEAR, raw, fext_. fold (ab_pk p k (S i)). unfold shells_pk. rewrite map_map. reflexivity.
  Qed.
  Lemma med_pk li p k : li <= L -> n_medium (fv k) (core_pk p k) (shells_pk p k) li = MED L fe (fun k => csqrt (fv k)) li p k.
  Proof.
    intros Hl. unfold n_medium, MED. rewrite radii_len. destruct (Nat.eqb_spec li L) as [E|E]; [reflexivity|]. f_equal.
    unfold core_pk, shells_pk. change ((fr p 0, fe p 0 k) :: map (fun l => (fr p l, fe p l k)) (seq 1 (L - 1))) with (map (fun l => (fr p l, fe p l k)) (seq 0 (S (L - 1)))).
    rewrite (nth_ms N L HN HL) by lia. reflexivity.
  Qed.
  Lemma shape_sph {A} (g : R * R * R -> A) : shp (tmap g (spherical e10 probe)) = [Q].
  Proof. unfold spherical, dim_size, tmap. cbn [shp]. now rewrite Spr. Qed.

  Notation RT := (tmap (fun s : R * R * R => fst (fst s)) (spherical e10 probe)).
  Notation TT := (tmap (fun s : R * R * R => snd (fst s)) (spherical e10 probe)).
  Notation PT := (tmap (@snd (R * R) R) (spherical e10 probe)).
  Notation EVpk := (EV N L RT E0 (NEAR N L fm_ fx_ fext_) TT PT fe (fun k => csqrt (fv k)) fk).
  Notation HVpk := (HVV N L RT E0 (NEAR N L fm_ fx_ fext_) TT PT fe (fun k => csqrt (fv k)) fk).
  Lemma EV_pk li n p k i c : li <= L -> EVpk li [n; p; k; i; c] = E_order N 15 (fk k) (fv k) (core_pk p k) (shells_pk p k) E0 (point_i i) li (S n).
  Proof. intros Hl. unfold EV, HV, E_order. cbn [ax nth]. rewrite near_pk, med_pk, radii_len by assumption. reflexivity. Qed.
  Lemma HV_pk li n p k i c : li <= L -> HVpk li [n; p; k; i; c] = H_order N 15 (fk k) (fv k) (core_pk p k) (shells_pk p k) E0 (point_i i) li (S n).
  Proof. intros Hl. unfold HVV, HV, H_order. cbn [ax nth]. rewrite near_pk, med_pk, radii_len by assumption. reflexivity. Qed.
  Lemma fold_mask (f : nat -> list nat -> V3) (g : nat -> nat -> V3) n p k i c :
    (forall li c', li <= L -> f li [n; p; k; i; c'] = g li (S n)) ->
    (fun c' => fold_left (fun acc li => if MASK L fr RT li [n; p; k; i; c'] then comp c' (f li [n; p; k; i; c']) else acc) (seq 0 (S L)) czero) c =
    comp c (masked (core_pk p k) (shells_pk p k) (point_i i) (fun li => g li (S n))).
  Proof.
    intros Hf. unfold masked. rewrite comp_fold, radii_len, radii_pk. replace (comp c vzero) with (@czero R ROps) by (destruct c as [|[|c]]; reflexivity).
    cbv beta. assert (Hall : forall li, In li (seq 0 (S L)) -> li <= L) by (intros li Hin; apply in_seq in Hin; lia).
    revert Hall. generalize (@czero R ROps). generalize (seq 0 (S L)). induction l as [|li ls IH]; intros v Hall; cbn [fold_left]; [reflexivity|].
    rewrite Hf by (apply Hall; now left).
    change (MASK L fr RT li [n; p; k; i; c]) with (in_region (map (fr p) (seq 0 L)) (pt_r (point_i i)) li). apply IH. intros l Hl. apply Hall. now right.
  Qed.

  Lemma pena_eval : 1 <= P -> exists f, nearfields_pena e10 E0 probe o = Ok f /\
    (shp (f_Ei f) = [P; K; Q; 3] /\ shp (f_Hi f) = [P; K; Q; 3] /\ shp (f_Es f) = [P; K; Q; 3] /\ shp (f_Hs f) = [P; K; Q; 3] /\ shp (f_Et f) = [P; K; Q; 3] /\ shp (f_Ht f) = [P; K; Q; 3]) /\
    forall p k i c, p < P -> k < K -> i < Q -> c < 3 ->
      let co := core_pk p k in let sh := shells_pk p k in
      at_ (f_Ei f) [p; k; i; c] = comp c (E_i (fk k) (fv k) E0 (point_i i)) /\
      at_ (f_Hi f) [p; k; i; c] = comp c (H_i (fk k) (fv k) E0 (point_i i)) /\
      at_ (f_Es f) [p; k; i; c] = comp c (E_s N 15 (fk k) (fv k) co sh E0 (point_i i)) /\
      at_ (f_Hs f) [p; k; i; c] = comp c (H_s N 15 (fk k) (fv k) co sh E0 (point_i i)) /\
      at_ (f_Et f) [p; k; i; c] = comp c (E_t N 15 (fk k) (fv k) co sh E0 (point_i i)) /\
      at_ (f_Ht f) [p; k; i; c] = comp c (H_t N 15 (fk k) (fv k) co sh E0 (point_i i)).
  Proof.
    intros HP. unfold nearfields_pena. rewrite Spr, Hn. cbv zeta. rewrite Nat2Z.id.
    unfold dim_size. rewrite (proj1 Ir), (proj1 Ik0). cbn [nth].
    destruct (tbin_3k cdiv _ _ _ _ _ _ _ (is3_tmap csqrt _ _ _ _ _ Ie) (is3_un1 _ _ _ _ Inv)) as (m & -> & Jm). cbn [bind].
    destruct (tbin_outer cmul _ _ _ _ _ _ _ (is3_un1 _ _ _ _ Ik) (is3_unl _ _ _ _ (is2_tmap cofr _ _ _ _ Ir))) as (x & -> & Jx). cbn [bind].
    assert (Jme : is3 (cat_env P L K m) P (S L) K (fun p l k => if l =? L then cone else fm_ p l k)).
    { split; [reflexivity|]. intros p l k Hp Hl Hk. unfold cat_env. cbn [at_ nth]. destruct (Nat.eqb_spec l L) as [|E]; [reflexivity|]. apply Jm; lia. }
    assert (Jext : isA N P K {| ta := cat_order0 (o_a o); tb := cat_order0 (o_b o); tc := tmap (fun _ => cone) (cat_order0 (o_a o)); td := tmap (fun _ => cone) (cat_order0 (o_a o)) |} fext_).
    { assert (Cc : forall t g, is3 t N P K g -> is3 (cat_order0 t) (S N) P K (fun n p k => match n with 0 => czero | S i => g i p k end)).
      { intros t g [St Ht]. unfold cat_order0, dim_size. rewrite St. split; [reflexivity|]. intros [|n] p k Hn' Hp Hk; cbn [at_ hd tl]; [reflexivity|]. apply Ht; lia. }
      pose proof (Cc _ _ Ia) as Ca. pose proof (Cc _ _ Ib) as Cb. unfold isA. cbn [ta tb tc td].
      split; [eapply is3_ext; [|exact Ca]; intros [|n] p k _ _ _; reflexivity|]. split; [eapply is3_ext; [|exact Cb]; intros [|n] p k _ _ _; reflexivity|].
      split; (eapply is3_ext; [|exact (is3_tmap (fun _ => cone) _ _ _ _ _ Ca)]; intros [|n] p k _ _ _; reflexivity). }
    destruct (near_layers_ok N P L K (cat_env P L K m) x fm_ fx_ fext_ HL Jme Jx _ Jext) as (layers & -> & Hlen & HA). cbn [bind].
    set (zero := mkT full (fun _ => czero)).
    assert (Rz : rp' zero full (fun _ => czero)) by apply rp_const.
    destruct (regions_ok N P K Q L HN HL (c_r (o_cfg o)) fr RT Ir (shape_sph _) E0 layers _ (c_eps (o_cfg o)) (c_n_env (o_cfg o)) (c_k0 (o_cfg o)) TT PT fe (fun k => csqrt (fv k)) fk
      Hlen HA Ie Inv Ik0 (shape_sph _) (shape_sph _) (seq 0 (S L)) (zero, zero) _ _ (fun li Hin => ltac:(apply in_seq in Hin; lia)) Rz Rz) as (EH & -> & RE & RH). cbn [bind].
    pose proof (cartesianP N P K Q e10 probe _ _ RE) as CE. pose proof (cartesianP N P K Q e10 probe _ _ RH) as CH.
    set (ES := cartesian _ (fst EH)) in *. set (HS := cartesian _ (snd EH)) in *. clearbody ES HS. clear RE RH HA Hlen layers Jext Jme.
    assert (CE' : rp [P; K; Q; 3] ES [P; K; Q; 3] (fun ix => comp (ax 3 ix) (E_s N 15 (fk (ax 1 ix)) (fv (ax 1 ix)) (core_pk (ax 0 ix) (ax 1 ix)) (shells_pk (ax 0 ix) (ax 1 ix)) E0 (point_i (ax 2 ix))))).
    { eapply rp_ext; [|exact CE]. intros ix Hix. destruct (ix4 _ _ _ _ _ Hix) as (p & k & i & c & -> & Hp & Hk & Hi & Hc). cbn [ax nth]. cbv zeta.
      unfold E_s, to_cartesian. rewrite comp_vsum, map_map. unfold orders. rewrite <- seq_shift, map_map. f_equal. apply map_ext_in. intros n _. f_equal.
      change (snd (fst (at_ (spherical e10 probe) [i]))) with (pt_theta (point_i i)). change (snd (at_ (spherical e10 probe) [i])) with (pt_phi (point_i i)). f_equal.
      rewrite <- (comp_eta (masked _ _ _ _)).
      rewrite <- (fold_mask EVpk (E_order N 15 (fk k) (fv k) (core_pk p k) (shells_pk p k) E0 (point_i i)) n p k i 0 (fun li c' => EV_pk li n p k i c')).
      rewrite <- (fold_mask EVpk (E_order N 15 (fk k) (fv k) (core_pk p k) (shells_pk p k) E0 (point_i i)) n p k i 1 (fun li c' => EV_pk li n p k i c')).
      rewrite <- (fold_mask EVpk (E_order N 15 (fk k) (fv k) (core_pk p k) (shells_pk p k) E0 (point_i i)) n p k i 2 (fun li c' => EV_pk li n p k i c')). reflexivity. }
    assert (CH' : rp [P; K; Q; 3] HS [P; K; Q; 3] (fun ix => comp (ax 3 ix) (H_s N 15 (fk (ax 1 ix)) (fv (ax 1 ix)) (core_pk (ax 0 ix) (ax 1 ix)) (shells_pk (ax 0 ix) (ax 1 ix)) E0 (point_i (ax 2 ix))))).
    { eapply rp_ext; [|exact CH]. intros ix Hix. destruct (ix4 _ _ _ _ _ Hix) as (p & k & i & c & -> & Hp & Hk & Hi & Hc). cbn [ax nth]. cbv zeta.
      unfold H_s, to_cartesian. rewrite comp_vsum, map_map. unfold orders. rewrite <- seq_shift, map_map. f_equal. apply map_ext_in. intros n _. f_equal.
      change (snd (fst (at_ (spherical e10 probe) [i]))) with (pt_theta (point_i i)). change (snd (at_ (spherical e10 probe) [i])) with (pt_phi (point_i i)). f_equal.
      rewrite <- (comp_eta (masked _ _ _ _)).
      rewrite <- (fold_mask HVpk (H_order N 15 (fk k) (fv k) (core_pk p k) (shells_pk p k) E0 (point_i i)) n p k i 0 (fun li c' => HV_pk li n p k i c')).
      rewrite <- (fold_mask HVpk (H_order N 15 (fk k) (fv k) (core_pk p k) (shells_pk p k) E0 (point_i i)) n p k i 1 (fun li c' => HV_pk li n p k i c')).
      rewrite <- (fold_mask HVpk (H_order N 15 (fk k) (fv k) (core_pk p k) (shells_pk p k) E0 (point_i i)) n p k i 2 (fun li c' => HV_pk li n p k i c')). reflexivity. }
    clear CE CH.
    pose proof (rp_tmap _ (cmul ci) _ _ _ (vw_cfg1 N P K Q _ _ Ik)) as Rik.
    pose proof (vw_pos N P K Q RT (shape_sph _)) as Rr. pose proof (vw_pos N P K Q TT (shape_sph _)) as Rt.
    pose proof (rp_tmap _ (@cofr R ROps) _ _ _ Rr) as Rcr. fold (cten (expand_pos RT)) in Rcr.
    pose proof (rp_tmap _ (@cofr R ROps) _ _ _ (rp_tmap _ (@rcos R ROps) _ _ _ Rt)) as Rct. fold (cten (tmap rcos (expand_pos TT))) in Rct.
    match goal with |- context [bind ?x _] => assert (X : exists t, x = Ok t /\ rp' t [1; 1; K; Q; 1] (fun ix => cmul (cmul (cmul ci (cmul (cofr (fk (ax 2 ix))) (csqrt (fv (ax 2 ix))))) (cofr (at_ RT [ax 3 ix]))) (cofr (rcos (at_ TT [ax 3 ix]))))) by (eapply rr_conv; [ev3|reflexivity]) end.
    destruct X as (phs & -> & Rph). cbn [bind].
    pose proof (rp_tmap _ (@cexp R ROps) _ _ _ Rph) as Rex.
    destruct (select4P N P K Q _ _ HN HP (rp_tmap _ (cmul E0) _ _ _ Rex)) as [SEx VEx].
    destruct (put_lastP P K Q 0 _ SEx) as (Ei & -> & REi). cbn [bind].
    pose proof (rp_tmap _ (cmul E0) _ _ _ (vw_cfg1 N P K Q _ _ Inv)) as Rne.
    match goal with |- context [bind ?x _] => assert (X : exists t, x = Ok t /\ rp' t [1; 1; K; Q; 1] (fun ix => cmul (cmul E0 (csqrt (fv (ax 2 ix)))) (cexp (cmul (cmul (cmul ci (cmul (cofr (fk (ax 2 ix))) (csqrt (fv (ax 2 ix))))) (cofr (at_ RT [ax 3 ix]))) (cofr (rcos (at_ TT [ax 3 ix]))))))) by (eapply rr_conv; [ev3|reflexivity]) end.
    destruct X as (Hx & -> & RHx). cbn [bind].
    destruct (select4P N P K Q _ _ HN HP RHx) as [SHx VHx].
    destruct (put_lastP P K Q 1 _ SHx) as (Hi & -> & RHi). cbn [bind].
    destruct (mask_ok N P K Q L HN HL (c_r (o_cfg o)) fr RT Ir L (le_n L)) as (mo & -> & Rmo). cbn [bind].
    assert (Rout : rp [P; K; Q; 3] (select 0 0 mo) [P; K; Q; 3] (fun ix => outside (core_pk (ax 0 ix) (ax 1 ix)) (shells_pk (ax 0 ix) (ax 1 ix)) (point_i (ax 2 ix)))).
    { destruct Rmo as [S3' R3']. unfold select. rewrite S3'. cbn [remove_at]. split; [reflexivity|]. split; [apply fits_refl|].
      intros ix Hix. destruct (ix4 _ _ _ _ _ Hix) as (p & k & i & c & -> & Hp & Hk' & Hi' & Hc). cbn [shp at_].
      assert (E : bcast_ix [P; K; Q; 3] [p; k; i; c] = [p; k; i; c]) by (unfold bcast_ix; cbn [List.length Nat.sub skipn]; now apply clip_id).
      rewrite E. cbn [insert_at]. rewrite (rep_full_at full mo _ R3' S3') by (cbn; lia). cbn [ax nth]. unfold outside. rewrite radii_len, radii_pk. reflexivity. }
    assert (B4 : bcast_shape [P; K; Q; 3] [P; K; Q; 3] = Some [P; K; Q; 3]) by bs.
    destruct (tbin_rr [P; K; Q; 3] cadd ES Ei _ _ _ _ _ CE' REi B4) as (X1 & -> & RX1). cbn [bind].
    destruct (mask_put_ok _ _ _ _ _ _ _ Rout RX1 CE') as (Et & -> & REt). cbn [bind].
    destruct (tbin_rr [P; K; Q; 3] cadd HS Hi _ _ _ _ _ CH' RHi B4) as (X2 & -> & RX2). cbn [bind].
    destruct (mask_put_ok _ _ _ _ _ _ _ Rout RX2 CH') as (Ht & -> & RHt). cbn [bind].
    eexists. split; [reflexivity|]. cbn [f_Es f_Hs f_Et f_Ht f_Ei f_Hi].
    split; [exact (conj (proj1 REi) (conj (proj1 RHi) (conj (proj1 CE') (conj (proj1 CH') (conj (proj1 REt) (proj1 RHt))))))|].
    intros p k i c Hp Hk Hi' Hc. cbv zeta. assert (Hb : in_bounds [P; K; Q; 3] [p; k; i; c]) by (cbn; lia).
    assert (VEi : (if ax 3 [p; k; i; c] =? 0 then at_ (select (ndim (tmap (cmul E0) (tmap cexp phs)) - 1) 0 (tmap (cmul E0) (tmap cexp phs))) [0; 0; ax 1 [p; k; i; c]; ax 2 [p; k; i; c]] else czero) = comp c (E_i (fk k) (fv k) E0 (point_i i))).
    { cbn [ax nth]. rewrite VEx by assumption. destruct c as [|[|[|c]]]; [reflexivity|reflexivity|reflexivity|lia]. }
    assert (VHi : (if ax 3 [p; k; i; c] =? 1 then at_ (select (ndim Hx - 1) 0 Hx) [0; 0; ax 1 [p; k; i; c]; ax 2 [p; k; i; c]] else czero) = comp c (H_i (fk k) (fv k) E0 (point_i i))).
    { cbn [ax nth]. rewrite VHx by assumption. destruct c as [|[|[|c]]]; [reflexivity|reflexivity|reflexivity|lia]. }
    rewrite (rep_full_at _ _ _ (proj2 REi) (proj1 REi) _ Hb), (rep_full_at _ _ _ (proj2 RHi) (proj1 RHi) _ Hb), (rep_full_at _ _ _ (proj2 CE') (proj1 CE') _ Hb), (rep_full_at _ _ _ (proj2 CH') (proj1 CH') _ Hb),
      (rep_full_at _ _ _ (proj2 REt) (proj1 REt) _ Hb), (rep_full_at _ _ _ (proj2 RHt) (proj1 RHt) _ Hb).
    rewrite VEi, VHi. cbn [ax nth]. split; [reflexivity|]. split; [reflexivity|]. split; [reflexivity|]. split; [reflexivity|].
    unfold E_t, H_t. destruct (outside _ _ _); [|split; reflexivity]. rewrite !comp_vadd. split; reflexivity.
  Qed.
End Eval.
