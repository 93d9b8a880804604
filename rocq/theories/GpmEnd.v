(** Training data of the GPM extraction, whole calls. *)
From Coq Require Import Reals ZArith List Bool String Arith Lia Lra.
From Coquelicot Require Import Coquelicot.
From Verif Require Import Ops ROps CLemmas Tensor TensorProofs ModelMaterial MaterialSpec ModelSpecial ModelMie ModelBatch ModelObs BroadcastSpec BatchReal
  ModelJn ModelNear ModelNearLegacy ModelNearPena NearLegacySpec NearField ModelParticle ParticleSpec ParticleProofs ParticleRun ParticleHist ParticleEnd
  ModelParticleNear ParticleNear ModelTg TgSpec TgProofs ModelGpm ModelGeom GeomSpec RotProofs IllumProofs GpmSpec GpmProofs.
Import ListNotations.
Open Scope nat_scope.
Open Scope list_scope.

Lemma fill_ok n j (rows : list (list (tensor C))) : (forall fs, In fs rows -> exists t g, nth_error fs j = Some t /\ is_sq n t g) ->
  exists t, @fill R ROps n j rows = Ok t /\ shp t = [List.length rows; n; 3] /\
  forall i fs u g, nth_error rows i = Some fs -> nth_error fs j = Some u -> is_sq n u g -> forall q c, q < n -> c < 3 -> at_ t [i; q; c] = comp c (g q).
Proof.
  intros H. set (zero := mkT [n; 3] (fun _ => @czero R ROps) : tensor C). set (F := fun fs : list (tensor C) => @broadcast_to C [n; 3] (nth j fs zero)).
  assert (K : exists ts, map_res F rows = Ok ts /\
    forall i fs u g, nth_error rows i = Some fs -> nth_error fs j = Some u -> is_sq n u g -> forall q c, q < n -> c < 3 -> at_ (nth i ts zero) [q; c] = comp c (g q)).
  { induction rows as [|fs rows IH].
    - exists []. split; [reflexivity|]. intros [|i]; discriminate.
    - destruct IH as (ts & E & V); [intros; apply H; now right|]. destruct (H fs (or_introl eq_refl)) as (t & g & Et & Sq).
      destruct (sq_broadcast n t g Sq) as (u & Eu & Vu). assert (EF : F fs = Ok u) by (unfold F; rewrite (nth_error_nth _ _ zero Et); exact Eu).
      exists (u :: ts). cbn [map_res]. rewrite EF. cbn [bind]. rewrite E. split; [reflexivity|].
      intros [|i] fs' u' g' E1 E2 S' q c Hq Hc; cbn in E1 |- *; [|eapply V; eassumption].
      injection E1 as <-. rewrite E2 in Et. injection Et as ->. destruct (sq_broadcast n t g' S') as (w & Ew & Vw). rewrite Eu in Ew. injection Ew as <-. now apply Vw. }
  destruct K as (ts & E & V).
  exists (mkT [List.length rows; n; 3] (fun ix => at_ (nth (hd 0 ix) ts zero) (tl ix))). split.
  - change (bind (map_res F rows) (fun ts => Ok (mkT [List.length rows; n; 3] (fun ix => at_ (nth (hd 0 ix) ts zero) (tl ix)))) = Ok (mkT [List.length rows; n; 3] (fun ix => at_ (nth (hd 0 ix) ts zero) (tl ix)))). now rewrite E.
  - split; [reflexivity|]. intros. cbn [at_ hd tl]. eapply V; eassumption.
Qed.
Lemma map_st_ok {A B} (f : A -> @st R B) (inv : @heap R -> Prop) (P : A -> B -> Prop) l :
  (forall a h, In a l -> inv h -> exists h' b, f a h = (h', Ok b) /\ inv h' /\ P a b) -> forall h, inv h -> exists h' bs, map_st f l h = (h', Ok bs) /\ inv h' /\ Forall2 P l bs.
Proof.
  induction l as [|a l IH]; intros H h Hi; cbn [map_st].
  - unfold ret. exists h, []. auto.
  - destruct (H a h (or_introl eq_refl) Hi) as (h1 & b & E1 & I1 & P1). destruct (IH (fun a' h' Ha => H a' h' (or_intror Ha)) h1 I1) as (h2 & bs & E2 & I2 & P2).
    exists h2, (b :: bs). unfold bnd, ret. rewrite E1, E2. auto.
Qed.
Lemma map_res_F2 {A B D} (f : B -> result D) (P : A -> B -> Prop) (P' : A -> D -> Prop) : (forall a b, P a b -> exists c, f b = Ok c /\ P' a c) ->
  forall l bs, Forall2 P l bs -> exists cs, map_res f bs = Ok cs /\ Forall2 P' l cs.
Proof.
  intros H l bs F. induction F as [|a b l bs Hab F IH]; [exists []; split; [reflexivity|constructor]|].
  destruct IH as (cs & E & G). destruct (H a b Hab) as (c & Ec & Pc). exists (c :: cs). cbn [map_res]. rewrite Ec. cbn [bind]. rewrite E. split; [reflexivity|now constructor].
Qed.

Section S.
  Variables (sj sy jr : @bessel_t R) (e10 : R) (pi : string -> result Z).
  Variables (d : device) (p : @particle R) (h : @heap R) (wls : list R) (is : list nat) (L : nat) (rs : list R) (lf : nat -> nat -> C) (v : C).
  Hypothesis St : setting sj sy jr d p h wls is L rs lf v.
  Variables (n : Z) (b : option string).
  Hypotheses (Hn : (1 <= n)%Z) (Hb : lower (resolve_backend p b) = "pena"%string).
  Notation kw := (gpm_kwargs p b (Some n)).
  Definition fields_of (k : nat) : vec -> @four R :=
    pena_fields (Z.to_nat n) 15 e10 (2 * PI / nth k wls 0)%R v (nth 0 rs 0%R, lf 0 k) (map (fun l => (nth l rs 0%R, lf l k)) (seq 1 (L - 1))) (RtoC 1).
  Definition inv (h' : @heap R) : Prop := wfh h' /\ coherent d p h' /\ same_stat h h'.
  Lemma inv_start : inv h.
  Proof. split; [eapply reachable_wfh; exact (se_reach _ _ _ _ _ _ _ _ _ _ _ _ St)|]. split; [exact (se_coh _ _ _ _ _ _ _ _ _ _ _ _ St)|apply same_stat_refl]. Qed.
  Lemma inv_heq h1 h2 : inv h1 -> wfh h2 -> heq h1 h2 -> inv h2.
  Proof. intros (H1 & H2 & H3) W E. split; [exact W|]. split; [now apply coherent_heq with h1|]. apply same_stat_trans with h1; [exact H3|now apply heq_stat]. Qed.

  Lemma value_at k probe Q : k < List.length wls -> shp probe = [Q; 3] ->
    exists f, nearP sj sy jr e10 pi (values_of p) h (scalar_t (2 * PI / nth k wls 0)%R) probe (RtoC 1) kw = Ok (squeeze_dimensions (near_dict f)) /\
      is_sq Q (squeeze (f_Es f)) (fun i => q_Es (fields_of k (pt probe i))) /\ is_sq Q (squeeze (f_Hs f)) (fun i => q_Hs (fields_of k (pt probe i))) /\
      is_sq Q (squeeze (f_Ei f)) (fun i => q_Ei (fields_of k (pt probe i))) /\ is_sq Q (squeeze (f_Hi f)) (fun i => q_Hi (fields_of k (pt probe i))) /\
      (exists g, is_sq Q (squeeze (f_Et f)) g) /\ exists g, is_sq Q (squeeze (f_Ht f)) g.
  Proof.
    intros Hk Sp. destruct St as [S1 S2 S3 S4 (S5 & S5') (S6 & S6' & S6'') S7 S8 S9].
    destruct (nearP_fields sj sy jr e10 pi p h (scalar_t (2 * PI / nth k wls 0)%R) kw is L 1 rs (fun l _ => lf l k) (fun _ => v) n
      (reachable_wfh _ _ _ _ S1) S3 S4 S5 S5' S6 S6' S6'' eq_refl (le_n 1)) with (E0 := RtoC 1) (probe := probe) (Q := Q) as (f & Ef & (F1 & F2 & F3 & F4 & F5 & F6) & V).
    - intros l k' Hl Hk'. assert (k' = 0) as -> by lia. cbn [entries scalar_t shp indices map at_ nth]. rewrite wl_back. now apply S8.
    - intros k' Hk'. assert (k' = 0) as -> by lia. cbn [entries scalar_t shp indices map at_ nth]. rewrite wl_back. now apply S9.
    - exact Hb.
    - reflexivity.
    - exact Hn.
    - exact Sp.
    - exists f. split; [exact Ef|]. specialize (V 0). cbn [entries scalar_t shp indices map at_ nth] in V.
      assert (Hpt : forall i, fields_of k (pt probe i) =
        let s := xyz_to_sph e10 (at_ probe [i; 0]) (at_ probe [i; 1]) (at_ probe [i; 2]) in
        let P := {| pt_r := fst (fst s); pt_theta := snd (fst s); pt_phi := snd s |} in
        let kk := (2 * PI / nth k wls 0)%R in let co := (nth 0 rs 0%R, lf 0 k) in let sh := map (fun l => (nth l rs 0%R, lf l k)) (seq 1 (L - 1)) in
        {| q_Es := E_s (Z.to_nat n) 15 kk v co sh (RtoC 1) P; q_Hs := H_s (Z.to_nat n) 15 kk v co sh (RtoC 1) P; q_Ei := E_i kk v (RtoC 1) P; q_Hi := H_i kk v (RtoC 1) P |}).
      { intros i. unfold fields_of, pena_fields, pt, point_of. destruct (xyz_to_sph e10 _ _ _) as [[r th] ph]. reflexivity. }
      cbv zeta in Hpt, V.
      split; [|split; [|split; [|split; [|split]]]].
      1-4: apply squeeze_sq; [assumption|]; intros i c Hi Hc; rewrite Hpt; cbn [q_Es q_Hs q_Ei q_Hi]; apply (V i c); (assumption || lia).
      + exists (fun i => (at_ (f_Et f) [0; 0; i; 0], at_ (f_Et f) [0; 0; i; 1], at_ (f_Et f) [0; 0; i; 2])). apply squeeze_sq; [assumption|]. intros i c Hi Hc. cases3 c; reflexivity.
      + exists (fun i => (at_ (f_Ht f) [0; 0; i; 0], at_ (f_Ht f) [0; 0; i; 1], at_ (f_Ht f) [0; 0; i; 2])). apply squeeze_sq; [assumption|]. intros i c Hi Hc. cases3 c; reflexivity.
  Qed.
  Lemma rotate_near (m : mat) f Q e1 e2 e3 e4 e5 e6 : is_sq Q (squeeze (f_Ei f)) e1 -> is_sq Q (squeeze (f_Hi f)) e2 -> is_sq Q (squeeze (f_Es f)) e3 -> is_sq Q (squeeze (f_Hs f)) e4 ->
    is_sq Q (squeeze (f_Et f)) e5 -> is_sq Q (squeeze (f_Ht f)) e6 ->
    exists u1 u2 u3 u4 u5 u6, @rotate_dict R ROps m (squeeze_dimensions (near_dict f)) =
      Ok [("E_i", PC u1); ("H_i", PC u2); ("E_s", PC u3); ("H_s", PC u4); ("E_t", PC u5); ("H_t", PC u6)]%string /\
      is_sq Q u1 (fun i => @field_mul R ROps (e1 i) m) /\ is_sq Q u2 (fun i => @field_mul R ROps (e2 i) m) /\
      is_sq Q u3 (fun i => @field_mul R ROps (e3 i) m) /\ is_sq Q u4 (fun i => @field_mul R ROps (e4 i) m).
  Proof.
    intros H1 H2 H3 H4 H5 H6.
    destruct (cmatmul_sq _ _ _ m H1) as (u1 & E1 & S1), (cmatmul_sq _ _ _ m H2) as (u2 & E2 & S2), (cmatmul_sq _ _ _ m H3) as (u3 & E3 & S3),
      (cmatmul_sq _ _ _ m H4) as (u4 & E4 & S4), (cmatmul_sq _ _ _ m H5) as (u5 & E5 & _), (cmatmul_sq _ _ _ m H6) as (u6 & E6 & _).
    exists u1, u2, u3, u4, u5, u6. split; [|auto].
    assert (K : forall (t u : tensor C), @cmatmul R ROps t m = Ok u -> @rotate_val R ROps m (@PC R t) = Ok (@PC R u)) by (intros t u E; unfold rotate_val; now rewrite E).
    apply K in E1, E2, E3, E4, E5, E6.
    assert (EE : squeeze_dimensions (near_dict f) = [("E_i", @PC R (squeeze (f_Ei f))); ("H_i", @PC R (squeeze (f_Hi f))); ("E_s", @PC R (squeeze (f_Es f))); ("H_s", @PC R (squeeze (f_Hs f))); ("E_t", @PC R (squeeze (f_Et f))); ("H_t", @PC R (squeeze (f_Ht f)))]%string) by reflexivity.
    rewrite EE. unfold rotate_dict. cbn [map_res fst snd]. rewrite E1. cbn [bind]. rewrite E2. cbn [bind]. rewrite E3. cbn [bind]. rewrite E4. cbn [bind]. rewrite E5. cbn [bind]. rewrite E6. reflexivity.
  Qed.
  Lemma sq_ext Q t g g' : (forall i, i < Q -> g i = g' i) -> is_sq Q t g -> is_sq Q t g'.
  Proof.
    intros E [(HQ & Hs & H)|(HQ & Hs & H)]; [left|right]; (split; [exact HQ|]); (split; [exact Hs|]).
    - intros i c Hi Hc. rewrite <- E by exact Hi. now apply H.
    - intros c Hc. rewrite <- E by lia. now apply H.
  Qed.
  Lemma near_step k probe h1 : k < List.length wls -> inv h1 ->
    exists h2, get_nearfields e10 sj sy jr pi p (scalar_t (2 * PI / nth k wls 0)%R) probe None (RtoC 1) kw h1 =
      (h2, nearP sj sy jr e10 pi (values_of p) h (scalar_t (2 * PI / nth k wls 0)%R) probe (RtoC 1) kw) /\ inv h2.
  Proof.
    intros Hk I. pose proof I as (W & Hc & Hst). pose proof (getnf_ok sj sy jr e10 pi d p h1 (scalar_t (2 * PI / nth k wls 0)%R) probe None (RtoC 1) kw W Hc) as G.
    destruct (get_nearfields _ _ _ _ _ _ _ _ _ _ _ _) as [h2 r]. destruct G as (W2 & Q & ->). exists h2. split; [|now apply inv_heq with h1].
    f_equal. apply nearP_same with d; [exact (se_coh _ _ _ _ _ _ _ _ _ _ _ _ St)|exact Hst].
  Qed.
  Variables (probe gpm : tensor R) (Q M : nat).
  Hypotheses (Sp : shp probe = [Q; 3]) (Sg : shp gpm = [M; 3]).
  Notation sp k X pl s al := (fun i => seen (fun r => X (fields_of k r)) (frame pl s al) (pt probe i)).
  Notation sg k X pl s al := (fun i => seen (fun r => X (fields_of k r)) (frame pl s al) (pt gpm i)).
  Lemma eval_step k pl s al h1 : k < List.length wls -> inv h1 ->
    exists h2 es hs ei hi, eval_mie_t e10 sj sy jr pi p (the_conf pl s al) (scalar_t (2 * PI / nth k wls 0)%R) probe gpm (Some n) b h1 = (h2, Ok [es; hs; ei; hi]) /\ inv h2 /\
      is_sq Q es (sp k q_Es pl s al) /\ is_sq Q hs (sp k q_Hs pl s al) /\ is_sq M ei (sg k q_Ei pl s al) /\ is_sq M hi (sg k q_Hi pl s al).
  Proof.
    intros Hk I. unfold eval_mie_t. cbn [the_conf cf_angle cf_plane cf_pol]. unfold bnd at 1. unfold lift at 1. rewrite pwr_ok. fold (frame pl s al). set (m := frame pl s al).
    destruct (rmatmul_pt Q probe m Sp) as (probe' & Ep & Sp' & Vp). destruct (rmatmul_pt M gpm m Sg) as (gpm' & Eg & Sg' & Vg).
    unfold bnd at 1. unfold lift at 1. rewrite Ep. unfold bnd at 1. unfold lift at 1. rewrite Eg.
    destruct (value_at k probe' Q Hk Sp') as (f & Ef & A1 & A2 & A3 & A4 & (g5 & A5) & (g6 & A6)). destruct (value_at k gpm' M Hk Sg') as (f' & Ef' & B1 & B2 & B3 & B4 & (g5' & B5) & (g6' & B6)).
    destruct (near_step k probe' h1 Hk I) as (h2 & E2 & I2). destruct (near_step k gpm' h2 Hk I2) as (h3 & E3 & I3). rewrite Ef in E2. rewrite Ef' in E3.
    unfold bnd at 1. change (@cone R ROps) with (RtoC 1). rewrite E2. unfold bnd at 1. rewrite E3.
    destruct (rotate_near (@transpose R m) f Q _ _ _ _ _ _ A3 A4 A1 A2 A5 A6) as (u1 & u2 & u3 & u4 & u5 & u6 & R1 & _ & _ & C3 & C4).
    destruct (rotate_near (@transpose R m) f' M _ _ _ _ _ _ B3 B4 B1 B2 B5 B6) as (w1 & w2 & w3 & w4 & w5 & w6 & R2 & D1 & D2 & _).
    unfold bnd at 1. unfold lift at 1. rewrite R1. unfold bnd, lift. rewrite R2.
    exists h3, u3, u4, w1, w2. split; [reflexivity|]. split; [exact I3|].
    split; [|split; [|split]]; (eapply sq_ext; [|eassumption]); intros i Hi; cbn beta; unfold seen; rewrite field_mul_capp, ?Vp, ?Vg; reflexivity.
  Qed.
  Hypotheses (HQ : 1 <= Q) (HM : 1 <= M).
  Definition good_row k (c : @conf R) (row : list (tensor C)) : Prop :=
    exists pl s al x u1 u2 u3 u4, c = the_conf pl s al /\ row = [u1; u2; u3; u4] /\
      scaled Q M (sp k q_Es pl s al) (sp k q_Hs pl s al) (sg k q_Ei pl s al) (sg k q_Hi pl s al) x /\
      is_sq Q u1 (fun i => scale_v x (sp k q_Es pl s al i)) /\ is_sq Q u2 (fun i => scale_v x (sp k q_Hs pl s al i)) /\
      is_sq M u3 (fun i => scale_v x (sg k q_Ei pl s al i)) /\ is_sq M u4 (fun i => scale_v x (sg k q_Hi pl s al i)).
  Definition good_training (confs : list (@conf R)) k (t : @training R) : Prop :=
    tr_wl t = nth k wls 0%R /\ tr_env t = fst v /\
    (shp (tr_es t) = [List.length confs; Q; 3] /\ shp (tr_hs t) = [List.length confs; Q; 3] /\ shp (tr_ei t) = [List.length confs; M; 3] /\ shp (tr_hi t) = [List.length confs; M; 3]) /\
    forall i c, nth_error confs i = Some c -> exists pl s al x, c = the_conf pl s al /\
      scaled Q M (sp k q_Es pl s al) (sp k q_Hs pl s al) (sg k q_Ei pl s al) (sg k q_Hi pl s al) x /\
      (forall q cp, q < Q -> cp < 3 -> at_ (tr_es t) [i; q; cp] = comp cp (scale_v x (sp k q_Es pl s al q)) /\ at_ (tr_hs t) [i; q; cp] = comp cp (scale_v x (sp k q_Hs pl s al q))) /\
      (forall q cp, q < M -> cp < 3 -> at_ (tr_ei t) [i; q; cp] = comp cp (scale_v x (sg k q_Ei pl s al q)) /\ at_ (tr_hi t) [i; q; cp] = comp cp (scale_v x (sg k q_Hi pl s al q))).
  Lemma F2_nth {A B} (P : A -> B -> Prop) l1 l2 i a : Forall2 P l1 l2 -> nth_error l1 i = Some a -> exists x, nth_error l2 i = Some x /\ P a x.
  Proof. intros F. revert i. induction F as [|u w l1 l2 H F IH]; intros [|i] E; cbn in *; try discriminate; [injection E as <-; eauto|now apply IH]. Qed.
  Lemma F2_in {A B} (P : A -> B -> Prop) l1 l2 y : Forall2 P l1 l2 -> In y l2 -> exists x, In x l1 /\ P x y.
  Proof. intros F. induction F as [|u w l1 l2 H F IH]; intros []; [subst; exists u; split; [now left|assumption]|destruct (IH H0) as (x & I & J); exists x; split; [now right|assumption]]. Qed.
  Lemma train_step confs k h1 : k < List.length wls -> inv h1 -> (forall c, In c confs -> exists pl s al, c = the_conf pl s al) ->
    exists h2 t, train_one e10 sj sy jr pi p confs (fst v) probe gpm (Some n) b (2 * PI / nth k wls 0)%R h1 = (h2, Ok t) /\ inv h2 /\ good_training confs k t.
  Proof.
    intros Hk I Hc. unfold train_one, bnd.
    destruct (map_st_ok (fun c => eval_mie_t e10 sj sy jr pi p c (scalar_t (2 * PI / nth k wls 0)%R) probe gpm (Some n) b) inv
      (fun c r => exists pl s al u1 u2 u3 u4, c = the_conf pl s al /\ r = [u1; u2; u3; u4] /\
        is_sq Q u1 (sp k q_Es pl s al) /\ is_sq Q u2 (sp k q_Hs pl s al) /\ is_sq M u3 (sg k q_Ei pl s al) /\ is_sq M u4 (sg k q_Hi pl s al)) confs) with (h := h1) as (h2 & res & E & I2 & F); [|exact I|].
    { intros c h' Hin I'. destruct (Hc c Hin) as (pl & s & al & ->). destruct (eval_step k pl s al h' Hk I') as (h'' & u1 & u2 & u3 & u4 & E & I'' & A).
      exists h'', [u1; u2; u3; u4]. split; [exact E|]. split; [exact I''|]. exists pl, s, al, u1, u2, u3, u4. repeat (split; [reflexivity|]). exact A. }
    rewrite E.
    assert (KK : exists rows, map_res (@normalise_t R ROps) res = Ok rows /\ Forall2 (good_row k) confs rows).
    { revert F. apply map_res_F2. intros c r (pl & s & al & u1 & u2 & u3 & u4 & -> & -> & A1 & A2 & A3 & A4).
      destruct (normalise_sq Q M u1 u2 u3 u4 _ _ _ _ HQ HM A1 A2 A3 A4) as (x & w1 & w2 & w3 & w4 & Sx & Ex & B). exists [w1; w2; w3; w4]. split; [exact Ex|].
      exists pl, s, al, x, w1, w2, w3, w4. repeat (split; [reflexivity|]). split; [exact Sx|exact B]. }
    destruct KK as (rows & Er & G).
    unfold lift. match goal with |- context [@map_res ?A ?B ?f ?l] => replace (@map_res A B f l) with (@Ok (list (list (tensor C))) rows) by (symmetry; exact Er) end. cbn [bind]. unfold dim_size. rewrite Sp, Sg. cbn [nth].
    assert (Hlen : List.length confs = List.length rows) by (clear - G; induction G; cbn; congruence).
    destruct (fill_ok Q 0 rows) as (t1 & F1 & S1 & V1); [intros fs Hf; destruct (F2_in _ _ _ _ G Hf) as (c & _ & pl & s & al & x & w1 & w2 & w3 & w4 & _ & -> & _ & B1 & B2 & B3 & B4); cbn; eauto|].
    destruct (fill_ok Q 1 rows) as (t2 & F2 & S2 & V2); [intros fs Hf; destruct (F2_in _ _ _ _ G Hf) as (c & _ & pl & s & al & x & w1 & w2 & w3 & w4 & _ & -> & _ & B1 & B2 & B3 & B4); cbn; eauto|].
    destruct (fill_ok M 2 rows) as (t3 & F3 & S3 & V3); [intros fs Hf; destruct (F2_in _ _ _ _ G Hf) as (c & _ & pl & s & al & x & w1 & w2 & w3 & w4 & _ & -> & _ & B1 & B2 & B3 & B4); cbn; eauto|].
    destruct (fill_ok M 3 rows) as (t4 & F4 & S4 & V4); [intros fs Hf; destruct (F2_in _ _ _ _ G Hf) as (c & _ & pl & s & al & x & w1 & w2 & w3 & w4 & _ & -> & _ & B1 & B2 & B3 & B4); cbn; eauto|].
    rewrite F1. cbn [bind]. rewrite F2. cbn [bind]. rewrite F3. cbn [bind]. rewrite F4. cbn [bind].
    eexists. eexists. split; [reflexivity|]. split; [exact I2|]. unfold good_training. cbn [tr_wl tr_env tr_es tr_hs tr_ei tr_hi].
    split; [apply wl_back|]. split; [reflexivity|]. rewrite Hlen. split; [auto|].
    intros i c Hi. destruct (F2_nth _ _ _ _ _ G Hi) as (fs & Hfs & pl & s & al & x & w1 & w2 & w3 & w4 & -> & -> & Sx & B1 & B2 & B3 & B4).
    exists pl, s, al, x. split; [reflexivity|]. split; [exact Sx|]. split; intros q cp Hq Hcp; split.
    - exact (V1 i _ w1 _ Hfs eq_refl B1 q cp Hq Hcp).
    - exact (V2 i _ w2 _ Hfs eq_refl B2 q cp Hq Hcp).
    - exact (V3 i _ w3 _ Hfs eq_refl B3 q cp Hq Hcp).
    - exact (V4 i _ w4 _ Hfs eq_refl B4 q cp Hq Hcp).
  Qed.
  Lemma conf_row N a pl s : a < N -> nth_error (conf_list N ["xz"; "yz"; "xy"]%string) (row_no a pl s) = Some (the_conf pl s (angle_of N a)).
  Proof.
    intros Ha. unfold conf_list, row_no.
    assert (K : forall m st a, a < m -> nth_error (flat_map (fun i => flat_map (fun p => [conf_of N i p true; conf_of N i p false]) ["xz"; "yz"; "xy"]%string) (seq st m))
      (6 * a + 2 * plane_no pl + (if s then 0 else 1)) = Some (the_conf pl s (angle_of N (st + a)))).
    { induction m as [|m IH]; intros st a' H'; [lia|]. cbn [seq]. destruct a' as [|a'].
      - rewrite Nat.add_0_r. destruct pl, s; reflexivity.
      - replace (6 * S a' + 2 * plane_no pl + (if s then 0 else 1)) with (6 + (6 * a' + 2 * plane_no pl + (if s then 0 else 1))) by lia.
        replace (st + S a') with (S st + a') by lia. rewrite <- IH by lia. reflexivity. }
    rewrite K by exact Ha. reflexivity.
  Qed.
  Lemma conf_inj pl s al pl' s' al' : the_conf pl s al = the_conf pl' s' al' -> pl = pl' /\ s = s' /\ al = al'.
  Proof. unfold the_conf. intros H. injection H as -> H1 H2. split; [|split]; [destruct pl, pl'; easy|destruct s, s'; easy|reflexivity]. Qed.
  Lemma good_trained N k t : good_training (conf_list N ["xz"; "yz"; "xy"]%string) k t -> trained (fields_of k) N Q M probe gpm t.
  Proof.
    intros (_ & _ & Sh & H). assert (HL : List.length (conf_list N ["xz"; "yz"; "xy"]%string) = 6 * N) by (rewrite conf_count; cbn [List.length]; lia). rewrite HL in Sh.
    split; [exact Sh|]. intros a pl s Ha. destruct (H _ _ (conf_row N a pl s Ha)) as (pl' & s' & al' & x & E & Sx & V1 & V2).
    apply conf_inj in E. destruct E as (<- & <- & <-). exists x. exact (conj Sx (conj V1 V2)).
  Qed.
  Lemma training_ok N : (-1 <= N)%Z -> forall b0, b = Some (resolve_backend p b0) ->
    exists h' ts, gpm_training e10 sj sy jr pi p wls NNone N probe gpm (Some n) b0 h = (h', Ok ts) /\ inv h' /\ List.length ts = List.length wls /\
    forall k t, nth_error ts k = Some t -> tr_wl t = nth k wls 0%R /\ tr_env t = fst v /\ trained (fields_of k) (Z.to_nat N) Q M probe gpm t.
  Proof.
    intros HN b0 Eb. unfold gpm_training. destruct (tg_env_ok _ _ _ _ _ _ _ _ _ _ _ _ St NNone) as (h1 & te & W1 & Q1 & Ste & Ate & Ete).
    rewrite (env_cases te _ v _ Ste (K_pos _ _ _ _ _ _ _ _ _ _ _ _ St) Ate) in Ete. unfold bnd at 1. rewrite Ete. unfold bnd, lift. rewrite (configs_eq _ _ HN). rewrite <- Eb.
    set (confs := conf_list (Z.to_nat N) ["xz"; "yz"; "xy"]%string).
    assert (Hc : forall c, In c confs -> exists pl s al, c = the_conf pl s al).
    { intros c Hi. apply conf_in in Hi. destruct Hi as (i & q & s & _ & Hq & ->). destruct Hq as [<-|[<-|[<-|[]]]]; [exists XZ|exists YZ|exists XY]; exists s, (angle_of (Z.to_nat N) i); reflexivity. }
    assert (Hv : @cre R (@first_entry R te) = fst v).
    { unfold first_entry, ndim. change (@shp (cplx R) te) with (@shp C te). rewrite Ste. cbn [List.length repeat]. unfold cre. f_equal. apply Ate. exact (K_pos _ _ _ _ _ _ _ _ _ _ _ _ St). }
    rewrite Hv.
    assert (Hm : forall ws st h', (forall i, i < List.length ws -> nth i ws 0%R = nth (st + i) wls 0%R) -> st + List.length ws <= List.length wls -> inv h' ->
      exists h'' ts, map_st (train_one e10 sj sy jr pi p confs (fst v) probe gpm (Some n) b) (map (fun w => (2 * PI / w)%R) ws) h' = (h'', Ok ts) /\ inv h'' /\ List.length ts = List.length ws /\
        forall k t, nth_error ts k = Some t -> good_training confs (st + k) t).
    { induction ws as [|w ws IH]; intros st h' Hw Hl I'; cbn [map map_st].
      - exists h', []. unfold ret. repeat (split; [easy|]). intros [|k]; discriminate.
      - cbn [List.length] in Hl. pose proof (Hw 0 ltac:(cbn; lia)) as H0. rewrite Nat.add_0_r in H0. cbn [nth] in H0. rewrite H0.
        destruct (train_step confs st h' ltac:(lia) I' Hc) as (h2 & t & E & I2 & G).
        destruct (IH (S st) h2) as (h3 & ts & E3 & I3 & L3 & G3); [|lia|exact I2|].
        { intros i Hi. replace (S st + i) with (st + S i) by lia. rewrite <- Hw by (cbn; lia). reflexivity. }
        exists h3, (t :: ts). unfold bnd, ret. rewrite E, E3. split; [reflexivity|]. split; [exact I3|]. split; [cbn; now rewrite L3|].
        intros [|k] t' Ht; cbn in Ht.
        + injection Ht as <-. now rewrite Nat.add_0_r.
        + replace (st + S k) with (S st + k) by lia. now apply G3. }
    destruct (Hm wls 0 h1 (fun i _ => eq_refl) (le_n _)) as (h2 & ts & E & I2 & Hl & G).
    { apply inv_heq with h; [exact inv_start|exact W1|exact Q1]. }
    exists h2, ts. split; [exact E|]. split; [exact I2|]. split; [exact Hl|]. intros k t Ht. pose proof (G k t Ht) as Gt. cbn [Nat.add] in Gt.
    destruct Gt as (G1 & G2 & Gt). split; [exact G1|]. split; [exact G2|]. apply good_trained. exact (conj G1 (conj G2 Gt)).
  Qed.
End S.

Lemma training_fields sj sy jr e10 pi d p h wls is L rs lf v : setting sj sy jr d p h wls is L rs lf v -> forall n b N probe gpm Q M, (1 <= n)%Z -> lower (resolve_backend p b) = "pena"%string ->
  (-1 <= N)%Z -> shp probe = [Q; 3] -> shp gpm = [M; 3] -> 1 <= Q -> 1 <= M ->
  exists h' ts, gpm_training e10 sj sy jr pi p wls NNone N probe gpm (Some n) b h = (h', Ok ts) /\ List.length ts = List.length wls /\
  forall k t, nth_error ts k = Some t -> tr_wl t = nth k wls 0%R /\ tr_env t = fst v /\
    trained (pena_fields (Z.to_nat n) 15 e10 (2 * PI / nth k wls 0)%R v (nth 0 rs 0%R, lf 0 k) (map (fun l => (nth l rs 0%R, lf l k)) (seq 1 (L - 1))) (RtoC 1)) (Z.to_nat N) Q M probe gpm t.
Proof.
  intros St n b N probe gpm Q M Hn Hb HN Sp Sg HQ HM.
  destruct (training_ok sj sy jr e10 pi d p h wls is L rs lf v St n (Some (resolve_backend p b)) Hn Hb probe gpm Q M Sp Sg HQ HM N HN b eq_refl) as (h' & ts & E & _ & Hl & G).
  exists h', ts. exact (conj E (conj Hl G)).
Qed.
Lemma training_number sj sy jr e10 pi d p h wls is L rs lf v : setting sj sy jr d p h wls is L rs lf v -> forall z n b N probe gpm,
  exists er, snd (gpm_training e10 sj sy jr pi p wls (NNum z) N probe gpm n b h) = Err er.
Proof.
  intros St z n b N probe gpm. unfold gpm_training, bnd at 1. destruct (tg_env_ok _ _ _ _ _ _ _ _ _ _ _ _ St (NNum z)) as (h1 & t & _ & _ & Sh & At & Et).
  rewrite Et, (env_cases t _ v _ Sh (K_pos _ _ _ _ _ _ _ _ _ _ _ _ St) At). destruct (ceqb v (csqr z)); eexists; reflexivity.
Qed.
Lemma training_negative sj sy jr e10 pi d p h wls is L rs lf v : setting sj sy jr d p h wls is L rs lf v -> forall n b N probe gpm, (N < -1)%Z ->
  snd (gpm_training e10 sj sy jr pi p wls NNone N probe gpm n b h) = Err RuntimeError.
Proof.
  intros St n b N probe gpm HN. unfold gpm_training, bnd. destruct (tg_env_ok _ _ _ _ _ _ _ _ _ _ _ _ St NNone) as (h1 & t & _ & _ & Sh & At & Et).
  rewrite Et, (env_cases t _ v _ Sh (K_pos _ _ _ _ _ _ _ _ _ _ _ _ St) At). unfold lift, setup_configs, angles. destruct (Z.ltb_spec (N + 1) 0); [reflexivity|lia].
Qed.
Lemma training_incident n_max n_add e10 k0 eps core shells E0 N Q M probe gpm t : (0 < e10 < 1)%R ->
  trained (pena_fields n_max n_add e10 k0 eps core shells E0) N Q M probe gpm t -> forall a pl s, a < N -> exists c, (0 < c <= 10 ^ 30)%R /\
  forall q cp, q < M -> cp < 3 -> let al := (2 * PI * INR a / INR N)%R in let r := pt gpm q in (Rabs (dot (k_want pl al) r) <= (1 - e10) * sqrt (dot r r))%R ->
    let w := plane_wave (RtoC k0 * @csqrt R ROps eps)%C E0 (dot (k_want pl al) r) in
    at_ (tr_ei t) [row_no a pl s; q; cp] = (RtoC c * (w * comp cp (cv_of (e_want pl s al))))%C /\
    at_ (tr_hi t) [row_no a pl s; q; cp] = (RtoC c * (@csqrt R ROps eps * w * comp cp (cv_of (cross (k_want pl al) (e_want pl s al)))))%C.
Proof.
  intros He T a pl s Ha. destruct (td_rows _ _ _ _ _ _ _ T a pl s Ha) as (c & (Hc & _) & _ & V). exists c. split; [exact Hc|].
  intros q cp Hq Hcp al r Hr w. destruct (V q cp Hq Hcp) as [V1 V2]. unfold at_source in V1, V2. cbv zeta in V1, V2. fold al in V1, V2. fold r in V1, V2.
  destruct (incident_wave n_max n_add e10 k0 eps core shells E0 pl s al r He Hr) as [W1 W2]. unfold frame in W1, W2. rewrite W1 in V1. rewrite W2 in V2. fold w in V1, V2.
  assert (K : forall (x y : C) (u : cvec), comp cp (scale_v c (csc y u)) = (RtoC c * (y * comp cp u))%C).
  { intros x y [[u1 u2] u3]. unfold scale_v, csc, comp, v1, v2, v3. cases3 cp; reflexivity. }
  rewrite V1, V2, !K by exact (RtoC 0). split; reflexivity.
Qed.
