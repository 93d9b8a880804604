(** Evaluation of one illumination, the set of illuminations, normalisation. *)
From Coq Require Import Reals ZArith List Bool String Arith Lia Lra.
From Coquelicot Require Import Coquelicot.
From Verif Require Import Ops ROps CLemmas CTrig ModelSpecial ModelMie ModelBatch ModelNear NearField ModelGeom GeomSpec GeomProofs RotProofs.
Import ListNotations.
Open Scope R_scope.

Lemma row_mul_app (v : vec) (m : mat) : @row_mul R ROps v m = app (tr m) v.
Proof.
  destruct v as [[x y] z], m as [[[[a b] c] [[d e] f]] [[g h] i]]. unfold row_mul, rdot, transpose, app, tr, dot, x1, x2, x3, row1, row2, row3. cbn [fst snd radd rmul ROps].
  pairs; ring.
Qed.
Lemma field_mul_capp (F : @vec3 R) (m : mat) : @field_mul R ROps F (transpose m) = capp m F.
Proof.
  destruct F as [[x y] z], m as [[[[a b] c] [[d e] f]] [[g h] i]]. unfold field_mul, cdot, transpose, capp, x1, x2, x3, row1, row2, row3, v1, v2, v3. cbn [fst snd].
  pairs; match goal with |- ?x = ?y => change (@eq C x y) end; toC; ring.
Qed.

Definition frame (p : plane) (s : bool) (al : R) : mat := frame_of (e_want p s al) (k_want p al).
Definition the_conf (p : plane) (s : bool) (al : R) : @conf R := {| cf_angle := al; cf_plane := plane_name p; cf_pol := pol_name s |}.
(* fields of the rotated source at the point r *)
Definition seen (f : vec -> cvec) (m : mat) (r : vec) : cvec := capp m (f (app (tr m) r)).
Lemma eval_ok (nf : vec -> @four R) p s al (rp rg : list vec) :
  @eval_mie R ROps nf (the_conf p s al) rp rg =
  Ok (map (seen (fun r => q_Es (nf r)) (frame p s al)) rp, map (seen (fun r => q_Hs (nf r)) (frame p s al)) rp,
      map (seen (fun r => q_Ei (nf r)) (frame p s al)) rg, map (seen (fun r => q_Hi (nf r)) (frame p s al)) rg).
Proof.
  unfold eval_mie. cbn [the_conf cf_angle cf_plane cf_pol]. rewrite pwr_ok. cbn [bind]. fold (frame p s al). set (m := frame p s al). clearbody m.
  f_equal. rewrite !map_map. pairs; apply map_ext; intros r; unfold seen; now rewrite field_mul_capp, row_mul_app.
Qed.
Lemma frame_facts p s al : rotation (frame p s al) /\ app (frame p s al) (0, 0, 1) = k_want p al /\ app (frame p s al) (1, 0, 0) = e_want p s al /\
  app (frame p s al) (0, 1, 0) = cross (k_want p al) (e_want p s al).
Proof. destruct (want_unit p s al) as (H1 & H2 & H3). now apply frame_rotation. Qed.
Lemma seen_norm f g m r : rotation m -> inner (seen f m r) (seen g m r) = inner (f (app (tr m) r)) (g (app (tr m) r)).
Proof. intros H. now apply inner_rot. Qed.
Lemma unsupported (nf : vec -> @four R) al pl po rp rg : (forall p, pl <> plane_name p) \/ (forall s, po <> pol_name s) ->
  @eval_mie R ROps nf {| cf_angle := al; cf_plane := pl; cf_pol := po |} rp rg = Err ValueError /\ @plane_wave_rotation R ROps al pl po = Err ValueError.
Proof.
  intros H. assert (E : @plane_wave_rotation R ROps al pl po = Err ValueError); [|split; [|exact E]].
  - unfold plane_wave_rotation, frame_dirs.
    destruct (String.eqb_spec pl "yz") as [E1|E1]; [|destruct (String.eqb_spec pl "xz") as [E2|E2]; [|destruct (String.eqb_spec pl "xy") as [E3|E3]; [|reflexivity]]];
    (destruct H as [H|H]; [exfalso; first [exact (H YZ E1)|exact (H XZ E2)|exact (H XY E3)]|]);
    (destruct (String.eqb_spec po "s") as [S1|S1]; [exfalso; exact (H true S1)|]); (destruct (String.eqb_spec po "p") as [S2|S2]; [exfalso; exact (H false S2)|]); reflexivity.
  - unfold eval_mie. cbn [cf_angle cf_plane cf_pol]. now rewrite E.
Qed.

(** ** the incident wave has the requested direction and polarisation *)
Section Wave.
  Variables (n_max n_add : nat) (e10 k0 : R) (eps_env : C) (core : R * C) (shells : list (R * C)) (E0 : C).
  Definition pena_fields (r : vec) : @four R :=
    let '(x, y, z) := r in let P := point_of e10 x y z in
    {| q_Es := @E_s R ROps n_max n_add k0 eps_env core shells E0 P; q_Hs := @H_s R ROps n_max n_add k0 eps_env core shells E0 P;
       q_Ei := @E_i R ROps k0 eps_env E0 P; q_Hi := @H_i R ROps k0 eps_env E0 P |}.
  Lemma capp_x m (c : C) : capp m (c, RtoC 0, RtoC 0) = csc c (cv_of (app m (1, 0, 0))).
  Proof. destruct m as [[[[a b] c'] [[d e] f]] [[g h] i]]. unfold capp, csc, cv_of, app, dot. rewrite ?RtoC_plus, ?RtoC_mult. pairs; match goal with |- ?x = ?y => change (@eq C x y) end; ring. Qed.
  Lemma capp_y m (c : C) : capp m (RtoC 0, c, RtoC 0) = csc c (cv_of (app m (0, 1, 0))).
  Proof. destruct m as [[[[a b] c'] [[d e] f]] [[g h] i]]. unfold capp, csc, cv_of, app, dot. rewrite ?RtoC_plus, ?RtoC_mult. pairs; match goal with |- ?x = ?y => change (@eq C x y) end; ring. Qed.
  Lemma incident_wave p s al (r : vec) : 0 < e10 < 1 -> Rabs (dot (k_want p al) r) <= (1 - e10) * sqrt (dot r r) ->
    let k := (RtoC k0 * @csqrt R ROps eps_env)%C in let w := plane_wave k E0 (dot (k_want p al) r) in
    seen (fun r => q_Ei (pena_fields r)) (frame p s al) r = csc w (cv_of (e_want p s al)) /\
    seen (fun r => q_Hi (pena_fields r)) (frame p s al) r = csc (@csqrt R ROps eps_env * w)%C (cv_of (cross (k_want p al) (e_want p s al))).
  Proof.
    intros He Hz k w. destruct (frame_facts p s al) as (Hrot & Fk & Fe & Fh). unfold seen. rewrite app_dots, Fk, Fe, Fh.
    set (x := dot (e_want p s al) r). set (y := dot (cross (k_want p al) (e_want p s al)) r). set (z := dot (k_want p al) r) in *.
    assert (En : @norm3 R ROps x y z = sqrt (dot r r)).
    { rewrite norm3_def. f_equal. transitivity (dot (app (tr (frame p s al)) r) (app (tr (frame p s al)) r)).
      - rewrite app_dots, Fk, Fe, Fh. reflexivity.
      - apply dot_rot. destruct Hrot as (H1 & H2 & H3). unfold rotation. replace (tr (tr (frame p s al))) with (frame p s al) by (destruct (frame p s al) as [[[[a b] c] [[d e] f]] [[g h] i]]; reflexivity).
        split; [exact H2|]. split; [exact H1|]. rewrite <- H3. destruct (frame p s al) as [[[[a b] c] [[d e] f]] [[g h] i]]. unfold det, tr, dot, cross. ring. }
    destruct (incident_eq k0 eps_env E0 e10 x y z He ltac:(rewrite En; exact Hz)) as [A B].
    cbn [pena_fields q_Ei q_Hi]. rewrite A, B. split; [rewrite capp_x, Fe|rewrite capp_y, Fh]; reflexivity.
  Qed.
End Wave.

(** ** turning the wave turns the fields *)
Definition turn (p : plane) (b : R) : mat := match p with XZ => @rotation_y R ROps b | YZ => @rotation_x R ROps (- b) | XY => @rotation_z R ROps (- b) end.
Lemma turn_rotation p b : rotation (turn p b).
Proof. destruct p; cbn [turn]; apply rotations. Qed.
Lemma frame_turn p s al b : frame p s (al + b) = mmul (turn p b) (frame p s al).
Proof.
  pose proof (sin2_cos2 al) as E1. pose proof (sin2_cos2 b) as E2. unfold Rsqr in *.
  assert (A1 : sin al * sin al = 1 - cos al * cos al) by lra. assert (A2 : sin b * sin b = 1 - cos b * cos b) by lra.
  destruct p, s; unfold frame, frame_of, turn, rotation_x, rotation_y, rotation_z, e_want, k_want, comb, first_axis, second_axis, normal_axis, cross, tr, mmul, app, dot, tr;
    cbn [rsin rcos rone rzero ropp ROps]; rewrite sin_plus, cos_plus; rewrite ?sin_neg, ?cos_neg; pairs; ring [A1 A2].
Qed.
Lemma app_tr_turn m r : rotation m -> app (tr m) (app m r) = r.
Proof. intros (_ & H & _). now rewrite <- app_mmul, H, app_id. Qed.
Lemma seen_turn f p s al b r : seen f (frame p s (al + b)) (app (turn p b) r) = capp (turn p b) (seen f (frame p s al) r).
Proof.
  unfold seen. rewrite frame_turn, capp_mmul, tr_mmul, app_mmul. now rewrite app_tr_turn by apply turn_rotation.
Qed.
Lemma eval_turn (nf : vec -> @four R) p s al b rp rg : exists Es Hs Ei Hi,
  @eval_mie R ROps nf (the_conf p s al) rp rg = Ok (Es, Hs, Ei, Hi) /\
  @eval_mie R ROps nf (the_conf p s (al + b)) (map (app (turn p b)) rp) (map (app (turn p b)) rg) =
    Ok (map (capp (turn p b)) Es, map (capp (turn p b)) Hs, map (capp (turn p b)) Ei, map (capp (turn p b)) Hi).
Proof.
  rewrite !eval_ok. do 4 eexists. split; [reflexivity|]. f_equal. rewrite !map_map. pairs; apply map_ext; intros r; apply seen_turn.
Qed.

(** ** the set of illuminations *)
Lemma NoDup_flat_map {A B} (f : A -> list B) l : NoDup l -> (forall x, In x l -> NoDup (f x)) ->
  (forall x y z, In x l -> In y l -> In z (f x) -> In z (f y) -> x = y) -> NoDup (flat_map f l).
Proof.
  induction l as [|a l IH]; intros Hl Hf Hd; [constructor|]. inversion Hl as [|? ? Hn Hl']. subst. cbn [flat_map].
  assert (IHl : NoDup (flat_map f l)) by (apply IH; [exact Hl'|intros; apply Hf; now right|intros x y z Hx Hy; apply Hd; now right]).
  assert (Hdis : forall z, In z (f a) -> ~ In z (flat_map f l)).
  { intros z Hz Hin. apply in_flat_map in Hin. destruct Hin as (y & Hy & Hzy). apply Hn. rewrite (Hd a y z); auto; [now left|now right]. }
  specialize (Hf a (or_introl eq_refl)). clear - Hf IHl Hdis. induction (f a) as [|b m IHm]; [exact IHl|]. inversion Hf as [|? ? Hb Hm]. subst. cbn. constructor.
  - intros Hin. apply in_app_or in Hin. destruct Hin as [Hin|Hin]; [now apply Hb|]. apply (Hdis b); [now left|exact Hin].
  - apply IHm; [exact Hm|]. intros z Hz. apply Hdis. now right.
Qed.
Definition angle_of (n i : nat) : R := 2 * PI * INR i / INR n.
Definition conf_of (n i : nat) (p : string) (s : bool) : @conf R := {| cf_angle := angle_of n i; cf_plane := p; cf_pol := pol_name s |}.
Definition conf_list (n : nat) (planes : list string) : list (@conf R) :=
  flat_map (fun i => flat_map (fun p => [conf_of n i p true; conf_of n i p false]) planes) (seq 0 n).
Lemma configs_eq n planes : (-1 <= n)%Z -> @setup_configs R ROps n planes = Ok (conf_list (Z.to_nat n) planes).
Proof.
  intros Hn. unfold setup_configs, angles. destruct (Z.ltb_spec (n + 1) 0); [lia|]. cbn [bind]. f_equal. unfold conf_list. rewrite flat_map_concat_map, map_map, <- flat_map_concat_map.
  apply flat_map_ext. intros i. apply flat_map_ext. intros p. cbn [map]. unfold conf_of, pol_name, angle_of. rewrite !rofn_R. cbn [rmul rdiv ROps rpi].
  replace (INR i * (rtwo * PI) / INR (Z.to_nat n)) with (2 * PI * INR i / INR (Z.to_nat n)); [reflexivity|]. unfold rtwo. cbn. unfold Rdiv. ring.
Qed.
Lemma configs_negative n planes : (n < -1)%Z -> @setup_configs R ROps n planes = Err RuntimeError.
Proof. intros Hn. unfold setup_configs, angles. destruct (Z.ltb_spec (n + 1) 0); [reflexivity|lia]. Qed.
Lemma conf_count n planes : List.length (conf_list n planes) = (2 * n * List.length planes)%nat.
Proof.
  unfold conf_list. assert (H : forall i, List.length (flat_map (fun p => [conf_of n i p true; conf_of n i p false]) planes) = (2 * List.length planes)%nat).
  { intros i. induction planes as [|p l IH]; [reflexivity|]. cbn [flat_map List.length]. rewrite app_length, IH. cbn. lia. }
  rewrite <- (seq_length n 0) at 2. induction (seq 0 n) as [|i l IH]; [reflexivity|]. cbn [flat_map List.length]. rewrite app_length, IH, H. lia.
Qed.
Lemma conf_in n planes c : In c (conf_list n planes) <-> exists i p s, (i < n)%nat /\ In p planes /\ c = conf_of n i p s.
Proof.
  unfold conf_list. rewrite in_flat_map. split.
  - intros (i & Hi & H). apply in_flat_map in H. destruct H as (p & Hp & H). apply in_seq in Hi. cbn in H.
    destruct H as [H|[H|[]]]; [exists i, p, true|exists i, p, false]; (split; [lia|]; split; [exact Hp|now symmetry]).
  - intros (i & p & s & Hi & Hp & ->). exists i. split; [apply in_seq; lia|]. apply in_flat_map. exists p. split; [exact Hp|]. destruct s; cbn; auto.
Qed.
Lemma angle_inj n i j : (i < n)%nat -> (j < n)%nat -> angle_of n i = angle_of n j -> i = j.
Proof.
  intros Hi Hj E. unfold angle_of in E. assert (0 < INR n) by (apply lt_0_INR; lia). pose proof PI_RGT_0 as HP.
  apply INR_eq. apply (f_equal (fun t => t * INR n / (2 * PI))) in E. replace (2 * PI * INR i / INR n * INR n / (2 * PI)) with (INR i) in E by (field; lra).
  replace (2 * PI * INR j / INR n * INR n / (2 * PI)) with (INR j) in E by (field; lra). exact E.
Qed.
Lemma angle_range n i : (i < n)%nat -> 0 <= angle_of n i < 2 * PI /\ angle_of n 0 = 0 /\ angle_of n (S i) - angle_of n i = 2 * PI / INR n.
Proof.
  intros Hi. assert (Hn : 0 < INR n) by (apply lt_0_INR; lia). pose proof PI_RGT_0. pose proof (pos_INR i). assert (INR i < INR n) by now apply lt_INR.
  unfold angle_of. split; [|split].
  - split; [apply Rmult_le_pos; [nra|left; now apply Rinv_0_lt_compat]|]. apply Rmult_lt_reg_r with (INR n); [exact Hn|]. unfold Rdiv. rewrite Rmult_assoc, Rinv_l by lra. nra.
  - cbn [INR]. unfold Rdiv. ring.
  - rewrite S_INR. unfold Rdiv. ring.
Qed.
Lemma conf_nodup n planes : NoDup planes -> NoDup (conf_list n planes).
Proof.
  intros Hp. apply NoDup_flat_map; [apply seq_NoDup| |].
  - intros i _. apply NoDup_flat_map; [exact Hp| |].
    + intros p _. constructor; [intros [E|[]]; discriminate|constructor; [intros []|constructor]].
    + intros p q z _ _ H1 H2. cbn in H1, H2. destruct H1 as [<-|[<-|[]]], H2 as [E|[E|[]]]; now injection E.
  - intros i j z Hi Hj H1 H2. apply in_seq in Hi, Hj. apply in_flat_map in H1, H2. destruct H1 as (p & _ & H1), H2 as (q & _ & H2).
    apply (angle_inj n); [lia|lia|]. cbn in H1, H2. destruct H1 as [<-|[<-|[]]], H2 as [E|[E|[]]]; injection E; auto.
Qed.

(** ** normalisation *)
Lemma fold_rmax_ge l a : a <= fold_left (@rmax R ROps) l a /\ forall x, In x l -> x <= fold_left (@rmax R ROps) l a.
Proof.
  revert a. induction l as [|b l IH]; intros a; cbn [fold_left]; [split; [lra|intros x []]|]. destruct (IH (@rmax R ROps a b)) as [H1 H2].
  assert (Hm : a <= @rmax R ROps a b /\ b <= @rmax R ROps a b) by (unfold rmax; cbn [rleb ROps]; unfold Rleb; destruct (Rle_dec a b); lra).
  split; [lra|]. intros x [<-|Hx]; [lra|now apply H2].
Qed.
Lemma fold_rmax_in l a : fold_left (@rmax R ROps) l a = a \/ In (fold_left (@rmax R ROps) l a) l.
Proof.
  revert a. induction l as [|b l IH]; intros a; cbn [fold_left]; [now left|]. destruct (IH (@rmax R ROps a b)) as [E|H]; [|right; now right].
  rewrite E. unfold rmax. destruct (rleb a b); [right; now left|now left].
Qed.
Definition comps (v : cvec) : list C := let '(a, b, c) := v in [a; b; c].
Definition scale_v (c : R) (v : cvec) : cvec := csc (RtoC c) v.
Lemma norm_ge (fs : list (list cvec)) : / 10 ^ 30 <= @common_norm R ROps fs /\ forall l v z, In l fs -> In v l -> In z (comps v) -> Cmod z <= @common_norm R ROps fs.
Proof.
  unfold common_norm. set (a := fold_left _ (map vmax fs) rzero). assert (Ht : @rtenth R ROps 30 = / 10 ^ 30).
  { unfold rtenth. cbn [rdiv rone rofZ ROps]. unfold Rdiv. rewrite Rmult_1_l. f_equal. rewrite <- pow_IZR. reflexivity. }
  assert (Hm : a <= @rmax R ROps a (rtenth 30) /\ rtenth 30 <= @rmax R ROps a (rtenth 30)) by (unfold rmax; cbn [rleb ROps]; unfold Rleb; destruct (Rle_dec a (rtenth 30)); lra).
  split; [rewrite <- Ht; apply Hm|]. intros l v z Hl Hv Hz. apply Rle_trans with a; [|apply Hm].
  apply Rle_trans with (@vmax R ROps l); [|apply (proj2 (fold_rmax_ge (map vmax fs) rzero)); now apply in_map].
  apply (proj2 (fold_rmax_ge _ _)). apply in_flat_map. exists v. split; [exact Hv|]. destruct v as [[x y] w]. cbn [comps] in Hz. cbn. destruct Hz as [<-|[<-|[<-|[]]]]; auto.
Qed.
Lemma norm_attained (fs : list (list cvec)) : @common_norm R ROps fs = / 10 ^ 30 \/
  exists l v z, In l fs /\ In v l /\ In z (comps v) /\ Cmod z = @common_norm R ROps fs.
Proof.
  assert (Ht : @rtenth R ROps 30 = / 10 ^ 30).
  { unfold rtenth. cbn [rdiv rone rofZ ROps]. unfold Rdiv. rewrite Rmult_1_l. f_equal. rewrite <- pow_IZR. reflexivity. }
  unfold common_norm. set (a := fold_left (@rmax R ROps) (map vmax fs) rzero). unfold rmax at 1 2. cbn [rleb ROps]. unfold Rleb. destruct (Rle_dec a (rtenth 30)) as [H|H]; [left; exact Ht|].
  right. assert (Ha : a <> rzero). { intros E. apply H. rewrite E, Ht. cbn [rzero ROps]. left. apply Rinv_0_lt_compat. apply pow_lt. lra. }
  destruct (fold_rmax_in (map vmax fs) (@rzero R ROps)) as [E|Hin]; [contradiction|]. apply in_map_iff in Hin. destruct Hin as (l & El & Hl). fold a in El.
  unfold vmax in El. destruct (fold_rmax_in (flat_map (fun v => [@cabs R ROps (v1 v); cabs (v2 v); cabs (v3 v)]) l) (@rzero R ROps)) as [E|Hin]; [rewrite E in El; congruence|].
  rewrite El in Hin. apply in_flat_map in Hin. destruct Hin as (v & Hv & Hz). destruct v as [[x y] w]. cbn in Hz.
  exists l, (x, y, w). destruct Hz as [Hz|[Hz|[Hz|[]]]]; [exists x|exists y|exists w]; (split; [exact Hl|]; split; [exact Hv|]; split; [cbn; auto|exact Hz]).
Qed.
Lemma normalise_ok (fs : list (list cvec)) : (forall l, In l fs -> l <> []) -> exists c, 0 < c <= 10 ^ 30 /\
  @normalise R ROps fs = Ok (map (map (scale_v c)) fs) /\
  (forall l v z, In l fs -> In v l -> In z (comps v) -> c * Cmod z <= 1) /\
  (c = 10 ^ 30 \/ exists l v z, In l fs /\ In v l /\ In z (comps v) /\ c * Cmod z = 1).
Proof.
  intros Hne. destruct (norm_ge fs) as [H1 H2]. assert (Hp : 0 < / 10 ^ 30) by (apply Rinv_0_lt_compat, pow_lt; lra).
  set (n := @common_norm R ROps fs) in *. exists (/ n). assert (Hn : 0 < n) by lra. assert (Hn0 : RtoC n <> RtoC 0) by (apply RtoC_neq; lra).
  split; [split; [now apply Rinv_0_lt_compat|]|split; [|split]].
  - rewrite <- (Rinv_inv (10 ^ 30)). apply Rinv_le_contravar; assumption.
  - unfold normalise. match goal with |- (if ?b then _ else _) = _ => destruct b eqn:E end.
    + apply existsb_exists in E. destruct E as (l & Hl & E). destruct l; [|discriminate]. exfalso. now apply (Hne [] Hl).
    + f_equal. apply map_ext. intros l. apply map_ext. intros [[x y] z]. fold n. unfold scale_v, csc, v1, v2, v3. cbn [fst snd]. rewrite RtoC_inv by lra.
      pairs; match goal with |- ?x = ?y => change (@eq C x y) end; toC; field; exact Hn0.
  - intros l v z Hl Hv Hz. apply Rmult_le_reg_l with n; [exact Hn|]. rewrite <- Rmult_assoc, Rinv_r, Rmult_1_l by lra. specialize (H2 l v z Hl Hv Hz). lra.
  - destruct (norm_attained fs) as [E|(l & v & z & Hl & Hv & Hz & E)].
    + left. fold n in E. rewrite E. apply Rinv_inv.
    + right. exists l, v, z. repeat (split; [assumption|]). fold n in E. rewrite E. apply Rinv_l. lra.
Qed.
Lemma normalise_empty (fs : list (list cvec)) : In [] fs -> @normalise R ROps fs = Err RuntimeError.
Proof. intros H. unfold normalise. match goal with |- (if ?b then _ else _) = _ => destruct b eqn:E end; [reflexivity|]. assert (X : existsb (fun l : list (@vec3 R) => match l with [] => true | _ => false end) fs = true) by (apply existsb_exists; now exists []). congruence. Qed.

(** products of fields, and distances to the origin, do not depend on the illumination *)
Lemma products_kept : forall f g p s al r, let m := frame p s al in
  inner (seen f m r) (seen g m r) = inner (f (app (tr m) r)) (g (app (tr m) r)) /\ dot (app (tr m) r) (app (tr m) r) = dot r r.
Proof.
  intros f g p s al r m. destruct (frame_facts p s al) as (Hr & _). split; [now apply seen_norm|].
  destruct (app_dots m r). rewrite <- (dot_rot m (app (tr m) r) (app (tr m) r) Hr), <- !app_mmul. destruct Hr as (Hr & _). fold m in Hr. rewrite Hr, !app_id. reflexivity.
Qed.
