(** Near fields: regions, linearity, incident wave, continuity of tangential components. *)
From Coq Require Import Reals Lra Lia List Arith Bool.
From Coquelicot Require Import Coquelicot.
From Verif Require Import Ops ROps Spec StackSpec CLemmas CTrig ModelSpecial ModelMie QuietSpec ModelNear NearSpec NearProofs.
Import ListNotations.
Open Scope R_scope.

(** ** regions *)
Lemma increasing_tl a l : increasing (a :: l) -> increasing l.
Proof. destruct l; [intros; exact I|]. now intros [_ H]. Qed.
Lemma increasing_head a l : increasing (a :: l) -> forall b, In b l -> a < b.
Proof.
  revert a. induction l as [|c l IH]; intros a H b Hb; [destruct Hb|]. destruct H as [H1 H2].
  destruct Hb as [->|Hb]; [exact H1|]. apply Rlt_trans with c; [exact H1|]. now apply IH.
Qed.
Lemma below_nil l r : (forall b, In b l -> r <= b) -> below l r = 0%nat.
Proof.
  unfold below. induction l as [|a l IH]; intros H; [reflexivity|]. cbn [filter].
  destruct (Rlt_dec a r) as [Hl|_]; [specialize (H a (or_introl eq_refl)); lra|]. apply IH. intros b Hb. apply H. now right.
Qed.
Lemma below_le l r : (below l r <= length l)%nat.
Proof. unfold below. induction l as [|a l IH]; [cbn; lia|]. cbn [filter]. destruct (Rlt_dec a r); cbn [length]; lia. Qed.
Lemma below_spec l r : increasing l -> forall j, (j < length l)%nat -> (nth j l 0 < r <-> (j < below l r)%nat).
Proof.
  induction l as [|a l IH]; intros Hi j Hj; [cbn in Hj; lia|]. pose proof (IH (increasing_tl _ _ Hi)) as IH'.
  unfold below. cbn [filter]. destruct (Rlt_dec a r) as [Ha|Ha]; cbn [length]; fold (below l r).
  - destruct j as [|j]; cbn [nth]; [split; intros; [lia|exact Ha]|]. cbn in Hj. rewrite IH' by lia. lia.
  - rewrite (below_nil l r) by (intros b Hb; pose proof (increasing_head a l Hi b Hb); lra).
    split; [|lia]. intros H. exfalso. destruct j as [|j]; cbn [nth] in H; [lra|]. cbn in Hj.
    pose proof (increasing_head a l Hi (nth j l 0) ltac:(apply nth_In; lia)). lra.
Qed.
Lemma last_nth (l : list R) : last l 0 = nth (length l - 1) l 0.
Proof.
  induction l as [|a l IH]; [reflexivity|]. destruct l as [|b l]; [reflexivity|]. change (last (a :: b :: l) 0) with (last (b :: l) 0). rewrite IH.
  cbn [length]. replace (S (S (length l)) - 1)%nat with (S (length l)) by lia. change (nth (S (length l)) (a :: b :: l) 0) with (nth (length l) (b :: l) 0).
  now replace (S (length l) - 1)%nat with (length l) by lia.
Qed.
Lemma region_iff l r : l <> [] -> increasing l -> forall li, (li <= length l)%nat -> (@in_region R ROps l r li = true <-> li = below l r).
Proof.
  intros Hne Hi li Hli. pose proof (below_spec l r Hi) as B. pose proof (below_le l r) as Bl. assert (Hlen : (0 < length l)%nat) by (destruct l; [easy|cbn; lia]).
  unfold in_region. destruct (Nat.eqb_spec li (length l)) as [->|Hn].
  - cbn [rltb ROps rzero]. rewrite Rltb_true, last_nth, B by lia. lia.
  - destruct li as [|j].
    + cbn [rleb ROps rzero]. rewrite Rleb_true. specialize (B 0%nat Hlen). destruct (Rle_dec r (nth 0 l 0)) as [H|H]; split; intros; try lia; try lra.
      * destruct (Nat.eq_dec 0 (below l r)) as [E|E]; [exact E|]. assert (nth 0 l 0 < r) by (apply B; lia). lra.
      * destruct (Rlt_dec (nth 0 l 0) r) as [H'|H']; [apply B in H'; lia|lra].
    + cbn [rltb rleb ROps rzero]. rewrite andb_true_iff, Rltb_true, Rleb_true. rewrite (B j) by lia. pose proof (B (S j) ltac:(lia)) as B'. split.
      * intros [H1 H2]. destruct (Nat.eq_dec (S j) (below l r)) as [E|E]; [exact E|]. assert (nth (S j) l 0 < r) by (apply B'; lia). lra.
      * intros E. split; [lia|]. destruct (Rlt_dec (nth (S j) l 0) r) as [H|H]; [apply B' in H; lia|lra].
Qed.
Lemma fold_pick {A} (f : nat -> A) (p : nat -> bool) (b : nat) l : forall acc, (forall i, In i l -> (p i = true <-> i = b)) ->
  fold_left (fun acc li => if p li then f li else acc) l acc = if existsb (Nat.eqb b) l then f b else acc.
Proof.
  induction l as [|a l IH]; intros acc H; [reflexivity|]. cbn [fold_left existsb]. rewrite IH by (intros i Hi; apply H; now right).
  specialize (H a (or_introl eq_refl)). destruct (Nat.eqb_spec b a) as [->|Hn]; cbn [orb].
  - replace (p a) with true by (symmetry; now apply H). now destruct (existsb _ l).
  - destruct (p a) eqn:E; [exfalso; apply Hn; symmetry; now apply H|reflexivity].
Qed.
Section Point.
  Variables (n_max n_add : nat) (k0 : R) (eps_env : C) (core : R * C) (shells : list (R * C)) (E0 : C) (P : @point R).
  Notation rd := (@radii R core shells).
  Hypothesis Hi : increasing rd.
  Notation rg := (below rd (pt_r P)).
  Lemma radii_ne : rd <> []. Proof. discriminate. Qed.
  Lemma masked_pick (f : nat -> @vec3 R) : @masked R ROps core shells P f = f rg.
  Proof.
    unfold masked. rewrite (fold_pick f _ rg).
    - replace (existsb _ _) with true; [reflexivity|]. symmetry. apply existsb_exists. exists rg. split; [|apply Nat.eqb_refl].
      apply in_seq. pose proof (below_le rd (pt_r P)). lia.
    - intros i Hin. apply in_seq in Hin. apply region_iff; [apply radii_ne|exact Hi|lia].
  Qed.
  Lemma outside_iff : @outside R ROps core shells P = true <-> rg = length rd.
  Proof. unfold outside. rewrite region_iff; [|apply radii_ne|exact Hi|lia]. split; intros E; now symmetry. Qed.
  Lemma outside_bool : @outside R ROps core shells P = Nat.eqb rg (length rd).
  Proof. apply eq_iff_eq_true. rewrite outside_iff. symmetry. apply Nat.eqb_eq. Qed.
  Lemma scattered_region (f : nat -> nat -> @vec3 R) : @to_cartesian R ROps n_max core shells P f =
    @vsum R ROps (map (fun n => @field_to_xyz R ROps (pt_theta P) (pt_phi P) (f rg n)) (orders n_max)).
  Proof. unfold to_cartesian. f_equal. apply map_ext. intros n. now rewrite masked_pick. Qed.
End Point.

Lemma one_region l r : l <> [] -> increasing l -> exists! li, (li <= length l)%nat /\ @in_region R ROps l r li = true.
Proof.
  intros Hne Hi. exists (below l r). split.
  - split; [apply below_le|]. now apply region_iff; [| |apply below_le|].
  - intros li [Hl H]. apply (region_iff l r Hne Hi li Hl) in H. now symmetry.
Qed.
Lemma interface_inner l i : increasing l -> (i < length l)%nat -> @in_region R ROps l (nth i l 0) i = true.
Proof.
  intros Hi Hl. assert (l <> []) by (destruct l; [cbn in Hl; lia|discriminate]). apply region_iff; [assumption|exact Hi|lia|].
  pose proof (below_spec l (nth i l 0) Hi) as B. pose proof (below_le l (nth i l 0)). destruct (Nat.lt_trichotomy i (below l (nth i l 0))) as [H1|[H1|H1]]; [|exact H1|].
  - apply B in H1; [lra|exact Hl].
  - set (j := below l (nth i l 0)) in *. assert (~ nth j l 0 < nth i l 0) by (rewrite B by lia; lia).
    exfalso. apply H2. clearbody j. clear - Hi Hl H1. revert i j Hl H1. induction l as [|a l IH]; intros i j Hl H1; [cbn in Hl; lia|].
    destruct i as [|i]; [lia|]. cbn in Hl. destruct j as [|j]; cbn [nth].
    + apply (increasing_head a l Hi). apply nth_In. lia.
    + apply IH; [eapply increasing_tl; exact Hi|lia|lia].
Qed.
Open Scope C_scope.

(** ** linearity in the incident amplitude *)
Lemma vec_eq (u v : @vec3 R) : @eq C (v1 u) (v1 v) -> @eq C (v2 u) (v2 v) -> @eq C (v3 u) (v3 v) -> u = v.
Proof. destruct u as [[a b] c], v as [[d e] f]. cbn. intros E1 E2 E3. now rewrite E1, E2, E3. Qed.
Ltac veq := apply vec_eq; unfold v1, v2, v3; cbn [fst snd]; toC.
Lemma vscale_vadd (c : C) u v : @vscale R ROps c (@vadd R ROps u v) = @vadd R ROps (vscale c u) (vscale c v).
Proof. unfold vscale, vadd. veq; ring. Qed.
Lemma vscale_zero (c : C) : @vscale R ROps c vzero = vzero.
Proof. unfold vscale, vzero. veq; ring. Qed.
Lemma vscale_scale (c d : C) u : @vscale R ROps c (@vscale R ROps d u) = @vscale R ROps (c * d) u.
Proof. unfold vscale. veq; ring. Qed.
Lemma vsum_scale (c : C) l : @vsum R ROps (map (@vscale R ROps c) l) = @vscale R ROps c (@vsum R ROps l).
Proof.
  unfold vsum. assert (G : forall z, fold_left (@vadd R ROps) (map (@vscale R ROps c) l) (@vscale R ROps c z) = @vscale R ROps c (fold_left (@vadd R ROps) l z)).
  { induction l as [|a l IH]; intros z; [reflexivity|]. cbn [map fold_left]. rewrite <- vscale_vadd. apply IH. }
  rewrite <- (G vzero), vscale_zero. reflexivity.
Qed.
Lemma field_scale (c : C) th ph u : @field_to_xyz R ROps th ph (@vscale R ROps c u) = @vscale R ROps c (@field_to_xyz R ROps th ph u).
Proof. unfold field_to_xyz, vscale. veq; ring. Qed.
Lemma pw_scale n (c E0 : C) : @eq C (@pw_factor R ROps n (c * E0)) (c * @pw_factor R ROps n E0).
Proof. unfold pw_factor. toC. unfold Cdiv. ring. Qed.
Lemma E_region_scale (c E0 : C) out A V1 V3 n : @E_region R ROps (c * E0) out A V1 V3 n = @vscale R ROps c (@E_region R ROps E0 out A V1 V3 n).
Proof. unfold E_region. rewrite pw_scale. destruct out; rewrite vscale_scale; reflexivity. Qed.
Lemma H_region_scale (c E0 m : C) out A V1 V3 n : @H_region R ROps (c * E0) m out A V1 V3 n = @vscale R ROps c (@H_region R ROps E0 m out A V1 V3 n).
Proof.
  unfold H_region. rewrite pw_scale. toC. destruct out; rewrite vscale_scale; f_equal; match goal with |- ?a = ?b => change (@eq C a b) end; ring.
Qed.
Section Linear.
  Variables (n_max n_add : nat) (k0 : R) (eps_env : C) (core : R * C) (shells : list (R * C)) (c E0 : C) (P : @point R).
  Lemma masked_scale (f g : nat -> @vec3 R) : (forall li, f li = @vscale R ROps c (g li)) ->
    @masked R ROps core shells P f = @vscale R ROps c (@masked R ROps core shells P g).
  Proof.
    intros H. unfold masked. rewrite <- (vscale_zero c) at 1. generalize (@vzero R ROps). generalize (seq 0 (S (length (@radii R core shells)))).
    induction l as [|i l IH]; intros z; [reflexivity|]. cbn [fold_left]. destruct (@in_region R ROps _ _ i); [rewrite H|]; apply IH.
  Qed.
  Lemma cart_scale (f g : nat -> nat -> @vec3 R) : (forall li n, f li n = @vscale R ROps c (g li n)) ->
    @to_cartesian R ROps n_max core shells P f = @vscale R ROps c (@to_cartesian R ROps n_max core shells P g).
  Proof.
    intros H. unfold to_cartesian. rewrite <- vsum_scale, map_map. f_equal. apply map_ext. intros n.
    rewrite (masked_scale (fun li => f li n) (fun li => g li n)) by (intros; apply H). apply field_scale.
  Qed.
  Lemma E_s_scale : @E_s R ROps n_max n_add k0 eps_env core shells (c * E0) P = @vscale R ROps c (@E_s R ROps n_max n_add k0 eps_env core shells E0 P).
  Proof. apply cart_scale. intros li n. apply E_region_scale. Qed.
  Lemma H_s_scale : @H_s R ROps n_max n_add k0 eps_env core shells (c * E0) P = @vscale R ROps c (@H_s R ROps n_max n_add k0 eps_env core shells E0 P).
  Proof. apply cart_scale. intros li n. apply H_region_scale. Qed.
  Lemma E_i_scale : @E_i R ROps k0 eps_env (c * E0) P = @vscale R ROps c (@E_i R ROps k0 eps_env E0 P).
  Proof. unfold E_i, vscale. veq; try ring. Qed.
  Lemma H_i_scale : @H_i R ROps k0 eps_env (c * E0) P = @vscale R ROps c (@H_i R ROps k0 eps_env E0 P).
  Proof. unfold H_i, vscale. veq; try ring. Qed.
  Lemma E_t_scale : @E_t R ROps n_max n_add k0 eps_env core shells (c * E0) P = @vscale R ROps c (@E_t R ROps n_max n_add k0 eps_env core shells E0 P).
  Proof. unfold E_t. rewrite E_s_scale, E_i_scale. destruct outside; [now rewrite vscale_vadd|reflexivity]. Qed.
  Lemma H_t_scale : @H_t R ROps n_max n_add k0 eps_env core shells (c * E0) P = @vscale R ROps c (@H_t R ROps n_max n_add k0 eps_env core shells E0 P).
  Proof. unfold H_t. rewrite H_s_scale, H_i_scale. destruct outside; [now rewrite vscale_vadd|reflexivity]. Qed.
End Linear.

(** ** incident field *)
Open Scope R_scope.
Lemma norm3_nonneg x y z : 0 <= @norm3 R ROps x y z. Proof. apply sqrt_pos. Qed.
Lemma norm3_sq x y z : @norm3 R ROps x y z * @norm3 R ROps x y z = x * x + y * y + z * z.
Proof.
  unfold norm3. cbn [rsqrt ROps radd]. rewrite !rsqr_R. apply sqrt_sqrt. nra.
Qed.
Lemma norm3_z x y z : Rabs z <= @norm3 R ROps x y z.
Proof. apply Rabs_le_between. pose proof (norm3_nonneg x y z). pose proof (norm3_sq x y z). nra. Qed.
Lemma clamp_range lo hi q : lo <= hi -> lo <= @clamp_t R ROps lo hi q <= hi.
Proof.
  intros H. unfold clamp_t. cbn [rltb ROps]. unfold Rltb. destruct (Rlt_dec q lo); [destruct (Rlt_dec hi lo); lra|]. destruct (Rlt_dec hi q); lra.
Qed.
Lemma clamp_id lo hi q : lo <= q <= hi -> @clamp_t R ROps lo hi q = q.
Proof. intros H. unfold clamp_t. cbn [rltb ROps]. unfold Rltb. destruct (Rlt_dec q lo); [lra|]. destruct (Rlt_dec hi q); lra. Qed.
Lemma clamp_near lo hi q : lo <= hi -> -1 <= q <= 1 -> -1 <= lo -> hi <= 1 -> Rabs (@clamp_t R ROps lo hi q - q) <= Rmax (lo + 1) (1 - hi).
Proof.
  intros H Hq Hl Hh. unfold clamp_t. cbn [rltb ROps]. unfold Rltb. pose proof (Rmax_l (lo + 1) (1 - hi)). pose proof (Rmax_r (lo + 1) (1 - hi)).
  destruct (Rlt_dec q lo); [destruct (Rlt_dec hi lo); [lra|]; apply Rabs_le; lra|]. destruct (Rlt_dec hi q); apply Rabs_le; lra.
Qed.
Definition point_of (e10 x y z : R) : @point R :=
  let '(r, th, ph) := @xyz_to_sph R ROps e10 x y z in {| pt_r := r; pt_theta := th; pt_phi := ph |}.
Section Axis.
  Variables (e10 x y z : R).
  Hypothesis He : 0 < e10 < 1.
  Notation r := (@norm3 R ROps x y z).
  Lemma ctheta : cos (pt_theta (point_of e10 x y z)) = @clamp_t R ROps (- 1 + e10) (1 - e10) (z / (if Reqb r 0 then @rtenth R ROps 12 else r)).
  Proof.
    assert (H : - 1 + e10 <= 1 - e10) by lra.
    pose proof (clamp_range (-1 + e10) (1 - e10) (z / (if Reqb r 0 then @rtenth R ROps 12 else r)) H) as B.
    change (cos (acos (@clamp_t R ROps (- 1 + e10) (1 - e10) (z / (if Reqb r 0 then @rtenth R ROps 12 else r)))) = @clamp_t R ROps (- 1 + e10) (1 - e10) (z / (if Reqb r 0 then @rtenth R ROps 12 else r))).
    apply cos_acos. lra.
  Qed.
  Lemma z_zero : r = 0 -> z = 0.
  Proof. intros H. pose proof (norm3_z x y z) as Hz. rewrite H in Hz. apply Rabs_eq_0. pose proof (Rabs_pos z). lra. Qed.
  Lemma axis_exact : Rabs z <= (1 - e10) * r -> r * cos (pt_theta (point_of e10 x y z)) = z.
  Proof.
    intros H. rewrite ctheta. unfold Reqb. destruct (Req_EM_T r 0) as [E|E].
    - rewrite Rmult_comm, E. rewrite (z_zero E). ring.
    - assert (0 < r) by (pose proof (norm3_nonneg x y z) as Hp; destruct Hp; [assumption|congruence]). apply Rabs_le_between in H. rewrite clamp_id; [field; exact E|].
      split; [apply (Rmult_le_reg_r r)|apply (Rmult_le_reg_r r)]; try lra; replace (z / r * r) with z by (field; exact E); lra.
  Qed.
  Lemma axis_near : Rabs (r * cos (pt_theta (point_of e10 x y z)) - z) <= e10 * r.
  Proof.
    rewrite ctheta. unfold Reqb. destruct (Req_EM_T r 0) as [E|E].
    - rewrite E. pose proof (z_zero E) as Ez. replace (0 * _ - z) with 0 by (rewrite Ez; ring). rewrite Rabs_R0. lra.
    - assert (0 < r) by (pose proof (norm3_nonneg x y z) as Hp; destruct Hp; [assumption|congruence]). pose proof (norm3_z x y z) as Hz. apply Rabs_le_between in Hz.
      assert (Hq : -1 <= z / r <= 1) by (split; [apply (Rmult_le_reg_r r)|apply (Rmult_le_reg_r r)]; try lra; replace (z / r * r) with z by (field; exact E); lra).
      pose proof (clamp_near (-1 + e10) (1 - e10) (z / r) ltac:(lra) Hq ltac:(lra) ltac:(lra)) as B.
      replace (Rmax (-1 + e10 + 1) (1 - (1 - e10))) with e10 in B by (rewrite Rmax_left; lra).
      set (q := @clamp_t R ROps (-1 + e10) (1 - e10) (z / r)) in *. replace (r * q - z) with (r * (q - z / r)) by (field; exact E).
      rewrite Rabs_mult, (Rabs_pos_eq r) by lra. nra.
  Qed.
End Axis.
Definition plane_wave (k E0 : C) (z : R) : C := (E0 * Cexp (Ci * (k * RtoC z)))%C.
Lemma phase_eq (k0 : R) (eps_env : C) (P : @point R) :
  @eq C (@phase R ROps k0 eps_env P) (Cexp (Ci * (RtoC k0 * @csqrt R ROps eps_env * RtoC (pt_r P * cos (pt_theta P))))%C).
Proof. unfold phase, k_env. rewrite cexp_C. toC. f_equal. cbn [rcos ROps]. rewrite RtoC_mult. ring. Qed.
Lemma incident_eq (k0 : R) (eps_env E0 : C) e10 x y z : 0 < e10 < 1 -> Rabs z <= (1 - e10) * @norm3 R ROps x y z ->
  let k := (RtoC k0 * @csqrt R ROps eps_env)%C in let P := point_of e10 x y z in
  @E_i R ROps k0 eps_env E0 P = (plane_wave k E0 z, RtoC 0, RtoC 0) /\
  @H_i R ROps k0 eps_env E0 P = (RtoC 0, (@csqrt R ROps eps_env * plane_wave k E0 z)%C, RtoC 0).
Proof.
  intros He Hz k P. assert (Ep : @eq C (@phase R ROps k0 eps_env P) (Cexp (Ci * (k * RtoC z))%C)).
  { rewrite phase_eq. unfold P. change (pt_r (point_of e10 x y z)) with (@norm3 R ROps x y z). rewrite (axis_exact e10 x y z He Hz). reflexivity. }
  unfold E_i, H_i, plane_wave. rewrite Ep. split; veq; try reflexivity. ring.
Qed.
Lemma incident_near (k0 : R) (eps_env E0 : C) e10 x y z : 0 < e10 < 1 ->
  let k := (RtoC k0 * @csqrt R ROps eps_env)%C in let P := point_of e10 x y z in
  exists z', Rabs (z' - z) <= e10 * @norm3 R ROps x y z /\ @E_i R ROps k0 eps_env E0 P = (plane_wave k E0 z', RtoC 0, RtoC 0) /\
    @H_i R ROps k0 eps_env E0 P = (RtoC 0, (@csqrt R ROps eps_env * plane_wave k E0 z')%C, RtoC 0).
Proof.
  intros He k P. exists (pt_r P * cos (pt_theta P)). split; [exact (axis_near e10 x y z He)|].
  unfold E_i, H_i, plane_wave, k. rewrite phase_eq. split; veq; try reflexivity. ring.
Qed.
Lemma plane_wave_mod (k : R) E0 z : Cmod (plane_wave (RtoC k) E0 z) = Cmod E0.
Proof. unfold plane_wave. rewrite Cmod_mult, <- RtoC_mult, Cmod_i_real. ring. Qed.

(** ** packaged *)
Lemma region_fields n_max n_add k0 eps_env core shells E0 (P : @point R) : increasing (@radii R core shells) ->
  let li := below (@radii R core shells) (pt_r P) in
  let sum f := @vsum R ROps (map (fun n => @field_to_xyz R ROps (pt_theta P) (pt_phi P) (f n)) (orders n_max)) in
  @E_s R ROps n_max n_add k0 eps_env core shells E0 P = sum (@E_order R ROps n_max n_add k0 eps_env core shells E0 P li) /\
  @H_s R ROps n_max n_add k0 eps_env core shells E0 P = sum (@H_order R ROps n_max n_add k0 eps_env core shells E0 P li).
Proof. intros Hi li sum. split; [unfold E_s|unfold H_s]; apply scattered_region; exact Hi. Qed.
Lemma total_fields n_max n_add k0 eps_env core shells E0 (P : @point R) : increasing (@radii R core shells) ->
  (below (@radii R core shells) (pt_r P) = length (@radii R core shells) ->
   @E_t R ROps n_max n_add k0 eps_env core shells E0 P = @vadd R ROps (@E_s R ROps n_max n_add k0 eps_env core shells E0 P) (@E_i R ROps k0 eps_env E0 P) /\
   @H_t R ROps n_max n_add k0 eps_env core shells E0 P = @vadd R ROps (@H_s R ROps n_max n_add k0 eps_env core shells E0 P) (@H_i R ROps k0 eps_env E0 P)) /\
  ((below (@radii R core shells) (pt_r P) < length (@radii R core shells))%nat ->
   @E_t R ROps n_max n_add k0 eps_env core shells E0 P = @E_s R ROps n_max n_add k0 eps_env core shells E0 P /\
   @H_t R ROps n_max n_add k0 eps_env core shells E0 P = @H_s R ROps n_max n_add k0 eps_env core shells E0 P).
Proof.
  intros Hi. split; intros H; unfold E_t, H_t; rewrite (outside_bool core shells P Hi).
  - replace (Nat.eqb _ _) with true by (symmetry; now apply Nat.eqb_eq). split; reflexivity.
  - replace (Nat.eqb _ _) with false by (symmetry; apply Nat.eqb_neq; lia). split; reflexivity.
Qed.
Lemma near_linear n_max n_add k0 eps_env core shells (c E0 : C) (P : @point R) :
  let S v := @vscale R ROps c v in
  (@E_i R ROps k0 eps_env (c * E0)%C P = S (@E_i R ROps k0 eps_env E0 P) /\ @H_i R ROps k0 eps_env (c * E0)%C P = S (@H_i R ROps k0 eps_env E0 P)) /\
  (@E_s R ROps n_max n_add k0 eps_env core shells (c * E0)%C P = S (@E_s R ROps n_max n_add k0 eps_env core shells E0 P) /\
   @H_s R ROps n_max n_add k0 eps_env core shells (c * E0)%C P = S (@H_s R ROps n_max n_add k0 eps_env core shells E0 P)) /\
  (@E_t R ROps n_max n_add k0 eps_env core shells (c * E0)%C P = S (@E_t R ROps n_max n_add k0 eps_env core shells E0 P) /\
   @H_t R ROps n_max n_add k0 eps_env core shells (c * E0)%C P = S (@H_t R ROps n_max n_add k0 eps_env core shells E0 P)).
Proof.
  intros S. split; [split; [apply E_i_scale|apply H_i_scale]|]. split; split; [apply E_s_scale|apply H_s_scale|apply E_t_scale|apply H_t_scale].
Qed.
