(** Consequences of existence/uniqueness: homogeneous sphere, split layers,
    index matching, scale invariance (C12-C16). *)
From Coq Require Import Reals ZArith Lra Lia Bool List Arith.
From Coquelicot Require Import Coquelicot.
From Verif Require Import Ops ROps Spec StackSpec CLemmas CTrig ModelSpecial ModelMie PenaProofs QuietSpec StackProofs.
Import ListNotations.
Open Scope C_scope.

(** ** C12 *)
Lemma homogeneous_direct n_max n_add (m x : C) n : (1 <= n)%nat ->
  let D := @pD1 R ROps n_max n_add (m * x) n in
  let psi := @ppsi R ROps n_max n_add x in let zeta := @pzeta R ROps n_max n_add x in
  no_guard (@eps30 R ROps) x ->
  no_guard (@eps30 R ROps) ((D / m + RtoC (INR n) / x) * zeta n - zeta (n - 1)%nat) ->
  no_guard (@eps30 R ROps) ((m * D + RtoC (INR n) / x) * zeta n - zeta (n - 1)%nat) ->
  @pena_ab R ROps n_max n_add (m, x) [] n =
    (((D / m + RtoC (INR n) / x) * psi n - psi (n - 1)%nat) / ((D / m + RtoC (INR n) / x) * zeta n - zeta (n - 1)%nat),
     ((m * D + RtoC (INR n) / x) * psi n - psi (n - 1)%nat) / ((m * D + RtoC (INR n) / x) * zeta n - zeta (n - 1)%nat)).
Proof.
  intros Hn. cbv zeta. intros Hx Ha Hb. unfold pena_ab, pena_H. cbn [last pena_layers].
  unfold pena_final, pena_first. cbn [fst snd]. toC. cbv zeta.
  rewrite (guard_id _ x) by exact Hx. rewrite (guard_id _ (_ - _)) by exact Ha.
  rewrite (guard_id _ (_ - _)) by exact Hb. reflexivity.
Qed.

Lemma mie_quotient (m x p dp q n psi psi' zeta zeta' : C) : m <> 0 -> p <> 0 ->
  (dp / p / m + q) * zeta - zeta' <> 0 ->
  ((dp / p / m + q) * psi - psi') / ((dp / p / m + q) * zeta - zeta') =
  (m * p * (psi' - q * psi) - psi * dp) / (m * p * (zeta' - q * zeta) - zeta * dp).
Proof.
  intros Hm Hp Hd.
  assert (E : m * p * (zeta' - q * zeta) - zeta * dp = - (m * p) * ((dp / p / m + q) * zeta - zeta')).
  { field. auto. }
  assert (E2 : m * p * (psi' - q * psi) - psi * dp = - (m * p) * ((dp / p / m + q) * psi - psi')).
  { field. auto. }
  rewrite E, E2. set (a := (dp / p / m + q) * psi - psi'). set (b := (dp / p / m + q) * zeta - zeta') in *.
  field. repeat split; auto; intros H0;
    match type of H0 with - ?t = _ => assert (H1 : t = 0) by (replace t with (- - t) by ring; rewrite H0; ring) end;
    revert H1; try apply Cmult_neq_0; assumption.
Qed.
Lemma mie_quotient_b (m x p dp q n psi psi' zeta zeta' : C) : m <> 0 -> p <> 0 ->
  (m * (dp / p) + q) * zeta - zeta' <> 0 ->
  ((m * (dp / p) + q) * psi - psi') / ((m * (dp / p) + q) * zeta - zeta') =
  (p * (psi' - q * psi) - m * psi * dp) / (p * (zeta' - q * zeta) - m * zeta * dp).
Proof.
  intros Hm Hp Hd.
  assert (E : p * (zeta' - q * zeta) - m * zeta * dp = - p * ((m * (dp / p) + q) * zeta - zeta')).
  { field. auto. }
  assert (E2 : p * (psi' - q * psi) - m * psi * dp = - p * ((m * (dp / p) + q) * psi - psi')).
  { field. auto. }
  rewrite E, E2. set (a := (m * (dp / p) + q) * psi - psi'). set (b := (m * (dp / p) + q) * zeta - zeta') in *.
  field. repeat split; auto; intros H0;
    match type of H0 with - ?t = _ => assert (H1 : t = 0) by (replace t with (- - t) by ring; rewrite H0; ring) end;
    revert H1; try apply Cmult_neq_0; assumption.
Qed.

Lemma homogeneous_textbook n_max n_add (m x : C) n : (1 <= n <= n_max + n_add)%nat ->
  quiet_stack n_max n_add (m, x) [] n ->
  let rfi := rf_in n_max n_add n in let rfo := rf_out n_max n_add n in
  let pm := rf_psi rfi (m * x) in let dpm := rf_dpsi rfi (m * x) in
  let p := rf_psi rfo x in let dp := rf_dpsi rfo x in
  let z := rf_zeta rfo x in let dz := rf_dzeta rfo x in
  @pena_ab R ROps n_max n_add (m, x) [] n =
    ((m * pm * dp - p * dpm) / (m * pm * dz - z * dpm),
     (pm * dp - m * p * dpm) / (pm * dz - m * z * dpm)).
Proof.
  intros Hn (H0 & _ & Hx & Ha & Hb). cbn [fst snd last pena_H] in *.
  pose proof (homogeneous_direct n_max n_add m x n ltac:(lia) (proj1 Hx)) as E.
  specialize (E Ha Hb). rewrite E. clear E.
  destruct (arg_facts n_max n_add (m * x) n Hn H0) as (Hmx & Hp & _ & _).
  assert (Hm : m <> 0) by exact (Cmult_neq_l _ _ Hmx).
  unfold rf_in, rf_out. cbn [rf_psi rf_dpsi rf_zeta rf_dzeta]. cbv zeta.
  set (D := @pD1 R ROps n_max n_add (m * x) n) in *.
  set (pm := @ppsi R ROps n_max n_add (m * x) n) in *.
  assert (ED : D = D * pm / pm) by (field; exact Hp).
  pose proof (Cmod_pos_neq _ _ (e30_pos) Ha) as Na. pose proof (Cmod_pos_neq _ _ (e30_pos) Hb) as Nb.
  cbn [pena_H pena_layers pena_first fst snd] in Na, Nb.
  f_equal.
  - rewrite ED at 1 2. apply mie_quotient; auto. rewrite <- ED. exact Na.
  - rewrite ED at 1 2. apply mie_quotient_b; auto. rewrite <- ED. exact Nb.
Qed.

(** ** C13 *)
Lemma split_interfaces tm rf rfo (m x y : C) post : forall pre l AB amps out,
  length amps = length (pre ++ (m, x) :: post) ->
  interfaces_ok tm rf rfo l AB (combine (pre ++ (m, x) :: post) amps) out ->
  exists amps', length amps' = length (pre ++ (m, y) :: (m, x) :: post) /\
    interfaces_ok tm rf rfo l AB (combine (pre ++ (m, y) :: (m, x) :: post) amps') out.
Proof.
  induction pre as [|l' pre IH]; intros l AB amps out Hlen Hok.
  - destruct amps as [|A1 amps]; [discriminate|]. cbn in Hlen, Hok. destruct Hok as [H1 H2].
    exists (A1 :: A1 :: amps). split; [cbn; lia|]. cbn. split; [exact H1|]. split; [|exact H2].
    destruct tm; cbn; split; reflexivity.
  - destruct amps as [|A1 amps]; [discriminate|]. cbn in Hlen, Hok. destruct Hok as [H1 H2].
    destruct (IH l' A1 amps out ltac:(lia) H2) as (amps' & Hl & Hok').
    exists (A1 :: amps'). split; [cbn; lia|]. cbn. split; [exact H1|exact Hok'].
Qed.

Lemma eq_by_sel (u v : C * C) : (forall tm, sel tm u = sel tm v) -> u = v.
Proof. intros H. pose proof (H true) as H1. pose proof (H false) as H2. destruct u, v. cbn in *. congruence. Qed.

Lemma split_shell n_max n_add l0 pre m x y post n : (1 <= n <= n_max + n_add)%nat ->
  quiet_stack n_max n_add l0 (pre ++ (m, x) :: post) n ->
  quiet_stack n_max n_add l0 (pre ++ (m, y) :: (m, x) :: post) n ->
  (n = 1%nat -> @pD1 R ROps n_max n_add (snd (last (pre ++ (m, x) :: post) l0)) 0 <> Ci) ->
  @pena_ab R ROps n_max n_add l0 (pre ++ (m, y) :: (m, x) :: post) n =
  @pena_ab R ROps n_max n_add l0 (pre ++ (m, x) :: post) n.
Proof.
  intros Hn Hq Hq' Hi. symmetry. apply eq_by_sel. intros tm.
  destruct (stack_exists n_max n_add tm l0 _ n Hn Hq Hi) as (AB0 & amps & H1 & H2 & H3).
  destruct (split_interfaces _ _ _ m x y post pre _ _ _ _ H2 H3) as (amps' & H2' & H3').
  rewrite (stack_unique n_max n_add tm l0 _ n AB0 amps' _ _ Hn Hq' (conj H1 (conj H2' H3'))). ring.
Qed.
Lemma split_core n_max n_add m x y rest n : (1 <= n <= n_max + n_add)%nat ->
  quiet_stack n_max n_add (m, x) rest n ->
  quiet_stack n_max n_add (m, y) ((m, x) :: rest) n ->
  (n = 1%nat -> @pD1 R ROps n_max n_add (snd (last rest (m, x))) 0 <> Ci) ->
  @pena_ab R ROps n_max n_add (m, y) ((m, x) :: rest) n = @pena_ab R ROps n_max n_add (m, x) rest n.
Proof.
  intros Hn Hq Hq' Hi. symmetry. apply eq_by_sel. intros tm.
  destruct (stack_exists n_max n_add tm (m, x) _ n Hn Hq Hi) as (AB0 & amps & H1 & H2 & H3).
  rewrite (stack_unique n_max n_add tm (m, y) ((m, x) :: rest) n AB0 (AB0 :: amps)
    (sel tm (@pena_ab R ROps n_max n_add (m, x) rest n)) (RtoC 1) Hn Hq'); [ring|].
  split; [exact H1|]. split; [cbn; lia|]. cbn. split; [|exact H3]. destruct tm; cbn; split; reflexivity.
Qed.

(** ** C14 *)
Lemma matched_interfaces n_max n_add tm n : (1 <= n <= n_max + n_add)%nat -> forall rest l,
  fst l = RtoC 1 -> (forall l', In l' rest -> fst l' = RtoC 1) ->
  quiet_arg n_max n_add (snd (last rest l)) n ->
  interfaces_ok tm (rf_in n_max n_add n) (rf_out n_max n_add n) l (RtoC 0, RtoC 1)
    (combine rest (map (fun _ => (RtoC 0, RtoC 1)) rest)) (RtoC 0, RtoC 1).
Proof.
  intros Hn. induction rest as [|l' rest IH]; intros l Hl Hr Hq.
  - cbn [last] in Hq. cbn [map combine interfaces_ok]. rewrite Hl.
    assert (E : rf_dpsi (rf_in n_max n_add n) (1 * snd l) = rf_dpsi (rf_out n_max n_add n) (1 * snd l)).
    { rewrite Cmult_1_l. unfold rf_in, rf_out. cbn [rf_dpsi].
      destruct n as [|n]; [lia|]. replace (S n - 1)%nat with n by lia.
      pose proof (gpsi_rec _ (n_max + n_add) e30_pos (snd l) (proj1 Hq) n ltac:(lia)) as E.
      specialize (E (proj1 (proj2 Hq (S n) ltac:(lia)))).
      change (gpsi eps30 (n_max + n_add)) with (@ppsi R ROps n_max n_add) in E.
      change (gD1 eps30 (n_max + n_add)) with (@pD1 R ROps n_max n_add) in E.
      rewrite <- E. cring. }
    assert (EF : Fld (rf_in n_max n_add n) (RtoC 0, RtoC 1) (1 * snd l) = Fld (rf_out n_max n_add n) (RtoC 0, RtoC 1) (1 * snd l))
      by reflexivity.
    assert (EG : dFld (rf_in n_max n_add n) (RtoC 0, RtoC 1) (1 * snd l) = dFld (rf_out n_max n_add n) (RtoC 0, RtoC 1) (1 * snd l)).
    { unfold dFld. cbn [fst snd]. rewrite E. ring. }
    destruct tm; cbn [interface_ok]; rewrite EF, EG; split; reflexivity.
  - rewrite last_cons in Hq. cbn [map combine interfaces_ok]. split.
    + rewrite Hl, (Hr l' (or_introl eq_refl)). destruct tm; cbn; split; reflexivity.
    + apply IH; auto. apply Hr. now left. intros; apply Hr; now right.
Qed.
Lemma matched_zero n_max n_add l0 rest n : (1 <= n <= n_max + n_add)%nat ->
  fst l0 = RtoC 1 -> (forall l, In l rest -> fst l = RtoC 1) ->
  quiet_stack n_max n_add l0 rest n ->
  @pena_ab R ROps n_max n_add l0 rest n = (RtoC 0, RtoC 0).
Proof.
  intros Hn Hl Hr Hq. apply eq_by_sel. intros tm.
  pose proof (stack_unique n_max n_add tm l0 rest n (RtoC 0, RtoC 1) (map (fun _ => (RtoC 0, RtoC 1)) rest)
    (RtoC 0) (RtoC 1) Hn Hq) as E.
  rewrite Cmult_1_r in E. rewrite <- E; [destruct tm; reflexivity|].
  split; [reflexivity|]. split; [apply map_length|].
  apply matched_interfaces; auto. destruct Hq as (_ & _ & Hf). apply Hf.
Qed.

(** ** complex square root *)
Lemma csqrt_scale (c : R) (z : C) : (0 < c)%R ->
  @csqrt R ROps (RtoC (c * c) * z) = RtoC c * @csqrt R ROps z.
Proof.
  intros Hc. unfold csqrt. toC. rewrite Cmod_mult, Cmod_R, Rabs_pos_eq by nra.
  destruct z as [a b]. cbn [fst snd Cmult RtoC].
  cbn [rsqrt rdiv radd rsub ropp rltb rzero ROps]. unfold rsub, rtwo. cbn [radd ropp rone ROps].
  set (M := Cmod (a, b)).
  replace (c * c * b + 0 * a)%R with ((c * c) * b)%R by ring.
  replace (c * c * a - 0 * b)%R with ((c * c) * a)%R by ring.
  replace (((c * c) * M + (c * c) * a) / (1 + 1))%R with ((c * c) * ((M + a) / (1 + 1)))%R by field.
  replace (((c * c) * M + - ((c * c) * a)) / (1 + 1))%R with ((c * c) * ((M + - a) / (1 + 1)))%R by field.
  rewrite !(sqrt_mult_alt (c * c)) by nra. rewrite (sqrt_square c) by lra.
  assert (E : Rltb (c * c * b) 0 = Rltb b 0).
  { unfold Rltb. destruct (Rlt_dec b 0), (Rlt_dec (c * c * b) 0); auto; exfalso.
    - apply n. assert (0 < c * c)%R by nra. nra.
    - apply n. assert (0 < c * c)%R by nra. nra. }
  rewrite E. destruct (Rltb b 0); unfold RtoC, Cmult; cbn [fst snd]; apply C_eq; cbn [fst snd]; ring.
Qed.
Lemma csqrt_sqr (z : C) : @csqrt R ROps z * @csqrt R ROps z = z.
Proof.
  assert (H1 : (Rabs (fst z) <= Cmod z)%R) by (eapply Rle_trans; [|apply Rmax_Cmod]; apply Rmax_l).
  unfold csqrt. toC. cbn [rsqrt rdiv radd rsub ropp rltb rzero ROps]. unfold rsub, rtwo. cbn [radd ropp rone ROps].
  set (M := Cmod z) in *. assert (HM : (M * M = fst z * fst z + snd z * snd z)%R) by (unfold M; apply Cmod_sqr).
  assert (Ha : (0 <= (M + fst z) / (1 + 1))%R) by (pose proof (Rcomplements.Rabs_le_between (fst z) M); intuition lra).
  assert (Hb : (0 <= (M + - fst z) / (1 + 1))%R) by (pose proof (Rcomplements.Rabs_le_between (fst z) M); intuition lra).
  assert (Hab : (sqrt ((M + fst z) / (1 + 1)) * sqrt ((M + - fst z) / (1 + 1)) = Rabs (snd z) / 2)%R).
  { rewrite <- sqrt_mult by assumption.
    replace ((M + fst z) / (1 + 1) * ((M + - fst z) / (1 + 1)))%R with (Rsqr (snd z / 2)).
    - rewrite sqrt_Rsqr_abs. unfold Rdiv. rewrite Rabs_mult, (Rabs_pos_eq (/ 2)) by lra. reflexivity.
    - unfold Rsqr. transitivity ((M * M - fst z * fst z) / 4)%R; [rewrite HM; field|field]. }
  pose proof (sqrt_sqrt _ Ha) as Sa. pose proof (sqrt_sqrt _ Hb) as Sb.
  set (p := sqrt ((M + fst z) / (1 + 1))) in *. set (q := sqrt ((M + - fst z) / (1 + 1))) in *.
  unfold Rltb. destruct (Rlt_dec (snd z) 0) as [Hn|Hn].
  - rewrite Rabs_left in Hab by exact Hn. apply C_eq; cbn [fst snd Cmult].
    + transitivity (p * p - q * q)%R; [ring|]. rewrite Sa, Sb. field.
    + lra.
  - rewrite Rabs_right in Hab by lra. apply C_eq; cbn [fst snd Cmult].
    + rewrite Sa, Sb. field.
    + lra.
Qed.
Lemma csqrt_neq0 (z : C) : z <> 0 -> @csqrt R ROps z <> RtoC 0.
Proof. intros H E. apply H. rewrite <- (csqrt_sqr z), E. ring. Qed.

Lemma matched_mie n_max k0 eps_env core shells n : (1 <= n <= n_max)%nat -> eps_env <> RtoC 0 ->
  snd core = eps_env -> (forall s, In s shells -> snd s = eps_env) ->
  quiet_stack n_max 15 (@layer_of R ROps k0 eps_env core) (map (@layer_of R ROps k0 eps_env) shells) n ->
  @mie_pena R ROps n_max k0 eps_env core shells n = (RtoC 0, RtoC 0).
Proof.
  intros Hn He Hc Hs Hq. unfold mie_pena.
  assert (E : forall re, snd re = eps_env -> fst (@layer_of R ROps k0 eps_env re) = RtoC 1).
  { intros re Hre. unfold layer_of. cbn [fst]. toC. rewrite Hre. field. now apply csqrt_neq0. }
  apply matched_zero; [lia| | |exact Hq].
  - now apply E.
  - intros l Hl. apply in_map_iff in Hl. destruct Hl as (re & <- & Hre). apply E. now apply Hs.
Qed.

(** ** C15, C16 *)
Lemma layer_scale (s k0 : R) (eps_env : C) (re : R * C) : (0 < s)%R ->
  @layer_of R ROps (k0 / s)%R eps_env ((s * fst re)%R, snd re) = @layer_of R ROps k0 eps_env re.
Proof.
  intros Hs. unfold layer_of. cbn [fst snd]. toC. apply f_equal.
  rewrite RtoC_div, RtoC_mult by lra. field. apply RtoC_neq. lra.
Qed.
Lemma mie_scale (s : R) n_max (k0 : R) (eps_env : C) (core : R * C) (shells : list (R * C)) n : (0 < s)%R ->
  @mie_pena R ROps n_max (k0 / s)%R eps_env ((s * fst core)%R, snd core) (map (fun re => ((s * fst re)%R, snd re)) shells) n
  = @mie_pena R ROps n_max k0 eps_env core shells n.
Proof.
  intros Hs. unfold mie_pena. rewrite layer_scale by exact Hs. rewrite map_map.
  f_equal. apply map_ext. intros re. now apply layer_scale.
Qed.
Lemma layer_relative (c k0 : R) (eps_env : C) (re : R * C) : (0 < c)%R -> eps_env <> RtoC 0 ->
  @layer_of R ROps (k0 / c)%R (RtoC (c * c) * eps_env) (fst re, RtoC (c * c) * snd re) = @layer_of R ROps k0 eps_env re.
Proof.
  intros Hc He. unfold layer_of. cbn [fst snd]. rewrite !csqrt_scale by exact Hc. toC.
  assert (RtoC c <> 0) by (apply RtoC_neq; lra). pose proof (csqrt_neq0 _ He). apply f_equal2.
  - field. auto.
  - rewrite RtoC_div by lra. field. auto.
Qed.
Lemma mie_relative (c : R) n_max (k0 : R) (eps_env : C) (core : R * C) (shells : list (R * C)) n : (0 < c)%R -> eps_env <> RtoC 0 ->
  @mie_pena R ROps n_max (k0 / c)%R (RtoC (c * c) * eps_env) (fst core, RtoC (c * c) * snd core)
      (map (fun re => (fst re, RtoC (c * c) * snd re)) shells) n
  = @mie_pena R ROps n_max k0 eps_env core shells n.
Proof.
  intros Hc He. unfold mie_pena. rewrite layer_relative by assumption. rewrite map_map.
  f_equal. apply map_ext. intros re. now apply layer_relative.
Qed.

(** ** Packaged statements *)
Lemma consistency_all n_max n_add (z : C) n :
  (1 <= n <= n_max + n_add)%nat -> quiet_arg n_max n_add z n ->
  let D1 := @pD1 R ROps n_max n_add z in let D3 := @pD3 R ROps n_max n_add z in
  let psi := @ppsi R ROps n_max n_add z in let zeta := @pzeta R ROps n_max n_add z in
  psi 0%nat = Csin z /\ zeta 0%nat = Csin z - Ci * Ccos z /\
  psi n * (D1 n + RtoC (INR n) / z) = psi (n - 1)%nat /\
  (D3 n - D1 n) * (psi n * zeta n) = Ci /\
  ((2 <= n)%nat -> zeta n * (D3 n + RtoC (INR n) / z) = zeta (n - 1)%nat).
Proof.
  intros Hn Hq. cbv zeta. split; [reflexivity|]. split; [reflexivity|].
  destruct (arg_facts n_max n_add z n Hn Hq) as (_ & _ & _ & W). destruct Hq as [Hz Hq].
  destruct n as [|n]; [lia|]. replace (S n - 1)%nat with n by lia.
  split; [|split].
  - apply (gpsi_rec _ (n_max + n_add) e30_pos z Hz n ltac:(lia)). apply (proj1 (Hq (S n) ltac:(lia))).
  - exact W.
  - intros H2. destruct n as [|n]; [lia|].
    apply (gzeta_rec _ (n_max + n_add) e30_pos z Hz n ltac:(lia)).
    + apply (proj1 (Hq (S (S n)) ltac:(lia))).
    + apply (proj2 (Hq (S n) ltac:(lia))).
    + apply (proj2 (Hq (S (S n)) ltac:(lia))).
Qed.
Lemma ratio_all n_max n_add (z1 z2 x1 x2 : C) n :
  (1 <= n <= n_max + n_add)%nat ->
  quiet_arg n_max n_add z1 n -> quiet_arg n_max n_add z2 n -> quiet_ratio n_max n_add z1 z2 x2 n ->
  x1 * z2 = x2 * z1 ->
  let psi z := @ppsi R ROps n_max n_add z n in let zeta z := @pzeta R ROps n_max n_add z n in
  @pQ R ROps n_max n_add z1 z2 x1 x2 n = (psi z1 * zeta z2) / (zeta z1 * psi z2) /\
  zeta z1 * psi z2 <> RtoC 0.
Proof.
  intros Hn H1 H2 HQ Hx. cbv zeta.
  destruct (arg_facts n_max n_add z1 n Hn H1) as (_ & _ & Hs & _).
  destruct (arg_facts n_max n_add z2 n Hn H2) as (_ & Hp & _ & _).
  split; [|now apply Cmult_neq_0].
  rewrite <- (Q_fact n_max n_add z1 z2 x1 x2 n Hn H1 H2 HQ Hx). field. split; assumption.
Qed.
Lemma boundary_exists n_max n_add (tm : bool) l0 rest n :
  (1 <= n <= n_max + n_add)%nat ->
  quiet_stack n_max n_add l0 rest n ->
  (n = 1%nat -> @pD1 R ROps n_max n_add (snd (last rest l0)) 0 <> Ci) ->
  exists AB0 amps, solves tm (rf_in n_max n_add n) (rf_out n_max n_add n) l0 rest AB0 amps
    ((if tm then fst else snd) (@pena_ab R ROps n_max n_add l0 rest n)) 1.
Proof. intros Hn Hq Hi. pose proof (stack_exists n_max n_add tm l0 rest n Hn Hq Hi) as H. destruct tm; exact H. Qed.
Lemma boundary_unique n_max n_add (tm : bool) l0 rest n AB0 amps (A B : C) :
  (1 <= n <= n_max + n_add)%nat ->
  quiet_stack n_max n_add l0 rest n ->
  solves tm (rf_in n_max n_add n) (rf_out n_max n_add n) l0 rest AB0 amps A B ->
  A = (if tm then fst else snd) (@pena_ab R ROps n_max n_add l0 rest n) * B.
Proof. intros Hn Hq Hs. pose proof (stack_unique n_max n_add tm l0 rest n AB0 amps A B Hn Hq Hs) as H. destruct tm; exact H. Qed.
Lemma homogeneous_formula n_max n_add (m x : C) n :
  (1 <= n <= n_max + n_add)%nat -> quiet_stack n_max n_add (m, x) [] n ->
  let D := @pD1 R ROps n_max n_add (m * x) n in
  let psi := @ppsi R ROps n_max n_add x in let zeta := @pzeta R ROps n_max n_add x in
  let ta := D / m + RtoC (INR n) / x in let tb := m * D + RtoC (INR n) / x in
  @pena_ab R ROps n_max n_add (m, x) [] n =
    ((ta * psi n - psi (n - 1)%nat) / (ta * zeta n - zeta (n - 1)%nat),
     (tb * psi n - psi (n - 1)%nat) / (tb * zeta n - zeta (n - 1)%nat)).
Proof.
  intros Hn (H0 & _ & Hx & Ha & Hb). cbn [fst snd last pena_H] in *.
  exact (homogeneous_direct n_max n_add m x n ltac:(lia) (proj1 Hx) Ha Hb).
Qed.
Lemma zero_observables n_max (k : C) (a b : nat -> C) th :
  (forall n, (1 <= n <= n_max)%nat -> a n = RtoC 0 /\ b n = RtoC 0) ->
  @cs_ext R ROps n_max k a b = 0%R /\ @cs_sca R ROps n_max k a b = 0%R /\ @cs_abs R ROps n_max k a b = 0%R /\
  @S1 R ROps n_max a b th = RtoC 0 /\ @S2 R ROps n_max a b th = RtoC 0.
Proof.
  intros H.
  assert (Z : forall f : nat -> C, (forall n, (1 <= n <= n_max)%nat -> f n = RtoC 0) ->
            @csum R ROps (map f (@orders n_max)) = RtoC 0).
  { intros f Hf. unfold orders. rewrite csum_seq. rewrite (csum1_ext f (fun _ => RtoC 0)) by exact Hf.
    clear. induction n_max as [|N IH]; [reflexivity|]. cbn [csum1]. rewrite IH. cring. }
  assert (Hc : forall t n, (1 <= n <= n_max)%nat -> @coef R a b t n = RtoC 0).
  { intros t n Hn. destruct t; apply (H n Hn). }
  assert (E1 : forall t n, (1 <= n <= n_max)%nat -> @cs_ext_mp R ROps k a b t n = RtoC 0).
  { intros t n Hn. unfold cs_ext_mp. rewrite Hc by exact Hn. change (cre (RtoC 0)) with 0%R. cring. }
  assert (E2 : forall t n, (1 <= n <= n_max)%nat -> @cs_sca_mp R ROps k a b t n = RtoC 0).
  { intros t n Hn. unfold cs_sca_mp. rewrite Hc by exact Hn. toC. rewrite Cmod_0, rsqr_R, Rmult_0_l. cring. }
  assert (E3 : forall t n, (1 <= n <= n_max)%nat -> @cs_abs_mp R ROps k a b t n = RtoC 0).
  { intros t n Hn. unfold cs_abs_mp. rewrite E1, E2 by exact Hn. cring. }
  assert (S0 : forall f : bool -> nat -> C, (forall t n, (1 <= n <= n_max)%nat -> f t n = RtoC 0) -> @sum01 R ROps n_max f = 0%R).
  { intros f Hf. unfold sum01, types. cbn [map]. rewrite !csum_cons, !Z by (intros; now apply Hf).
    unfold cre, csum. simpl. ring. }
  split; [now apply S0|]. split; [now apply S0|]. split; [now apply S0|].
  unfold S1, S2. split; apply Z; intros n Hn; destruct (H n Hn) as [-> ->]; cring.
Qed.
