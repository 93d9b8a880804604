(** Near-field amplitudes: interfaces, regular core. *)
From Coq Require Import Reals Lra Lia List Arith Bool.
From Coquelicot Require Import Coquelicot.
From Verif Require Import Ops ROps Spec StackSpec CLemmas CTrig ModelSpecial ModelMie PenaProofs QuietSpec StackProofs StackConsequences ModelNear NearSpec.
Import ListNotations.
Open Scope C_scope.

Lemma quiet_step_facts n_max n_add (m x : C) n : quiet_step n_max n_add m x n ->
  @pzeta R ROps n_max n_add (m * x) n <> RtoC 0 /\ @ppsi R ROps n_max n_add (m * x) n <> RtoC 0 /\
  @pD1 R ROps n_max n_add (m * x) n - @pD3 R ROps n_max n_add (m * x) n <> RtoC 0.
Proof.
  intros [H1 H2]. apply (Cmod_pos_neq _ _ e30_pos) in H1. apply (Cmod_pos_neq _ _ e30_pos) in H2.
  split; [intros E; apply H1; rewrite E; ring|]. split; [intros E; apply H2; rewrite E; ring|]. intros E. apply H2. rewrite E. ring.
Qed.
(* the step solves the interface equations *)
Lemma step_solves n_max n_add (tm : bool) (ml mp xl : C) (nxt : @amps R) n : ml <> RtoC 0 -> mp <> RtoC 0 -> quiet_step n_max n_add ml xl n ->
  interface_ok tm xl (rf_in n_max n_add n) ml (pair_of tm (@near_step R ROps n_max n_add ml mp xl nxt n))
    (rf_in n_max n_add n) mp (pair_of tm nxt).
Proof.
  intros Hl Hp Hq. destruct (quiet_step_facts _ _ _ _ _ Hq) as (Hz & Hs & Hu). destruct Hq as [G1 G2].
  unfold near_step. toC. cbv zeta. rewrite (guard_id _ _ G1), (guard_id _ _ G2).
  set (D1 := @pD1 R ROps n_max n_add (ml * xl) n) in *. set (D3 := @pD3 R ROps n_max n_add (ml * xl) n) in *.
  set (ps := @ppsi R ROps n_max n_add (ml * xl) n) in *. set (ze := @pzeta R ROps n_max n_add (ml * xl) n) in *.
  destruct tm; cbn [pair_of interface_ok na nb nc nd]; unfold Fld, dFld, rf_in; cbn [rf_psi rf_zeta rf_dpsi rf_dzeta fst snd];
    fold D1 D3 ps ze; split; field; repeat split; assumption.
Qed.
(* and is the only solution *)
Lemma step_unique n_max n_add (tm : bool) (ml mp xl : C) (nxt : @amps R) AB n : ml <> RtoC 0 -> mp <> RtoC 0 -> quiet_step n_max n_add ml xl n ->
  interface_ok tm xl (rf_in n_max n_add n) ml AB (rf_in n_max n_add n) mp (pair_of tm nxt) ->
  AB = pair_of tm (@near_step R ROps n_max n_add ml mp xl nxt n).
Proof.
  intros Hl Hp Hq Ha. pose proof (step_solves n_max n_add tm ml mp xl nxt n Hl Hp Hq) as Hb.
  destruct (quiet_step_facts _ _ _ _ _ Hq) as (Hz & Hs & Hu).
  assert (E : Fld (rf_in n_max n_add n) AB (ml * xl) = Fld (rf_in n_max n_add n) (pair_of tm (@near_step R ROps n_max n_add ml mp xl nxt n)) (ml * xl) /\
              dFld (rf_in n_max n_add n) AB (ml * xl) = dFld (rf_in n_max n_add n) (pair_of tm (@near_step R ROps n_max n_add ml mp xl nxt n)) (ml * xl)).
  { assert (K : forall u v : C, u / ml = v / ml -> u = v) by (intros u v E; replace u with (u / ml * ml) by (field; exact Hl); rewrite E; field; exact Hl).
    destruct tm; destruct Ha as [A1 A2]; destruct Hb as [B1 B2]; split; try apply K; congruence. }
  destruct E as [E1 E2]. clear Ha Hb. set (AB' := pair_of tm (@near_step R ROps n_max n_add ml mp xl nxt n)) in *. clearbody AB'. destruct AB as [A B], AB' as [A' B']. unfold Fld, dFld, rf_in in E1, E2. cbn [rf_psi rf_zeta rf_dpsi rf_dzeta fst snd] in E1, E2.
  set (D1 := @pD1 R ROps n_max n_add (ml * xl) n) in *. set (D3 := @pD3 R ROps n_max n_add (ml * xl) n) in *.
  set (ps := @ppsi R ROps n_max n_add (ml * xl) n) in *. set (ze := @pzeta R ROps n_max n_add (ml * xl) n) in *.
  assert (K1 : (A - A') * (ze * (D1 - D3)) = RtoC 0).
  { replace ((A - A') * (ze * (D1 - D3))) with ((B * (D1 * ps) - A * (D3 * ze) - (B' * (D1 * ps) - A' * (D3 * ze))) - D1 * (B * ps - A * ze - (B' * ps - A' * ze))) by ring.
    rewrite E1, E2. ring. }
  assert (K2 : (B - B') * (ps * (D1 - D3)) = RtoC 0).
  { replace ((B - B') * (ps * (D1 - D3))) with ((B * (D1 * ps) - A * (D3 * ze) - (B' * (D1 * ps) - A' * (D3 * ze))) - D3 * (B * ps - A * ze - (B' * ps - A' * ze))) by ring.
    rewrite E1, E2. ring. }
  f_equal; apply Csub_eq0; apply C_integral in K1; apply C_integral in K2.
  - destruct K1 as [K1|K1]; [exact K1|]. apply C_integral in K1. destruct K1; contradiction.
  - destruct K2 as [K2|K2]; [exact K2|]. apply C_integral in K2. destruct K2; contradiction.
Qed.

Lemma near_raw_length n_max n_add rest : forall l (ext : @amps R) n, length (@near_raw R ROps n_max n_add l rest ext n) = S (S (length rest)).
Proof. induction rest as [|l' rest IH]; intros l ext n; [reflexivity|]. cbn [near_raw length]. now rewrite IH. Qed.
Lemma quiet_near_tl n_max n_add l layers n : quiet_near n_max n_add (l :: layers) n -> quiet_near n_max n_add layers n.
Proof. intros H i Hi. apply (H (S i)). cbn. lia. Qed.
Lemma near_continuous n_max n_add rest : forall l (ext : @amps R) n, (forall i, (i <= length rest)%nat -> index_at (l :: rest) i <> RtoC 0) ->
  quiet_near n_max n_add (l :: rest) n -> forall i, (i <= length rest)%nat ->
  continuous_at n_max n_add (l :: rest) (@near_raw R ROps n_max n_add l rest ext n) n i.
Proof.
  induction rest as [|l' rest IH]; intros l ext n Hm Hq i Hi.
  - assert (i = 0%nat) as -> by (cbn in Hi; lia). intros tm. cbn [near_raw nth]. unfold index_at, size_at. cbn [nth fst snd].
    apply (step_solves n_max n_add tm (fst l) (RtoC 1) (snd l) ext n); [apply (Hm 0%nat); cbn; lia|apply RtoC_neq; lra|apply (Hq 0%nat); cbn; lia].
  - destruct i as [|i].
    + intros tm. cbn [near_raw nth]. unfold index_at, size_at. cbn [nth fst snd].
      pose proof (near_raw_length n_max n_add rest l' ext n) as Hlen. destruct (@near_raw R ROps n_max n_add l' rest ext n) as [|A As]; [discriminate|]. cbn [hd nth].
      apply (step_solves n_max n_add tm (fst l) (fst l') (snd l) A n); [apply (Hm 0%nat); cbn; lia|apply (Hm 1%nat); cbn; lia|apply (Hq 0%nat); cbn; lia].
    + intros tm. cbn [near_raw]. refine (IH l' ext n _ (quiet_near_tl _ _ _ _ _ Hq) i _ tm); [|cbn in Hi; lia]. intros j Hj. apply (Hm (S j)). cbn. lia.
Qed.

(** ** the inward recursion reproduces any solution *)
Lemma near_follows n_max n_add tm rest : forall l (ext : @amps R) AB ABs n, (forall i, (i <= length rest)%nat -> index_at (l :: rest) i <> RtoC 0) ->
  quiet_near n_max n_add (l :: rest) n -> length ABs = length rest ->
  interfaces_ok tm (rf_in n_max n_add n) (rf_in n_max n_add n) l AB (combine rest ABs) (pair_of tm ext) ->
  map (pair_of tm) (@near_raw R ROps n_max n_add l rest ext n) = AB :: ABs ++ [pair_of tm ext].
Proof.
  induction rest as [|l' rest IH]; intros l ext AB ABs n Hm Hq Hlen Hok; destruct ABs as [|AB' ABs]; try discriminate.
  - cbn [near_raw map app]. f_equal. symmetry. cbn [combine interfaces_ok] in Hok.
    apply (step_unique n_max n_add tm (fst l) (RtoC 1) (snd l) ext AB n); [apply (Hm 0%nat); cbn; lia|apply RtoC_neq; lra|apply (Hq 0%nat); cbn; lia|exact Hok].
  - cbn [combine interfaces_ok] in Hok. destruct Hok as [H1 H2].
    assert (E : map (pair_of tm) (@near_raw R ROps n_max n_add l' rest ext n) = AB' :: ABs ++ [pair_of tm ext]).
    { apply IH; [intros j Hj; apply (Hm (S j)); cbn; lia|eapply quiet_near_tl; exact Hq|cbn in Hlen; lia|exact H2]. }
    cbn [near_raw map]. rewrite E. cbn [app]. f_equal.
    destruct (@near_raw R ROps n_max n_add l' rest ext n) as [|A As]; [discriminate|]. cbn [hd map] in *. injection E as E0 _. symmetry.
    apply (step_unique n_max n_add tm (fst l) (fst l') (snd l) A AB n); [apply (Hm 0%nat); cbn; lia|apply (Hm 1%nat); cbn; lia|apply (Hq 0%nat); cbn; lia|].
    rewrite E0. exact H1.
Qed.

(** ** linearity of the inward recursion *)
Definition lin (c : C) (A B : @amps R) : @amps R := {| na := na A + c * na B; nb := nb A + c * nb B; nc := nc A + c * nc B; nd := nd A + c * nd B |}.
Lemma step_lin n_max n_add (ml mp xl c : C) (A B : @amps R) n :
  @near_step R ROps n_max n_add ml mp xl (lin c A B) n = lin c (@near_step R ROps n_max n_add ml mp xl A n) (@near_step R ROps n_max n_add ml mp xl B n).
Proof.
  unfold near_step, lin. toC. cbn [na nb nc nd]. f_equal;
  unfold Cdiv; ring.
Qed.
Lemma raw_lin n_max n_add (c : C) n rest : forall l (A B : @amps R),
  hd amp0 (@near_raw R ROps n_max n_add l rest (lin c A B) n) = lin c (hd amp0 (@near_raw R ROps n_max n_add l rest A n)) (hd amp0 (@near_raw R ROps n_max n_add l rest B n)).
Proof.
  induction rest as [|l' rest IH]; intros l A B; cbn [near_raw hd].
  - apply step_lin.
  - specialize (IH l' A B).
    assert (K : forall X, hd X (@near_raw R ROps n_max n_add l' rest X n) = hd amp0 (@near_raw R ROps n_max n_add l' rest X n)) by (intros X; destruct rest; reflexivity).
    rewrite !K, IH. apply step_lin.
Qed.
(* two polarisations are independent *)
Lemma step_pair n_max n_add tm (ml mp xl : C) (A B : @amps R) n : pair_of tm A = pair_of tm B ->
  pair_of tm (@near_step R ROps n_max n_add ml mp xl A n) = pair_of tm (@near_step R ROps n_max n_add ml mp xl B n).
Proof. destruct tm; cbn [pair_of]; intros E; injection E as E1 E2; unfold near_step; cbn [na nb nc nd]; rewrite E1, E2; reflexivity. Qed.
Lemma raw_pair n_max n_add tm n rest : forall l (A B : @amps R), pair_of tm A = pair_of tm B ->
  pair_of tm (hd amp0 (@near_raw R ROps n_max n_add l rest A n)) = pair_of tm (hd amp0 (@near_raw R ROps n_max n_add l rest B n)).
Proof.
  induction rest as [|l' rest IH]; intros l A B E; cbn [near_raw hd]; apply step_pair; [exact E|].
  assert (K : forall X, hd X (@near_raw R ROps n_max n_add l' rest X n) = hd amp0 (@near_raw R ROps n_max n_add l' rest X n)) by (intros X; destruct rest; reflexivity).
  rewrite !K. now apply IH.
Qed.

(** ** the irregular core amplitudes *)
Lemma quiet_layers_m n_max n_add n rest : forall l H, fst l <> RtoC 0 -> quiet_layers n_max n_add l rest H n ->
  forall i, (i <= length rest)%nat -> index_at (l :: rest) i <> RtoC 0.
Proof.
  induction rest as [|l' rest IH]; intros l H Hl Hq i Hi.
  - assert (i = 0%nat) as -> by (cbn in Hi; lia). exact Hl.
  - destruct i as [|i]; [exact Hl|]. destruct Hq as [(Hz & _) Hq]. unfold index_at. cbn [nth]. eapply (IH l'); [|exact Hq|cbn in Hi; lia]. eapply quiet_m; exact Hz.
Qed.
Lemma stack_m n_max n_add l0 rest n : quiet_stack n_max n_add l0 rest n -> forall i, (i <= length rest)%nat -> index_at (l0 :: rest) i <> RtoC 0.
Proof. intros (H0 & Hq & _). eapply quiet_layers_m; [|exact Hq]. eapply quiet_m; exact H0. Qed.
Lemma interfaces_swap tm rf rfo rfo' n_unused (rest : list ((C * C) * (C * C))) : forall l AB out out',
  let x := snd (last (map fst rest) l) in
  Fld rfo out (RtoC 1 * x) = Fld rfo' out' (RtoC 1 * x) -> dFld rfo out (RtoC 1 * x) = dFld rfo' out' (RtoC 1 * x) ->
  interfaces_ok tm rf rfo l AB rest out -> n_unused = tt -> interfaces_ok tm rf rfo' l AB rest out'.
Proof.
  induction rest as [|[l' AB'] rest IH]; intros l AB out out' x E1 E2 H Hu.
  - cbn [interfaces_ok] in *. cbn [map last] in x. subst x. destruct tm; cbn [interface_ok] in *; rewrite <- E1, <- E2; exact H.
  - cbn [interfaces_ok] in *. destruct H as [H1 H2]. split; [exact H1|]. apply (IH l' AB' out out'); auto; cbv zeta; subst x; cbn [map] in E1, E2; rewrite last_cons in E1, E2; assumption.
Qed.
Lemma combine_fst {A B} (l : list A) : forall (m : list B), length m = length l -> map fst (combine l m) = l.
Proof. induction l as [|a l IH]; intros [|b m] H; try discriminate; [reflexivity|]. cbn. f_equal. apply IH. cbn in H. lia. Qed.
Lemma quiet_last n_max n_add l0 rest n : quiet_stack n_max n_add l0 rest n -> quiet_arg n_max n_add (snd (last rest l0)) n.
Proof. intros (_ & _ & H & _). exact H. Qed.

(* the exterior amplitudes corrected by the seed defect follow the solution *)
Lemma core_defect n_max n_add tm l0 rest n : (1 <= n <= n_max + n_add)%nat -> quiet_stack n_max n_add l0 rest n ->
  (n = 1%nat -> @pD1 R ROps n_max n_add (snd (last rest l0)) 0 <> Ci) -> quiet_near n_max n_add (l0 :: rest) n ->
  let ab := @pena_ab R ROps n_max n_add l0 rest n in let x := snd (last rest l0) in
  fst (pair_of tm (hd amp0 (@near_raw R ROps n_max n_add l0 rest (@exterior R ROps (fst ab) (snd ab)) n))) =
  (if tm then fst ab else snd ab) * seed_defect n_max n_add x n *
    fst (pair_of tm (hd amp0 (@near_raw R ROps n_max n_add l0 rest (unit_slope n_max n_add x n) n))).
Proof.
  intros Hn Hq Hi Hqn ab x. destruct (stack_exists n_max n_add tm l0 rest n Hn Hq Hi) as (AB0 & ABs & Hc0 & Hlen & Hok).
  set (s := sel tm ab) in *.
  destruct (arg_facts n_max n_add x n Hn (quiet_last _ _ _ _ _ Hq)) as (_ & Hp & Hz & W).
  set (ext := @exterior R ROps (fst ab) (snd ab)). set (del := seed_defect n_max n_add x n). set (us := unit_slope n_max n_add x n).
  (* exterior data matching the rf_out field *)
  set (ext' := lin (- (s * del)) ext us).
  assert (Pe : pair_of tm ext = (s, RtoC 1)) by (destruct tm; reflexivity).
  assert (Pu : pair_of tm us = (Ci * @ppsi R ROps n_max n_add x n, Ci * @pzeta R ROps n_max n_add x n)) by (destruct tm; reflexivity).
  assert (Pe' : pair_of tm ext' = (s - s * del * (Ci * @ppsi R ROps n_max n_add x n), RtoC 1 - s * del * (Ci * @pzeta R ROps n_max n_add x n))).
  { unfold ext', lin, ext, us, exterior, unit_slope, s, sel. destruct tm; cbv zeta; cbn [pair_of na nb nc nd];
      match goal with |- (?a, ?b) = (?c, ?d) => assert (Ha : @eq C a c) by (change (cplx R) with C in *; ring); assert (Hb : @eq C b d) by (change (@cone R ROps) with (RtoC 1); ring); rewrite Ha, Hb; reflexivity end. }
  assert (W' : @pD3 R ROps n_max n_add x n * (@ppsi R ROps n_max n_add x n * @pzeta R ROps n_max n_add x n) = Ci + @pD1 R ROps n_max n_add x n * (@ppsi R ROps n_max n_add x n * @pzeta R ROps n_max n_add x n)) by (rewrite <- W; ring).
  assert (Ii : Ci * Ci = - RtoC 1) by (unfold Ci, Cmult, Copp, RtoC; cbn; f_equal; ring).
  assert (Hok' : interfaces_ok tm (rf_in n_max n_add n) (rf_in n_max n_add n) l0 AB0 (combine rest ABs) (pair_of tm ext')).
  { eapply (interfaces_swap tm _ _ _ tt); [| |exact Hok|reflexivity]; rewrite combine_fst by exact Hlen; fold x; rewrite Cmult_1_l, Pe'.
    - unfold Fld, rf_in, rf_out. cbn [rf_psi rf_zeta fst snd]. fold ab s. ring.
    - unfold dFld. unfold del, seed_defect. unfold rf_in, rf_out. cbn [rf_dpsi rf_dzeta fst snd]. fold ab s.
      destruct (consistency_all n_max n_add x n Hn (quiet_last _ _ _ _ _ Hq)) as (_ & _ & Epsi & _ & _). rewrite <- Epsi.
      set (ps := @ppsi R ROps n_max n_add x n) in *. set (ze := @pzeta R ROps n_max n_add x n) in *. set (d1 := @pD1 R ROps n_max n_add x n) in *. set (d3 := @pD3 R ROps n_max n_add x n) in *.
      set (zm := @pzeta R ROps n_max n_add x (n - 1)). set (q := RtoC (INR n) / x) in *. set (dd := zm - q * ze - d3 * ze).
      replace ((RtoC 1 - s * dd * (Ci * ze)) * (d1 * ps) - (s - s * dd * (Ci * ps)) * (d3 * ze)) with
        (d1 * ps - s * (d3 * ze) + s * dd * Ci * (d3 * (ps * ze) - d1 * (ps * ze))) by ring.
      rewrite W'. replace (Ci + d1 * (ps * ze) - d1 * (ps * ze)) with Ci by ring. replace (s * dd * Ci * Ci) with (s * dd * (Ci * Ci)) by ring. rewrite Ii. unfold dd. ring. }
  pose proof (near_follows n_max n_add tm rest l0 ext' AB0 ABs n (stack_m _ _ _ _ _ Hq) Hqn Hlen Hok') as E.
  assert (E0 : pair_of tm (hd amp0 (@near_raw R ROps n_max n_add l0 rest ext' n)) = AB0).
  { pose proof (near_raw_length n_max n_add rest l0 ext' n) as Hl. destruct (@near_raw R ROps n_max n_add l0 rest ext' n) as [|A As]; [discriminate|]. cbn [hd map] in *. now injection E. }
  unfold ext' in E0. rewrite raw_lin in E0.
  set (Ce := hd amp0 (@near_raw R ROps n_max n_add l0 rest ext n)) in *. set (Cu := hd amp0 (@near_raw R ROps n_max n_add l0 rest us n)) in *.
  apply (f_equal fst) in E0. rewrite Hc0 in E0.
  assert (K : fst (pair_of tm (lin (- (s * del)) Ce Cu)) = fst (pair_of tm Ce) + - (s * del) * fst (pair_of tm Cu)) by (destruct tm; reflexivity).
  rewrite K in E0. apply Csub_eq0. rewrite <- E0. clear. unfold s, sel. clearbody del Ce Cu. destruct tm; change (cplx R) with C in *; ring.
Qed.
Lemma defect_zero n_max n_add x n : (2 <= n <= n_max + n_add)%nat -> quiet_arg n_max n_add x n -> seed_defect n_max n_add x n = RtoC 0.
Proof.
  intros Hn Hq. destruct (consistency_all n_max n_add x n ltac:(lia) Hq) as (_ & _ & _ & _ & Ez). specialize (Ez ltac:(lia)).
  unfold seed_defect, rf_in, rf_out. cbn [rf_dzeta]. rewrite <- Ez. ring.
Qed.
Lemma defect_one n_max n_add x : (1 <= n_max + n_add)%nat -> quiet_arg n_max n_add x 1 ->
  @ppsi R ROps n_max n_add x 1 * seed_defect n_max n_add x 1 = @pzeta R ROps n_max n_add x 0 * (Ccos x - @pD1 R ROps n_max n_add x 0 * Csin x).
Proof.
  intros Hn Hq. destruct (consistency_all n_max n_add x 1 ltac:(lia) Hq) as (E0 & Z0 & Epsi & W & _). cbn [Nat.sub] in Epsi.
  destruct (arg_facts n_max n_add x 1 ltac:(lia) Hq) as (Hx & Hp & Hz & _).
  assert (P1 : @ppsi R ROps n_max n_add x 1 = @ppsi R ROps n_max n_add x 0 * (Cn 1 / x - @pD1 R ROps n_max n_add x 0)) by exact (gpsi_S eps30 (n_max + n_add) x (proj1 Hq) 0).
  assert (Z1 : @pzeta R ROps n_max n_add x 1 = @pzeta R ROps n_max n_add x 0 * (Cn 1 / x - @pD3 R ROps n_max n_add x 0)) by exact (gzeta_S eps30 (n_max + n_add) x (proj1 Hq) 0).
  change (@pD3 R ROps n_max n_add x 0) with Ci in Z1.
  unfold seed_defect, rf_in, rf_out. cbn [rf_dzeta Nat.sub].
  set (p1 := @ppsi R ROps n_max n_add x 1) in *. set (z1 := @pzeta R ROps n_max n_add x 1) in *. set (z0 := @pzeta R ROps n_max n_add x 0) in *. set (p0 := @ppsi R ROps n_max n_add x 0) in *.
  set (d11 := @pD1 R ROps n_max n_add x 1) in *. set (d31 := @pD3 R ROps n_max n_add x 1) in *. set (d10 := @pD1 R ROps n_max n_add x 0) in *.
  assert (Ii : Ci * Ci = - RtoC 1) by (unfold Ci, Cmult, Copp, RtoC; cbn; f_equal; ring).
  transitivity (p1 * z0 - z1 * (p1 * (d11 + RtoC (INR 1) / x)) - (d31 - d11) * (p1 * z1)); [ring|].
  rewrite Epsi, W, P1, Z1. set (q := Cn 1 / x).
  transitivity (p0 * z0 * (Ci - d10) - Ci); [ring|]. rewrite E0, Z0.
  transitivity (Ci * (Csin x * Csin x + Ccos x * Ccos x) - Ci - Ci * (Ccos x * Ccos x) - Ci * Ci * (Csin x * Ccos x) - d10 * (Csin x * (Csin x - Ci * Ccos x))); [ring|].
  rewrite Ii, Csin2_Ccos2. ring.
Qed.
Lemma core_regular n_max n_add l0 rest n : (2 <= n <= n_max + n_add)%nat -> quiet_stack n_max n_add l0 rest n -> quiet_near n_max n_add (l0 :: rest) n ->
  let ab := @pena_ab R ROps n_max n_add l0 rest n in
  @near_amps R ROps n_max n_add l0 rest n = @near_raw R ROps n_max n_add l0 rest (@exterior R ROps (fst ab) (snd ab)) n.
Proof.
  intros Hn Hq Hqn ab. unfold near_amps. fold ab.
  assert (Z : forall tm, fst (pair_of tm (hd amp0 (@near_raw R ROps n_max n_add l0 rest (@exterior R ROps (fst ab) (snd ab)) n))) = RtoC 0).
  { intros tm. unfold ab. rewrite (core_defect n_max n_add tm l0 rest n ltac:(lia) Hq ltac:(lia) Hqn). rewrite defect_zero; [ring|exact Hn|now apply quiet_last]. }
  pose proof (near_raw_length n_max n_add rest l0 (@exterior R ROps (fst ab) (snd ab)) n) as Hl. destruct (@near_raw R ROps n_max n_add l0 rest (@exterior R ROps (fst ab) (snd ab)) n) as [|A As]; [discriminate|].
  cbn [on_head hd] in *. f_equal. pose proof (Z true) as Z1. pose proof (Z false) as Z2. cbn in Z1, Z2. destruct A as [a b c d]. unfold zero_core. cbn in *. now rewrite Z1, Z2.
Qed.
(* the stored amplitudes: those of the inward recursion, core a_n = b_n = 0 *)
Lemma core_amps n_max n_add (l0 : C * C) (rest : list (C * C)) n :
  let ab := @pena_ab R ROps n_max n_add l0 rest n in
  let raw := @near_raw R ROps n_max n_add l0 rest (@exterior R ROps (fst ab) (snd ab)) n in
  let As := @near_amps R ROps n_max n_add l0 rest n in
  (na (nth 0 As amp0) = RtoC 0 /\ nb (nth 0 As amp0) = RtoC 0 /\ nc (nth 0 As amp0) = nc (nth 0 raw amp0) /\ nd (nth 0 As amp0) = nd (nth 0 raw amp0)) /\
  length As = length raw /\ forall i, (1 <= i)%nat -> nth i As amp0 = nth i raw amp0.
Proof.
  intros ab raw As. unfold As, near_amps. fold ab. fold raw.
  destruct raw as [|A l] eqn:E; [exfalso; pose proof (near_raw_length n_max n_add rest l0 (exterior (fst ab) (snd ab)) n) as L; fold raw in L; rewrite E in L; discriminate|].
  cbn [on_head nth zero_core na nb nc nd length]. repeat split. intros [|i] Hi; [lia|reflexivity].
Qed.
