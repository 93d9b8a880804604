(** The fields returned by the code against a solution of Maxwell's equations (C90). *)
From Coq Require Import Reals ZArith Lra Lia Bool List Arith.
From Coquelicot Require Import Coquelicot.
From Verif Require Import Ops ROps Spec StackSpec CLemmas CTrig BesselSpec ConvergeSpec ModelSpecial ModelMie StackProofs StackConverge NearLegacyCall
  ModelNear NearSpec NearField MaxwellSpec NearLimitSpec NearExact PassiveSpec PassiveStack SeriesSpec SeriesNear SeriesNearCode ExampleMaxwell MaxwellLimitSpec SeriesScatter.
Import ListNotations.
Open Scope R_scope.
Arguments Cmod x%C_scope.

Section Particle.
  Variables (k0 : R) (eps_env : C) (core : R * C) (shells : list (R * C)) (E0 : C).
  Notation l0 := (@layer_of R ROps k0 eps_env core). Notation rest := (map (@layer_of R ROps k0 eps_env) shells).
  Notation rd := (@radii R core shells). Notation nenv := (@csqrt R ROps eps_env).
  Notation med i := (@n_medium R ROps eps_env core shells i).
  Hypothesis Hk : 0 < k0.
  Hypothesis Hp : passive_stack (l0 :: rest).
  Hypothesis HN : no_lossless_metal (l0 :: rest).
  Hypothesis Hinc : increasing rd.
  Lemma env_real : 0 < fst nenv /\ nenv = RtoC (fst nenv).
  Proof.
    pose proof (rad_pos k0 eps_env core shells Hk Hp 0 ltac:(unfold radii; cbn; lia)) as P. destruct (Hp 0%nat ltac:(cbn; lia)) as (_ & _ & H1 & H2 & _).
    rewrite size_of in H1, H2 by (unfold radii; cbn; lia). set (a := nth 0 rd 0) in *. destruct nenv as [n1 n2]. cbn in H1, H2. cbn [fst].
    assert (K : 0 < k0 * a) by now apply Rmult_lt_0_compat. change (fst core) with a in H1, H2. assert (Z1 : 0 < (k0 * a) * n1) by lra. assert (Z2 : (k0 * a) * n2 = 0) by lra.
    assert (n2 = 0) by (apply Rmult_integral in Z2; destruct Z2; lra). subst n2. split; [|reflexivity]. apply (Rmult_lt_reg_l (k0 * a)); lra.
  Qed.
  Lemma rl : length rd = S (length rest). Proof. exact (rd_len k0 eps_env core shells). Qed.
  Lemma size_real j : (j < length rd)%nat -> fst (size_at (l0 :: rest) j) = k0 * fst nenv * nth j rd 0.
  Proof. intros Hj. rewrite size_of by exact Hj. destruct env_real as [_ E]. rewrite E at 1. cbn. ring. Qed.
  Lemma strict_open i r : (i <= length rd)%nat -> strictly_in rd i r -> open_region (l0 :: rest) i (k0 * fst nenv * r).
  Proof.
    intros Hi (H0 & H1 & H2). destruct env_real as [N0 _]. assert (K : 0 < k0 * fst nenv) by now apply Rmult_lt_0_compat. split; [now apply Rmult_lt_0_compat|]. split.
    - destruct i as [|j]; [exact I|]. rewrite size_real by lia. now apply Rmult_lt_compat_l.
    - intros Hl. assert (Hl' : (i < length rd)%nat) by (rewrite rl; exact Hl). rewrite size_real by exact Hl'. apply Rmult_lt_compat_l; [exact K|now apply H2].
  Qed.
  Lemma med_real i : (i <= length rd)%nat -> snd (med i) = 0 -> 0 < fst (med i) /\ med i = RtoC (fst (med i)).
  Proof.
    intros Hi Hs. pose proof (med_Re eps_env core shells i) as M0. pose proof (index_of k0 eps_env core shells Hp i Hi) as E. assert (Z : med i <> RtoC 0).
    { rewrite <- E. apply Cmult_neq_0; [apply (SeriesRegion.ix_nz l0 rest Hp)|apply (env_nz k0 eps_env core shells Hp)]. }
    destruct (med i) as [a b]. cbn in *. subst b. split; [|reflexivity]. destruct M0 as [M0|M0]; [exact M0|]. exfalso. apply Z. now rewrite <- M0.
  Qed.
  Lemma shifted r : 0 <= r -> let li := below rd r in snd (med li) = 0 -> (forall a, In a rd -> @rtenth R ROps 8 < k0 * Cmod (med li) * Rabs (r - a)) ->
    let r' := r + @rtenth R ROps 8 / (k0 * fst (med li)) in strictly_in rd li r' /\ @rho_at R ROps k0 (med li) r = (RtoC k0 * med li * RtoC r')%C.
  Proof.
    intros Hr li Hs Hc r'. pose proof (below_le rd r) as Bl. fold li in Bl. destruct (med_real li Bl Hs) as [M0 EM]. pose proof e8_small as [Z0 _]. set (e := @rtenth R ROps 8) in *. set (mm := fst (med li)) in *.
    assert (KM : 0 < k0 * mm) by now apply Rmult_lt_0_compat. assert (D : 0 < e / (k0 * mm)) by now apply Rdiv_lt_0_compat. assert (EC : Cmod (med li) = mm) by (rewrite EM, Cmod_R, Rabs_pos_eq by lra; reflexivity).
    assert (GG : k0 * mm * (e / (k0 * mm)) = e) by (field; lra).
    split.
    - split; [unfold r'; lra|]. split.
      + destruct li as [|j] eqn:El; [exact I|]. assert (L : nth j rd 0 < r) by (apply (below_spec rd r Hinc j); [lia|clear -El; unfold li in El; lia]). unfold r'. lra.
      + intros Hl. assert (L : ~ nth li rd 0 < r) by (rewrite (below_spec rd r Hinc li Hl); fold li; lia). specialize (Hc (nth li rd 0) (nth_In rd 0 Hl)). rewrite EC, Rabs_left1 in Hc by lra.
        unfold r'. apply (Rmult_lt_reg_l (k0 * mm)); [exact KM|]. rewrite Rmult_plus_distr_l, GG. lra.
    - assert (ER : @rho_at R ROps k0 (med li) r = (RtoC k0 * med li * RtoC r + RtoC e)%C) by (unfold rho_at; toC; reflexivity). rewrite ER, EM. rewrite <- !RtoC_mult, <- RtoC_plus. f_equal. unfold r'. rewrite Rmult_plus_distr_l, GG. reflexivity.
  Qed.
  Theorem code_maxwell : exists E H : nat -> sph_field,
    (forall i r th ph, (i <= length rd)%nat -> strictly_in rd i r -> sin th <> 0 -> maxwell k0 (med i) (E i) (H i) r th ph) /\
    forall r, 0 <= r -> let li := below rd r in let m := med li in snd m = 0 -> (forall a, In a rd -> @rtenth R ROps 8 < k0 * Cmod m * Rabs (r - a)) ->
    let r' := r + @rtenth R ROps 8 / (k0 * fst m) in strictly_in rd li r' /\
    forall q, 0 < q < 1 -> exists K, 0 < K /\ forall n_max,
    (forall n, (1 <= n <= n_max)%nat -> regular_stack (@eps30 R ROps) l0 rest n /\ regular_near (@eps30 R ROps) (l0 :: rest) n /\ regular_arg (@eps30 R ROps) (@rho_at R ROps k0 m r) n) ->
    forall th ph eps, 0 < eps -> exists N0, forall n_add, (N0 <= n_add)%nat -> let P := {| pt_r := r; pt_theta := th; pt_phi := ph |} in let cart := @field_to_xyz R ROps th ph in
    forall c : @vec3 R -> C, c = v1 \/ c = v2 \/ c = v3 ->
      Cmod (c (@E_s R ROps n_max n_add k0 eps_env core shells E0 P) - c (cart (E li r' th ph)))%C < K * q ^ n_max + eps /\
      Cmod (c (@H_s R ROps n_max n_add k0 eps_env core shells E0 P) - c (cart (H li r' th ph)))%C < K * q ^ n_max + eps.
  Proof.
    destruct env_real as [N0 EN]. destruct (solutions_exist l0 rest Hp) as (As & HS).
    destruct (scattering_problem l0 rest As k0 (fst nenv) E0 Hp HN HS Hk N0) as (E & H & Es & Hs & L1 & L2 & M1 & M2 & _).
    pose (E' := fun i => if Nat.eqb i (length rd) then Es else E i). pose (H' := fun i => if Nat.eqb i (length rd) then Hs else H i).
    assert (MI : forall i, (i <= length rd)%nat -> (index_at (l0 :: rest) i * RtoC (fst nenv))%C = med i) by (intros i Hi; rewrite <- EN; now apply index_of).
    assert (MO : med (length rd) = RtoC (fst nenv)) by (unfold n_medium; rewrite Nat.eqb_refl; exact EN).
    assert (LL : forall i r, (i <= length rd)%nat -> strictly_in rd i r -> series_limit k0 (med i) E0 (Nat.eqb i (length rd)) (fun n => nth i (As n) amp0) (E' i) (H' i) r).
    { intros i r Hi Hr. pose proof (open_closed l0 rest i _ (strict_open i r Hi Hr)) as Hc. unfold E', H'. destruct (Nat.eqb_spec i (length rd)) as [->|Hne].
      - rewrite MO. rewrite rl in *. now apply L2.
      - rewrite <- (MI i Hi). apply L1; [exact (Nat.le_trans _ _ _ Hi (Nat.eq_le_incl _ _ rl))|exact Hc]. }
    exists E', H'. split.
    - intros i r th ph Hi Hr Hth. pose proof (strict_open i r Hi Hr) as Ho. unfold E', H'. destruct (Nat.eqb_spec i (length rd)) as [->|Hne].
      + rewrite MO. rewrite rl in Ho. now apply M2.
      + rewrite <- (MI i Hi). apply M1; [exact (Nat.le_trans _ _ _ Hi (Nat.eq_le_incl _ _ rl))|exact Ho|exact Hth].
    - intros r Hr li m Hm Hc r'. destruct (shifted r Hr Hm Hc) as [S1 S2]. fold li m r' in S1, S2. split; [exact S1|]. pose proof (below_le rd r) as Bl. fold li in Bl.
      destruct (code_fields k0 eps_env core shells Hk Hp E0 r As HN HS Hinc Hr Hc) as (Ec & Hcc & F1 & F2 & X). fold li m in F1, F2, X.
      destruct (LL li r' Bl S1) as [G1 G2]. unfold true_E, true_H in G1, G2. fold m in G1, G2. rewrite <- S2 in G1, G2.
      assert (Q1 : forall th ph, Ec th ph = E' li r' th ph) by (intros th ph; exact (tends_vec_unique _ _ _ (field_tends _ _ th ph F1) (field_tends _ _ th ph G1))).
      assert (Q2 : forall th ph, Hcc th ph = H' li r' th ph) by (intros th ph; exact (tends_vec_unique _ _ _ (field_tends _ _ th ph F2) (field_tends _ _ th ph G2))).
      intros q Hq. destruct (X q Hq) as (K & HK & Y). exists K. split; [exact HK|]. intros n_max Hreg th ph eps He. destruct (Y n_max Hreg th ph eps He) as (Na & Z). exists Na. intros n_add Hna P cart c Hcomp. specialize (Z n_add Hna c Hcomp). cbv zeta in Z. rewrite Q1, Q2 in Z. exact Z.
  Qed.
End Particle.

(* the dielectric core-shell particle *)
Lemma mx_hyps : let l0 := @layer_of R ROps 1 (RtoC 1) mx_core in let rest := map (@layer_of R ROps 1 (RtoC 1)) [mx_shell] in passive_stack (l0 :: rest) /\ no_lossless_metal (l0 :: rest).
Proof.
  cbv zeta. cbn [map]. destruct mx_layers as [-> ->]. split.
  - intros i Hi. destruct i as [|[|i]]; [| |cbn in Hi; lia]; unfold index_at, size_at; cbn; repeat split; try lra; try (intros E; injection E; lra); try (intros; exfalso; lia).
  - intros i Hi. destruct i as [|[|i]]; [| |cbn in Hi; lia]; unfold index_at; cbn; lra.
Qed.
Lemma mx_points r : r = 4/5 \/ r = 2/5 -> let rd := @radii R mx_core [mx_shell] in let m := @n_medium R ROps (RtoC 1) mx_core [mx_shell] (below rd r) in
  increasing rd /\ 0 <= r /\ snd m = 0 /\ (forall a, In a rd -> @rtenth R ROps 8 < 1 * Cmod m * Rabs (r - a)).
Proof.
  intros Hr rd m. destruct (mx_clear r Hr) as [A B]. split; [exact A|]. split; [lra|]. split; [|exact B].
  destruct (mx_regular r Hr) as (_ & Q & _). destruct mx_sqrt as (S1 & S9 & S94). unfold m, rd. rewrite Q. unfold n_medium. destruct (Rlt_dec _ _); cbn [radii map length Nat.eqb nth snd mx_shell]; rewrite ?S1, ?S94; reflexivity.
Qed.
