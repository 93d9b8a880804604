(** Splitting a shell does not change the near fields (C104). *)
From Coq Require Import Reals Lra Lia List Arith Bool.
From Coquelicot Require Import Coquelicot.
From Verif Require Import Ops ROps Spec StackSpec CLemmas CTrig ModelSpecial ModelMie PenaProofs QuietSpec StackProofs StackConsequences ModelNear NearSpec NearProofs NearField.
Import ListNotations.
Open Scope C_scope.

(* a step across a fictitious interface changes nothing *)
Lemma step_same N n_add (m y : C) (A : @amps R) n : m <> RtoC 0 -> quiet_step N n_add m y n -> @near_step R ROps N n_add m m y A n = A.
Proof.
  intros Hm Hq. destruct (quiet_step_facts _ _ _ _ _ Hq) as (Hz & Hs & Hu). destruct Hq as [G1 G2].
  unfold near_step. toC. cbv zeta. rewrite (guard_id _ _ G1), (guard_id _ _ G2).
  set (D1 := @pD1 R ROps N n_add (m * y) n) in *. set (D3 := @pD3 R ROps N n_add (m * y) n) in *.
  set (ps := @ppsi R ROps N n_add (m * y) n) in *. set (ze := @pzeta R ROps N n_add (m * y) n) in *.
  destruct A as [a b c d]. cbn [na nb nc nd]. f_equal; field; repeat split; assumption.
Qed.
(* the amplitude list gets one entry twice *)
Lemma raw_split N n_add (m x y : C) post ext n : m <> RtoC 0 -> quiet_step N n_add m y n -> forall pre l0, exists X a Y,
  @near_raw R ROps N n_add l0 (pre ++ (m, x) :: post) ext n = X ++ a :: Y /\
  @near_raw R ROps N n_add l0 (pre ++ (m, y) :: (m, x) :: post) ext n = X ++ a :: a :: Y /\ length X = S (length pre).
Proof.
  intros Hm Hq pre. induction pre as [|p pre IH]; intros l0.
  - cbn [app near_raw fst snd]. set (outs := near_raw N n_add (m, x) post ext n).
    assert (E : exists a Y, outs = a :: Y) by (unfold outs; destruct post; cbn [near_raw]; eauto). destruct E as (a & Y & ->). cbn [hd].
    rewrite (step_same N n_add m y a n Hm Hq). exists [near_step N n_add (fst l0) m (snd l0) a n], a, Y. auto.
  - destruct (IH p) as (X & a & Y & E1 & E2 & EL). cbn [app near_raw]. rewrite E1, E2.
    destruct X as [|h X]; [discriminate|]. exists (near_step N n_add (fst l0) (fst p) (snd l0) h n :: h :: X), a, Y. cbn [app hd length] in *. repeat split. now f_equal.
Qed.

Lemma split_ab N n_add (l0 : @layer R) (pre : list (@layer R)) (m x y : cplx R) (post : list (@layer R)) n : (1 <= n <= N + n_add)%nat ->
  quiet_stack N n_add l0 (pre ++ (m, x) :: post) n -> quiet_stack N n_add l0 (pre ++ (m, y) :: (m, x) :: post) n ->
  @pD1 R ROps N n_add (snd (last (pre ++ (m, x) :: post) l0)) 0 <> Ci ->
  @pena_ab R ROps N n_add l0 (pre ++ (m, y) :: (m, x) :: post) n = @pena_ab R ROps N n_add l0 (pre ++ (m, x) :: post) n.
Proof. intros Hn Q1 Q2 Hd. exact (split_shell N n_add l0 pre m x y post n Hn Q1 Q2 (fun _ => Hd)). Qed.
Lemma split_raw N n_add (m x y : cplx R) (post : list (@layer R)) ext n (pre : list (@layer R)) (l0 : @layer R) : m <> RtoC 0 -> quiet_step N n_add m y n -> exists X a Y,
  @near_raw R ROps N n_add l0 (pre ++ (m, x) :: post) ext n = X ++ a :: Y /\
  @near_raw R ROps N n_add l0 (pre ++ (m, y) :: (m, x) :: post) ext n = X ++ a :: a :: Y /\ length X = S (length pre).
Proof. intros Hm Hq. exact (raw_split N n_add m x y post ext n Hm Hq pre l0). Qed.

Section Split.
  Variables (N n_add : nat) (k0 : R) (env : C) (core : R * C) (pre : list (R * C)) (rx ry : R) (e : C) (post : list (R * C)) (E0 : C) (P : @point R).
  Notation shells := (pre ++ (rx, e) :: post).
  Notation shells' := (pre ++ (ry, e) :: (rx, e) :: post).
  Notation lay := (@layer_of R ROps k0 env).
  Hypothesis Hinc : increasing (@radii R core shells').
  Hypothesis Hq : forall n, (1 <= n <= N)%nat -> quiet_stack N n_add (lay core) (map lay shells) n /\ quiet_stack N n_add (lay core) (map lay shells') n /\
    quiet_step N n_add (fst (lay (ry, e))) (snd (lay (ry, e))) n.
  Hypothesis Hd : @pD1 R ROps N n_add (snd (last (map lay shells) (lay core))) 0 <> Ci.
  Hypothesis Hm : fst (lay (ry, e)) <> RtoC 0.

  Let j := S (length pre).
  Lemma amps_split n : (1 <= n <= N)%nat -> exists X a Y,
    @amplitudes R ROps N n_add k0 env core shells n = X ++ a :: Y /\ @amplitudes R ROps N n_add k0 env core shells' n = X ++ a :: a :: Y /\ length X = j.
  Proof.
    intros Hn. destruct (Hq n Hn) as (Q1 & Q2 & Q3). pose proof Hd as Hd'. pose proof Hm as Hm'. unfold amplitudes, near_amps. rewrite !map_app in *. cbn [map] in *.
    assert (E : exists m x y, lay (rx, e) = (m, x) /\ lay (ry, e) = (m, y)) by (exists (fst (lay (ry, e))), (snd (lay (rx, e))), (snd (lay (ry, e))); split; reflexivity).
    destruct E as (m & x & y & Ex & Ey). rewrite Ex, Ey in *. cbn [fst snd] in Q3, Hm'.
    erewrite split_ab; [|lia|exact Q1|exact Q2|exact Hd'].
    match goal with |- context [exterior (fst ?t) (snd ?t)] => set (ab := t) end.
    destruct (split_raw N n_add m x y (map lay post) (exterior (fst ab) (snd ab)) n (map lay pre) (lay core) Hm' Q3) as (X & a & Y & E1 & E2 & EL).
    destruct X as [|h X]; [discriminate|]. exists (zero_core h :: X), a, Y. rewrite map_length in EL.
    split; [exact (f_equal (on_head zero_core) E1)|]. split; [exact (f_equal (on_head zero_core) E2)|exact EL].
  Qed.
  Lemma radii_cut : @radii R core shells = map fst (core :: pre) ++ rx :: map fst post /\ @radii R core shells' = map fst (core :: pre) ++ ry :: rx :: map fst post.
  Proof. unfold radii. change (core :: ?a) with ([core] ++ a). now rewrite !map_app. Qed.
  Lemma nth_low {A} (X : list A) a Y d i : (i <= length X)%nat -> nth i (X ++ a :: a :: Y) d = nth i (X ++ a :: Y) d.
  Proof.
    intros Hi. destruct (Nat.eq_dec i (length X)) as [->|Hn]; [now rewrite !app_nth2, !Nat.sub_diag by lia|]. rewrite !app_nth1 by lia. reflexivity.
  Qed.
  Lemma nth_high {A} (X : list A) a b Y d i : (length X <= i)%nat -> nth (S i) (X ++ b :: a :: Y) d = nth i (X ++ a :: Y) d.
  Proof. intros Hi. rewrite !app_nth2 by lia. now replace (S i - length X)%nat with (S (i - length X)) by lia. Qed.
  Lemma increasing_app l1 a l2 : increasing (l1 ++ a :: l2) -> (forall b, In b l1 -> (b < a)%R) /\ (forall b, In b l2 -> (a < b)%R).
  Proof.
    induction l1 as [|c l1 IH]; intros H.
    - split; [intros b []|]. exact (increasing_head _ _ H).
    - cbn [app] in H. destruct (IH (increasing_tl _ _ H)) as [I1 I2]. split; [|exact I2]. intros b [->|Hb]; [|auto]. apply (increasing_head _ _ H). apply in_or_app. right. now left.
  Qed.
  Lemma below_app l1 l2 r : below (l1 ++ l2) r = (below l1 r + below l2 r)%nat.
  Proof. unfold below. rewrite filter_app, app_length. reflexivity. Qed.
  Lemma below_all l r : (forall b, In b l -> (b < r)%R) -> below l r = length l.
  Proof.
    unfold below. induction l as [|a l IH]; intros H; [reflexivity|]. cbn [filter]. destruct (Rlt_dec a r); [|exfalso; apply n; apply H; now left]. cbn [length]. f_equal. apply IH. intros b Hb. apply H. now right.
  Qed.
  Lemma inc_orig : increasing (@radii R core shells).
  Proof.
    destruct radii_cut as [-> E]. rewrite E in Hinc. revert Hinc. generalize (map fst (core :: pre)) as l1, (map fst post) as l2. clear.
    intros l1 l2. induction l1 as [|a [|b l1] IH]; cbn [app]; intros H.
    - now apply increasing_tl in H.
    - cbn in H |- *. destruct H as (H1 & H2 & H3). split; [lra|]. destruct l2; [exact I|]. exact H3.
    - destruct H as [H1 H2]. split; [exact H1|]. now apply IH.
  Qed.
  (* region numbers before and after *)
  Lemma regions : let b := below (@radii R core shells) (pt_r P) in let b' := below (@radii R core shells') (pt_r P) in
    (b' = b /\ b <= j)%nat \/ (b' = S b /\ j <= b)%nat.
  Proof.
    cbv zeta. destruct radii_cut as [-> E]. rewrite E in *. destruct (increasing_app _ _ _ Hinc) as [I1 I2].
    rewrite !below_app. unfold j. assert (EL : length (map fst (core :: pre)) = S (length pre)) by now rewrite map_length.
    change (ry :: rx :: map fst post) with ([ry] ++ (rx :: map fst post)). rewrite below_app.
    destruct (Rlt_dec ry (pt_r P)) as [H|H].
    - right. rewrite (below_all (map fst (core :: pre))) by (intros b Hb; specialize (I1 b Hb); lra).
      replace (below [ry] (pt_r P)) with 1%nat by (unfold below; cbn; destruct (Rlt_dec ry (pt_r P)); [reflexivity|contradiction]). lia.
    - left. rewrite (below_nil (rx :: map fst post)) by (intros b Hb; specialize (I2 b Hb); lra).
      replace (below [ry] (pt_r P)) with 0%nat by (unfold below; cbn; destruct (Rlt_dec ry (pt_r P)); [contradiction|reflexivity]).
      pose proof (below_le (map fst (core :: pre)) (pt_r P)). lia.
  Qed.
  Lemma lengths : length (@radii R core shells') = S (length (@radii R core shells)) /\ (j < length (@radii R core shells))%nat.
  Proof. destruct radii_cut as [-> ->]. rewrite !app_length. cbn [length]. rewrite !map_length. cbn [length]. unfold j. lia. Qed.
  Lemma order_split n : (1 <= n <= N)%nat ->
    let b := below (@radii R core shells) (pt_r P) in let b' := below (@radii R core shells') (pt_r P) in
    Nat.eqb b' (length (@radii R core shells')) = Nat.eqb b (length (@radii R core shells)) /\
    nth b' (@amplitudes R ROps N n_add k0 env core shells' n) amp0 = nth b (@amplitudes R ROps N n_add k0 env core shells n) amp0 /\
    @n_medium R ROps env core shells' b' = n_medium env core shells b.
  Proof.
    intros Hn b b'. destruct (amps_split n Hn) as (X & a & Y & -> & -> & EL). destruct lengths as [L1 L2].
    assert (K : Nat.eqb b' (length (@radii R core shells')) = Nat.eqb b (length (@radii R core shells))).
    { rewrite L1. destruct regions as [[E Hb]|[E Hb]]; fold b b' in E, Hb; rewrite E; [|reflexivity].
      transitivity false; [|symmetry]; apply Nat.eqb_neq; lia. }
    split; [exact K|]. split.
    - destruct regions as [[E Hb]|[E Hb]]; fold b b' in E, Hb; rewrite E; [apply nth_low|apply nth_high]; lia.
    - unfold n_medium. rewrite K. destruct (Nat.eqb b _) eqn:Eb; [reflexivity|]. f_equal.
      change (core :: shells') with ((core :: pre) ++ (ry, e) :: (rx, e) :: post). change (core :: shells) with ((core :: pre) ++ (rx, e) :: post).
      destruct regions as [[E Hb]|[E Hb]]; fold b b' in E, Hb; rewrite E.
      + destruct (Nat.eq_dec b j) as [Ej|Hj].
        * rewrite Ej. unfold j. change (S (length pre)) with (length (core :: pre)). now rewrite !app_nth2, !Nat.sub_diag by lia.
        * rewrite !app_nth1 by (cbn [length]; unfold j in *; lia). reflexivity.
      + apply f_equal. apply (nth_high (core :: pre) (rx, e) (ry, e) post core b). exact Hb.
  Qed.
  Lemma fields_split :
    @E_s R ROps N n_add k0 env core shells' E0 P = E_s N n_add k0 env core shells E0 P /\ @H_s R ROps N n_add k0 env core shells' E0 P = H_s N n_add k0 env core shells E0 P /\
    @E_t R ROps N n_add k0 env core shells' E0 P = E_t N n_add k0 env core shells E0 P /\ @H_t R ROps N n_add k0 env core shells' E0 P = H_t N n_add k0 env core shells E0 P.
  Proof.
    destruct (region_fields N n_add k0 env core shells E0 P inc_orig) as [A1 A2]. destruct (region_fields N n_add k0 env core shells' E0 P Hinc) as [B1 B2].
    assert (Es : @E_s R ROps N n_add k0 env core shells' E0 P = E_s N n_add k0 env core shells E0 P).
    { rewrite A1, B1. f_equal. apply map_ext_in. intros n Hn. apply in_seq in Hn. f_equal. destruct (order_split n ltac:(lia)) as (K1 & K2 & K3). unfold E_order. rewrite K1, K2, K3. reflexivity. }
    assert (Hs : @H_s R ROps N n_add k0 env core shells' E0 P = H_s N n_add k0 env core shells E0 P).
    { rewrite A2, B2. f_equal. apply map_ext_in. intros n Hn. apply in_seq in Hn. f_equal. destruct (order_split n ltac:(lia)) as (K1 & K2 & K3). unfold H_order. rewrite K1, K2, K3. reflexivity. }
    split; [exact Es|]. split; [exact Hs|]. unfold E_t, H_t. rewrite Es, Hs, (outside_bool core shells P inc_orig), (outside_bool core shells' P Hinc).
    replace (Nat.eqb (below (@radii R core shells') (pt_r P)) (length (@radii R core shells'))) with (Nat.eqb (below (@radii R core shells) (pt_r P)) (length (@radii R core shells))); [split; reflexivity|].
    destruct lengths as [L1 L2]. rewrite L1. destruct regions as [[E Hb]|[E Hb]]; rewrite E; [|reflexivity]. transitivity false; [|symmetry]; apply Nat.eqb_neq; lia.
  Qed.
End Split.

Lemma core_ab N n_add (m x y : cplx R) (rest : list (@layer R)) n : (1 <= n <= N + n_add)%nat ->
  quiet_stack N n_add (m, x) rest n -> quiet_stack N n_add (m, y) ((m, x) :: rest) n -> @pD1 R ROps N n_add (snd (last rest (m, x))) 0 <> Ci ->
  @pena_ab R ROps N n_add (m, y) ((m, x) :: rest) n = @pena_ab R ROps N n_add (m, x) rest n.
Proof. intros Hn Q1 Q2 Hd. exact (split_core N n_add m x y rest n Hn Q1 Q2 (fun _ => Hd)). Qed.
Lemma core_raw N n_add (m x y : cplx R) (rest : list (@layer R)) ext n : m <> RtoC 0 -> quiet_step N n_add m y n -> exists a Y,
  @near_raw R ROps N n_add (m, x) rest ext n = a :: Y /\ @near_raw R ROps N n_add (m, y) ((m, x) :: rest) ext n = a :: a :: Y.
Proof.
  intros Hm Hq. cbn [near_raw fst snd]. set (outs := near_raw N n_add (m, x) rest ext n).
  assert (E : exists a Y, outs = a :: Y) by (unfold outs; destruct rest; cbn [near_raw]; eauto). destruct E as (a & Y & ->). cbn [hd]. exists a, Y. split; [reflexivity|].
  f_equal. exact (step_same N n_add m y a n Hm Hq).
Qed.

Section Core.
  Variables (N n_add : nat) (k0 : R) (env : C) (rx ry : R) (e : C) (shells : list (R * C)) (E0 : C) (P : @point R).
  Notation lay := (@layer_of R ROps k0 env).
  Hypothesis Hinc : increasing (@radii R (ry, e) ((rx, e) :: shells)).
  Hypothesis Hq : forall n, (1 <= n <= N)%nat -> quiet_stack N n_add (lay (rx, e)) (map lay shells) n /\ quiet_stack N n_add (lay (ry, e)) (map lay ((rx, e) :: shells)) n /\
    quiet_step N n_add (fst (lay (ry, e))) (snd (lay (ry, e))) n.
  Hypothesis Hd : @pD1 R ROps N n_add (snd (last (map lay shells) (lay (rx, e)))) 0 <> Ci.
  Hypothesis Hm : fst (lay (ry, e)) <> RtoC 0.
  Hypothesis HP : (pt_r P <= ry \/ rx < pt_r P)%R.
  Lemma core_amps_split n : (1 <= n <= N)%nat -> exists a Y,
    @amplitudes R ROps N n_add k0 env (rx, e) shells n = zero_core a :: Y /\ @amplitudes R ROps N n_add k0 env (ry, e) ((rx, e) :: shells) n = zero_core a :: a :: Y.
  Proof.
    intros Hn. destruct (Hq n Hn) as (Q1 & Q2 & Q3). pose proof Hd as Hd'. pose proof Hm as Hm'. unfold amplitudes, near_amps. cbn [map] in *.
    assert (E : exists m x y, lay (rx, e) = (m, x) /\ lay (ry, e) = (m, y)) by (exists (fst (lay (ry, e))), (snd (lay (rx, e))), (snd (lay (ry, e))); split; reflexivity).
    destruct E as (m & x & y & Ex & Ey). rewrite Ex, Ey in *. cbn [fst snd] in Q3, Hm'.
    erewrite core_ab; [|lia|exact Q1|exact Q2|exact Hd'].
    match goal with |- context [exterior (fst ?t) (snd ?t)] => set (ab := t) end.
    destruct (core_raw N n_add m x y (map lay shells) (exterior (fst ab) (snd ab)) n Hm' Q3) as (a & Y & E1 & E2).
    exists a, Y. split; [exact (f_equal (on_head zero_core) E1)|exact (f_equal (on_head zero_core) E2)].
  Qed.
  Lemma core_inc : increasing (@radii R (rx, e) shells).
  Proof. exact (increasing_tl _ _ Hinc). Qed.
  Lemma core_regions : let b := below (@radii R (rx, e) shells) (pt_r P) in let b' := below (@radii R (ry, e) ((rx, e) :: shells)) (pt_r P) in
    (b' = 0 /\ b = 0)%nat \/ (b' = S b /\ 1 <= b)%nat.
  Proof.
    cbv zeta. change (@radii R (ry, e) ((rx, e) :: shells)) with ([ry] ++ [rx] ++ map fst shells). change (@radii R (rx, e) shells) with ([rx] ++ map fst shells).
    change (increasing (ry :: rx :: map fst shells)) in Hinc. pose proof (increasing_head _ _ Hinc) as I1. pose proof (increasing_head _ _ (increasing_tl _ _ Hinc)) as I2.
    assert (Hxy : (ry < rx)%R) by (apply I1; now left).
    rewrite !below_app. destruct HP as [H|H].
    - left. rewrite (below_nil [ry]), (below_nil [rx]), (below_nil (map fst shells)); [lia| | |].
      + intros b Hb. assert (ry < b)%R by (apply I1; now right). lra.
      + intros b [<-|[]]. lra.
      + intros b [<-|[]]. lra.
    - right. rewrite (below_all [ry]), (below_all [rx]); [cbn [length]; lia| |]; intros b [<-|[]]; lra.
  Qed.
  Lemma core_order n : (1 <= n <= N)%nat ->
    let b := below (@radii R (rx, e) shells) (pt_r P) in let b' := below (@radii R (ry, e) ((rx, e) :: shells)) (pt_r P) in
    Nat.eqb b' (length (@radii R (ry, e) ((rx, e) :: shells))) = Nat.eqb b (length (@radii R (rx, e) shells)) /\
    nth b' (@amplitudes R ROps N n_add k0 env (ry, e) ((rx, e) :: shells) n) amp0 = nth b (@amplitudes R ROps N n_add k0 env (rx, e) shells n) amp0 /\
    @n_medium R ROps env (ry, e) ((rx, e) :: shells) b' = n_medium env (rx, e) shells b.
  Proof.
    intros Hn b b'. destruct (core_amps_split n Hn) as (a & Y & -> & ->).
    assert (K : Nat.eqb b' (length (@radii R (ry, e) ((rx, e) :: shells))) = Nat.eqb b (length (@radii R (rx, e) shells))).
    { destruct core_regions as [[E Hb]|[E Hb]]; fold b b' in E, Hb; rewrite E; [rewrite Hb|]; reflexivity. }
    split; [exact K|]. unfold n_medium. rewrite K. destruct core_regions as [[E Hb]|[E Hb]]; fold b b' in E, Hb; rewrite E.
    - rewrite Hb. split; reflexivity.
    - assert (HL : (b <= S (length shells))%nat) by (pose proof (below_le (@radii R (rx, e) shells) (pt_r P)) as HL; fold b in HL; unfold radii in HL; cbn [map length] in HL; now rewrite map_length in HL).
      assert (EL : length (@radii R (rx, e) shells) = S (length shells)) by (unfold radii; cbn [map length]; now rewrite map_length).
      clearbody b. destruct b as [|b0]; [lia|]. split; [reflexivity|]. rewrite EL. destruct (Nat.eqb (S b0) (S (length shells))) eqn:Eb; [reflexivity|].
      apply Nat.eqb_neq in Eb. do 2 f_equal. cbn [nth]. apply nth_indep. assert (HH : (b0 < length shells)%nat) by lia. exact HH.
  Qed.
  Lemma core_fields :
    @E_s R ROps N n_add k0 env (ry, e) ((rx, e) :: shells) E0 P = E_s N n_add k0 env (rx, e) shells E0 P /\ @H_s R ROps N n_add k0 env (ry, e) ((rx, e) :: shells) E0 P = H_s N n_add k0 env (rx, e) shells E0 P /\
    @E_t R ROps N n_add k0 env (ry, e) ((rx, e) :: shells) E0 P = E_t N n_add k0 env (rx, e) shells E0 P /\ @H_t R ROps N n_add k0 env (ry, e) ((rx, e) :: shells) E0 P = H_t N n_add k0 env (rx, e) shells E0 P.
  Proof.
    destruct (region_fields N n_add k0 env (rx, e) shells E0 P core_inc) as [A1 A2]. destruct (region_fields N n_add k0 env (ry, e) ((rx, e) :: shells) E0 P Hinc) as [B1 B2].
    assert (Es : @E_s R ROps N n_add k0 env (ry, e) ((rx, e) :: shells) E0 P = E_s N n_add k0 env (rx, e) shells E0 P).
    { rewrite A1, B1. f_equal. apply map_ext_in. intros n Hn. apply in_seq in Hn. f_equal. destruct (core_order n ltac:(lia)) as (K1 & K2 & K3). unfold E_order. rewrite K1, K2, K3. reflexivity. }
    assert (Hs : @H_s R ROps N n_add k0 env (ry, e) ((rx, e) :: shells) E0 P = H_s N n_add k0 env (rx, e) shells E0 P).
    { rewrite A2, B2. f_equal. apply map_ext_in. intros n Hn. apply in_seq in Hn. f_equal. destruct (core_order n ltac:(lia)) as (K1 & K2 & K3). unfold H_order. rewrite K1, K2, K3. reflexivity. }
    split; [exact Es|]. split; [exact Hs|]. unfold E_t, H_t. rewrite Es, Hs, (outside_bool (rx, e) shells P core_inc), (outside_bool (ry, e) ((rx, e) :: shells) P Hinc).
    replace (Nat.eqb (below (@radii R (ry, e) ((rx, e) :: shells)) (pt_r P)) (length (@radii R (ry, e) ((rx, e) :: shells)))) with (Nat.eqb (below (@radii R (rx, e) shells) (pt_r P)) (length (@radii R (rx, e) shells))); [split; reflexivity|].
    destruct core_regions as [[E Hb]|[E Hb]]; rewrite E; [rewrite Hb|]; reflexivity.
  Qed.
End Core.
