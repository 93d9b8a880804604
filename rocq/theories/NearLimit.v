(** Near-field amplitudes and fields for n_add -> infinity. *)
From Coq Require Import Reals Lra Lia List Arith Bool.
From Coquelicot Require Import Coquelicot.
From Verif Require Import Ops ROps Spec StackSpec CLemmas CTrig BesselSpec ConvergeSpec ModelSpecial ModelMie PenaProofs QuietSpec StackProofs
  BesselLimits StackConverge BesselFinal ModelNear NearSpec NearProofs MaxwellSpec NearLimitSpec.
Import ListNotations.
Open Scope C_scope.
Notation e30 := (@eps30 R ROps).

Section Step.
  Variables (n_max n : nat).
  Hypothesis Hn : (1 <= n)%nat.
  Notation P := (true_psi n). Notation Z := (true_zeta n). Notation L1 := (true_L1 n). Notation L3 := (true_L3 n).
  (* one interface with the true functions *)
  Definition xstep (ml mp xl : C) (nxt : @amps R) : @amps R :=
    let z := ml * xl in let w := mp * xl in
    let T1 := na nxt * Z w - nd nxt * P w in
    let T2 := nb nxt * Z w - nc nxt * P w in
    let T3 := nd nxt * L1 w * P w - na nxt * L3 w * Z w in
    let T4 := nc nxt * L1 w * P w - nb nxt * L3 w * Z w in
    let U := L1 z - L3 z in
    {| na := (L1 z * T1 + T3 * (ml / mp)) / (Z z * U);
       nb := (L1 z * T2 * (ml / mp) + T4) / (Z z * U);
       nc := (L3 z * T2 * (ml / mp) + T4) / (P z * U);
       nd := (L3 z * T1 + T3 * (ml / mp)) / (P z * U) |}.
  Definition small (z : C) : Prop := (e30 * Cmod (P z)%C < 1)%R /\ (e30 * Cmod (Z z)%C < 1)%R.
  Lemma guards z : regular_arg e30 z n -> small z -> (e30 < Cmod (Z z * (L1 z - L3 z))%C)%R /\ (e30 < Cmod (P z * (L1 z - L3 z))%C)%R.
  Proof.
    intros Hr [H1 H2]. pose proof (W_true n z Hr) as W. pose proof (a_psi z n Hr n) as Hp. pose proof (a_zeta z n Hr n (le_n _)) as Hz.
    assert (E1 : Z z * (L1 z - L3 z) = - (Ci / P z)) by (rewrite <- W; field; exact Hp).
    assert (E2 : P z * (L1 z - L3 z) = - (Ci / Z z)) by (rewrite <- W; field; exact Hz).
    assert (Q1 : (0 < Cmod (P z)%C)%R) by now apply Cmod_gt_0. assert (Q2 : (0 < Cmod (Z z)%C)%R) by now apply Cmod_gt_0.
    rewrite E1, E2, !Cmod_opp, !Cmod_div, Cmod_Ci by assumption. split.
    - apply (Rmult_lt_reg_r (Cmod (P z)%C)); [exact Q1|]. replace (1 / Cmod (P z)%C * Cmod (P z)%C)%R with 1%R by (field; lra). exact H1.
    - apply (Rmult_lt_reg_r (Cmod (Z z)%C)); [exact Q2|]. replace (1 / Cmod (Z z)%C * Cmod (Z z)%C)%R with 1%R by (field; lra). exact H2.
  Qed.
  Lemma step_tends (ml mp xl : C) (u : nat -> @amps R) (A : @amps R) : regular_arg e30 (ml * xl) n -> regular_arg e30 (mp * xl) n -> small (ml * xl) ->
    tends_amps u A -> tends_amps (fun k => @near_step R ROps n_max k ml mp xl (u k) n) (xstep ml mp xl A).
  Proof.
    intros Hl Hp Hs (Ua & Ub & Uc & Ud). destruct (guards _ Hl Hs) as [G1 G2].
    pose proof (a_psi_t n_max _ n Hl n (le_n _)) as Pl. pose proof (a_zeta_t n_max _ n Hl n (le_n _)) as Zl.
    pose proof (a_D1 n_max _ n Hl n) as Dl. pose proof (a_D3 n_max _ n Hl n (le_n _)) as El.
    pose proof (a_psi_t n_max _ n Hp n (le_n _)) as Pp. pose proof (a_zeta_t n_max _ n Hp n (le_n _)) as Zp.
    pose proof (a_D1 n_max _ n Hp n) as Dp. pose proof (a_D3 n_max _ n Hp n (le_n _)) as Ep.
    pose proof (tends_minus _ _ _ _ Dl El) as TU.
    pose proof (tends_guard _ _ G1 (tends_mult _ _ _ _ Zl TU)) as TA. pose proof (tends_guard _ _ G2 (tends_mult _ _ _ _ Pl TU)) as TC.
    pose proof (tends_minus _ _ _ _ (tends_mult _ _ _ _ Ua Zp) (tends_mult _ _ _ _ Ud Pp)) as T1.
    pose proof (tends_minus _ _ _ _ (tends_mult _ _ _ _ Ub Zp) (tends_mult _ _ _ _ Uc Pp)) as T2.
    pose proof (tends_minus _ _ _ _ (tends_mult _ _ _ _ (tends_mult _ _ _ _ Ud Dp) Pp) (tends_mult _ _ _ _ (tends_mult _ _ _ _ Ua Ep) Zp)) as T3.
    pose proof (tends_minus _ _ _ _ (tends_mult _ _ _ _ (tends_mult _ _ _ _ Uc Dp) Pp) (tends_mult _ _ _ _ (tends_mult _ _ _ _ Ub Ep) Zp)) as T4.
    pose proof (tends_const (ml / mp)) as TR.
    apply mod_nz in G1. apply mod_nz in G2.
    split; [|split; [|split]].
    - exact (tends_div _ _ _ _ G1 (tends_plus _ _ _ _ (tends_mult _ _ _ _ Dl T1) (tends_mult _ _ _ _ T3 TR)) TA).
    - exact (tends_div _ _ _ _ G1 (tends_plus _ _ _ _ (tends_mult _ _ _ _ (tends_mult _ _ _ _ Dl T2) TR) T4) TA).
    - exact (tends_div _ _ _ _ G2 (tends_plus _ _ _ _ (tends_mult _ _ _ _ (tends_mult _ _ _ _ El T2) TR) T4) TC).
    - exact (tends_div _ _ _ _ G2 (tends_plus _ _ _ _ (tends_mult _ _ _ _ El T1) (tends_mult _ _ _ _ T3 TR)) TC).
  Qed.
  (* the exact step is the only solution of the exact interface equations *)
  Lemma xstep_unique (tm : bool) (ml mp xl : C) (nxt : @amps R) AB : ml <> RtoC 0 -> mp <> RtoC 0 -> regular_arg e30 (ml * xl) n -> regular_arg e30 (mp * xl) n ->
    interface_ok tm xl (true_rf n) ml AB (true_rf n) mp (pair_of tm nxt) -> AB = pair_of tm (xstep ml mp xl nxt).
  Proof.
    intros Hl Hp Rl Rp Ha. pose proof (W_true n _ Rl) as W. pose proof (a_psi _ n Rl n) as Hps. pose proof (a_zeta _ n Rl n (le_n _)) as Hze.
    assert (HU : L1 (ml * xl) - L3 (ml * xl) <> RtoC 0).
    { intros E. assert (Ci = RtoC 0) as X; [rewrite <- W; replace (L3 (ml * xl) - L1 (ml * xl)) with (- (L1 (ml * xl) - L3 (ml * xl))) by ring; rewrite E; ring|].
      apply (f_equal snd) in X. cbn in X. lra. }
    unfold interface_ok in Ha. rewrite !(dFld_true n Hn) in Ha by assumption. rewrite !Fld_true in Ha.
    destruct AB as [A B]. unfold xstep. cbv zeta. cbn [fst snd] in Ha.
    set (D1 := L1 (ml * xl)) in *. set (D3 := L3 (ml * xl)) in *. set (ps := P (ml * xl)) in *. set (ze := Z (ml * xl)) in *.
    set (D1' := L1 (mp * xl)) in *. set (D3' := L3 (mp * xl)) in *. set (ps' := P (mp * xl)) in *. set (ze' := Z (mp * xl)) in *.
    clearbody D1 D3 ps ze D1' D3' ps' ze'. clear Rl Rp W.
    assert (K : forall u v : C, u / ml = v -> u = v * ml) by (intros u v <-; field; exact Hl).
    assert (PE : forall a b c d : C, a = c -> b = d -> (a, b) = (c, d)) by (intros; congruence).
    destruct tm; cbn [pair_of fst snd na nb nc nd] in *; destruct Ha as [A1 A2].
    - apply K in A2.
      apply PE.
      + transitivity (((B * (D1 * ps) - A * (D3 * ze)) - D1 * (B * ps - A * ze)) / (ze * (D1 - D3))); [field; repeat split; assumption|]. rewrite A1, A2. field. repeat split; assumption.
      + transitivity (((B * (D1 * ps) - A * (D3 * ze)) - D3 * (B * ps - A * ze)) / (ps * (D1 - D3))); [field; repeat split; assumption|]. rewrite A1, A2. field. repeat split; assumption.
    - apply K in A1.
      apply PE.
      + transitivity (((B * (D1 * ps) - A * (D3 * ze)) - D1 * (B * ps - A * ze)) / (ze * (D1 - D3))); [field; repeat split; assumption|]. rewrite A1, A2. field. repeat split; assumption.
      + transitivity (((B * (D1 * ps) - A * (D3 * ze)) - D3 * (B * ps - A * ze)) / (ps * (D1 - D3))); [field; repeat split; assumption|]. rewrite A1, A2. field. repeat split; assumption.
  Qed.
  Lemma xstep_solves (tm : bool) (ml mp xl : C) (nxt : @amps R) : ml <> RtoC 0 -> mp <> RtoC 0 -> regular_arg e30 (ml * xl) n -> regular_arg e30 (mp * xl) n ->
    interface_ok tm xl (true_rf n) ml (pair_of tm (xstep ml mp xl nxt)) (true_rf n) mp (pair_of tm nxt).
  Proof.
    intros Hl Hp Rl Rp. pose proof (W_true n _ Rl) as W. pose proof (a_psi _ n Rl n) as Hps. pose proof (a_zeta _ n Rl n (le_n _)) as Hze.
    assert (HU : L1 (ml * xl) - L3 (ml * xl) <> RtoC 0).
    { intros E. assert (Ci = RtoC 0) as X; [rewrite <- W; replace (L3 (ml * xl) - L1 (ml * xl)) with (- (L1 (ml * xl) - L3 (ml * xl))) by ring; rewrite E; ring|].
      apply (f_equal snd) in X. cbn in X. lra. }
    unfold interface_ok. rewrite !(dFld_true n Hn) by assumption. rewrite !Fld_true. unfold xstep. cbv zeta.
    set (D1 := L1 (ml * xl)) in *. set (D3 := L3 (ml * xl)) in *. set (ps := P (ml * xl)) in *. set (ze := Z (ml * xl)) in *.
    clearbody D1 D3 ps ze. clear Rl W.
    destruct tm; cbn [pair_of fst snd na nb nc nd]; split; field; repeat split; assumption.
  Qed.
  (** ** all interfaces *)
  Fixpoint xraw (l : C * C) (rest : list (C * C)) (ext : @amps R) : list (@amps R) :=
    match rest with
    | [] => [xstep (fst l) (RtoC 1) (snd l) ext; ext]
    | l' :: rest' => xstep (fst l) (fst l') (snd l) (hd ext (xraw l' rest' ext)) :: xraw l' rest' ext
    end.
  Fixpoint args_ok (l : C * C) (rest : list (C * C)) : Prop :=
    regular_arg e30 (fst l * snd l) n /\ small (fst l * snd l) /\
    match rest with
    | [] => regular_arg e30 (RtoC 1 * snd l) n
    | l' :: rest' => regular_arg e30 (fst l' * snd l) n /\ args_ok l' rest'
    end.
  Lemma one_nz : RtoC 1 <> RtoC 0. Proof. apply RtoC_neq. lra. Qed.
  Lemma arg_m (m x : C) : regular_arg e30 (m * x) n -> m <> RtoC 0.
  Proof. intros H E. apply (a_nz _ _ H). rewrite E. ring. Qed.
  Lemma args_head l rest : args_ok l rest -> regular_arg e30 (fst l * snd l) n.
  Proof. destruct rest; now intros [H _]. Qed.
  Lemma xraw_length rest : forall l ext, length (xraw l rest ext) = Datatypes.S (Datatypes.S (length rest)).
  Proof. induction rest as [|l' rest IH]; intros l ext; [reflexivity|]. cbn [xraw length]. now rewrite IH. Qed.
  Lemma hd_nth {T} (d : T) l : l <> [] -> forall d', hd d l = nth 0 l d'. Proof. destruct l; [easy|reflexivity]. Qed.
  Lemma xraw_ne l rest ext : xraw l rest ext <> []. Proof. destruct rest; discriminate. Qed.
  Lemma raw_tends rest : forall l (u : nat -> @amps R) ext, args_ok l rest -> tends_amps u ext -> forall i,
    tends_amps (fun k => nth i (@near_raw R ROps n_max k l rest (u k) n) amp0) (nth i (xraw l rest ext) amp0).
  Proof.
    assert (T0 : tends_amps (fun _ => amp0) amp0) by (repeat split; apply tends_const).
    induction rest as [|l' rest IH]; intros l u ext Ha Hu i.
    - destruct Ha as (H1 & H2 & H3). cbn [near_raw xraw]. destruct i as [|[|i]]; cbn [nth].
      + exact (step_tends (fst l) (RtoC 1) (snd l) u ext H1 H3 H2 Hu).
      + exact Hu.
      + destruct i; exact T0.
    - destruct Ha as (H1 & H2 & H3 & H4). cbn [near_raw xraw]. destruct i as [|i]; cbn [nth]; [|now apply IH].
      assert (T1 : tends_amps (fun k => hd (u k) (@near_raw R ROps n_max k l' rest (u k) n)) (hd ext (xraw l' rest ext))).
      { rewrite (hd_nth _ _ (xraw_ne l' rest ext) amp0).
        assert (E : forall k, hd (u k) (@near_raw R ROps n_max k l' rest (u k) n) = nth 0 (@near_raw R ROps n_max k l' rest (u k) n) amp0) by (intros k; destruct rest; reflexivity).
        destruct (IH l' u ext H4 Hu 0%nat) as (A1 & A2 & A3 & A4).
        split; [|split; [|split]]; (eapply tends_ev; [exists 0%nat; intros k _; rewrite E; reflexivity|]); assumption. }
      exact (step_tends (fst l) (fst l') (snd l) _ _ H1 H3 H2 T1).
  Qed.
  Lemma args_index rest : forall l, args_ok l rest -> forall i, (i <= Datatypes.S (length rest))%nat -> index_at (l :: rest) i <> RtoC 0.
  Proof.
    induction rest as [|l' rest IH]; intros l Ha i Hi.
    - destruct i as [|i]; [exact (arg_m _ _ (args_head _ _ Ha))|]. unfold index_at. rewrite nth_overflow by (cbn; lia). apply one_nz.
    - destruct i as [|i]; [exact (arg_m _ _ (args_head _ _ Ha))|]. unfold index_at. cbn [nth]. apply (IH l'); [apply Ha|cbn in Hi; lia].
  Qed.
  Lemma xraw_solves rest : forall l ext, args_ok l rest -> forall tm i, (i <= length rest)%nat ->
    interface_ok tm (size_at (l :: rest) i) (true_rf n) (index_at (l :: rest) i) (pair_of tm (nth i (xraw l rest ext) amp0))
      (true_rf n) (index_at (l :: rest) (Datatypes.S i)) (pair_of tm (nth (Datatypes.S i) (xraw l rest ext) amp0)).
  Proof.
    induction rest as [|l' rest IH]; intros l ext Ha tm i Hi.
    - assert (i = 0%nat) as -> by (cbn in Hi; lia). destruct Ha as (H1 & H2 & H3). cbn [xraw nth]. unfold index_at, size_at. cbn [nth fst snd].
      apply xstep_solves; [exact (arg_m _ _ H1)|exact one_nz|exact H1|exact H3].
    - destruct Ha as (H1 & H2 & H3 & H4). destruct i as [|i].
      + cbn [xraw]. change (nth 1 (?a :: ?b) amp0) with (nth 0 b amp0). cbn [nth]. rewrite <- (hd_nth ext _ (xraw_ne l' rest ext) amp0).
        unfold index_at, size_at. cbn [nth fst snd]. apply xstep_solves; [exact (arg_m _ _ H1)|exact (arg_m _ _ H3)|exact H1|exact H3].
      + exact (IH l' ext H4 tm i ltac:(cbn in Hi; lia)).
  Qed.
  (* any list of amplitudes satisfying the interface equations is the inward recursion of its last entry *)
  Lemma amps_eq (A B : @amps R) : (forall tm, pair_of tm A = pair_of tm B) -> A = B.
  Proof. intros H. pose proof (H true) as H1. pose proof (H false) as H2. destruct A, B. cbn in H1, H2. congruence. Qed.
  Lemma xraw_unique rest : forall l As, args_ok l rest -> length As = Datatypes.S (Datatypes.S (length rest)) ->
    (forall tm i, (i <= length rest)%nat -> interface_ok tm (size_at (l :: rest) i) (true_rf n) (index_at (l :: rest) i) (pair_of tm (nth i As amp0))
      (true_rf n) (index_at (l :: rest) (Datatypes.S i)) (pair_of tm (nth (Datatypes.S i) As amp0))) ->
    As = xraw l rest (nth (Datatypes.S (length rest)) As amp0).
  Proof.
    induction rest as [|l' rest IH]; intros l As Ha Hlen Hok.
    - destruct As as [|A [|B [|? ?]]]; try discriminate. cbn [xraw length nth]. f_equal. apply amps_eq. intros tm.
      destruct Ha as (H1 & H2 & H3). apply xstep_unique; [exact (arg_m _ _ H1)|exact one_nz|exact H1|exact H3|]. exact (Hok tm 0%nat (le_n _)).
    - destruct As as [|A As]; [discriminate|]. destruct Ha as (H1 & H2 & H3 & H4).
      assert (E : As = xraw l' rest (nth (Datatypes.S (length rest)) As amp0)).
      { apply (IH l' As H4); [cbn in Hlen; lia|]. intros tm i Hi. exact (Hok tm (Datatypes.S i) ltac:(cbn; lia)). }
      cbn [xraw length nth]. rewrite <- E. f_equal. apply amps_eq. intros tm.
      apply xstep_unique; [exact (arg_m _ _ H1)|exact (arg_m _ _ H3)|exact H1|exact H3|].
      rewrite (hd_nth _ As ltac:(rewrite E; apply xraw_ne) amp0). exact (Hok tm 0%nat ltac:(lia)).
  Qed.
  Lemma args_of rest : forall l H, regular_arg e30 (fst l * snd l) n -> regular_layers e30 l rest H n ->
    regular_final e30 (last rest l) (exact_layers l rest H n) n -> regular_near e30 (l :: rest) n -> args_ok l rest.
  Proof.
    induction rest as [|l' rest IH]; intros l H Hl Hq Hf Hn'.
    - split; [exact Hl|]. split; [exact (Hn' 0%nat ltac:(cbn; lia))|]. replace (RtoC 1 * snd l) with (snd l) by ring. apply Hf.
    - destruct Hq as [(Q1 & Q2 & Q3) Hq]. split; [exact Hl|]. split; [exact (Hn' 0%nat ltac:(cbn; lia))|]. split; [exact Q1|].
      apply (IH l' (exact_layer l l' H n) Q2 Hq).
      + assert (EL : last (l' :: rest) l = last rest l').
        { clear. revert l l'. induction rest as [|a rest IH]; intros l l'; [reflexivity|]. change (last (l' :: a :: rest) l) with (last (a :: rest) l). rewrite IH. symmetry. apply IH. }
        rewrite EL in Hf. exact Hf.
      + intros i Hi. assert (Hi' : (Datatypes.S i < length (l :: l' :: rest))%nat) by (cbn [length] in *; lia). exact (Hn' (Datatypes.S i) Hi').
  Qed.
End Step.

(* interface equations in list form *)
Lemma interfaces_of tm n rest : forall l As, length As = S (S (length rest)) ->
  (forall i, (i <= length rest)%nat -> interface_ok tm (size_at (l :: rest) i) (true_rf n) (index_at (l :: rest) i) (pair_of tm (nth i As amp0))
    (true_rf n) (index_at (l :: rest) (S i)) (pair_of tm (nth (S i) As amp0))) ->
  exists ABs, length ABs = length rest /\ interfaces_ok tm (true_rf n) (true_rf n) l (pair_of tm (nth 0 As amp0)) (combine rest ABs) (pair_of tm (nth (S (length rest)) As amp0)).
Proof.
  induction rest as [|l' rest IH]; intros l As Hlen Hok.
  - exists []. split; [reflexivity|]. exact (Hok 0%nat (le_n _)).
  - destruct As as [|A As]; [discriminate|]. destruct (IH l' As) as (ABs & H1 & H2); [cbn in Hlen; lia|intros i Hi; exact (Hok (S i) ltac:(cbn; lia))|].
    exists (pair_of tm (nth 0 As amp0) :: ABs). split; [cbn; now rewrite H1|]. cbn [combine interfaces_ok length nth]. split; [exact (Hok 0%nat ltac:(lia))|exact H2].
Qed.
Lemma xraw_last n rest ext : forall l0, nth (S (length rest)) (xraw n l0 rest ext) amp0 = ext.
Proof. induction rest as [|l' rest IH]; intros l0; [reflexivity|]. cbn [xraw length nth]. apply IH. Qed.
Lemma xraw_follows n (Hn : (1 <= n)%nat) tm ext rest : forall l0 AB0 amps, args_ok n l0 rest -> length amps = length rest ->
  interfaces_ok tm (true_rf n) (true_rf n) l0 AB0 (combine rest amps) (pair_of tm ext) ->
  map (pair_of tm) (xraw n l0 rest ext) = AB0 :: amps ++ [pair_of tm ext].
Proof.
  induction rest as [|l' rest IH]; intros l0 AB0 amps Ha S2 S3; destruct amps as [|AB' amps]; try discriminate.
  - destruct Ha as (H1 & H2 & H3). cbn [xraw map app]. f_equal. symmetry. apply xstep_unique; [exact Hn|exact (arg_m _ _ _ H1)|exact one_nz|exact H1|exact H3|exact S3].
  - destruct Ha as (H1 & H2 & H3 & H4). cbn [combine interfaces_ok] in S3. destruct S3 as [S3 S4].
    pose proof (IH l' AB' amps H4 ltac:(cbn in S2; lia) S4) as E. cbn [xraw map]. rewrite E. cbn [app]. f_equal. symmetry.
    apply xstep_unique; [exact Hn|exact (arg_m _ _ _ H1)|exact (arg_m _ _ _ H3)|exact H1|exact H3|].
    destruct (xraw n l' rest ext) as [|X Xs] eqn:EX; [now apply xraw_ne in EX|]. cbn [hd]. cbn [map] in E. injection E as E0 _. rewrite E0. exact S3.
Qed.
Theorem near_limit n_max n l0 rest : (1 <= n)%nat -> regular_stack e30 l0 rest n -> regular_near e30 (l0 :: rest) n ->
  exists As, near_solution n l0 rest As /\ (forall As', near_solution n l0 rest As' -> As' = As) /\
    forall i, tends_amps (fun n_add => nth i (@near_amps R ROps n_max n_add l0 rest n) amp0) (nth i As amp0).
Proof.
  intros Hn Hs Hnr. pose proof Hs as (Hq0 & Hq & Hf).
  assert (Ha : args_ok n l0 rest) by exact (args_of n Hn rest l0 (exact_first l0 n) Hq0 Hq Hf Hnr).
  set (ab := exact_ab n l0 rest). set (ext := @exterior R ROps (fst ab) (snd ab)).
  assert (Hlast : nth (S (length rest)) (xraw n l0 rest ext) amp0 = ext).
  { apply xraw_last. }
  (* the core amplitudes of the exact solution *)
  assert (Hcore : forall tm, fst (pair_of tm (nth 0 (xraw n l0 rest ext) amp0)) = RtoC 0).
  { intros tm. destruct (exact_exists n Hn tm l0 rest Hs) as (AB0 & amps & S1 & S2 & S3).
    assert (E : map (pair_of tm) (xraw n l0 rest ext) = AB0 :: amps ++ [pair_of tm ext]).
    { assert (Ep : pair_of tm ext = (sel tm ab, RtoC 1)) by (destruct tm; reflexivity). apply (xraw_follows n Hn tm ext rest l0 AB0 amps Ha S2). rewrite Ep. exact S3. }
    destruct (xraw n l0 rest ext) as [|X Xs] eqn:EX; [now apply xraw_ne in EX|]. cbn [map] in E. injection E as E0 _. cbn [nth]. rewrite E0. exact S1. }
  assert (Hsol : near_solution n l0 rest (xraw n l0 rest ext)).
  { split; [apply xraw_length|]. split; [split; [exact (Hcore true)|exact (Hcore false)]|]. split; [rewrite Hlast; split; reflexivity|].
    intros tm i Hi. now apply xraw_solves. }
  exists (xraw n l0 rest ext). split; [exact Hsol|]. split.
  - intros As' (K1 & (K2 & K2') & (K3 & K3') & K4). rewrite (xraw_unique n Hn rest l0 As' Ha K1 K4). f_equal.
    assert (G : forall tm, fst (pair_of tm (nth (S (length rest)) As' amp0)) = sel tm ab).
    { intros tm. destruct (interfaces_of tm n rest l0 As' K1 (K4 tm)) as (ABs & G1 & G2).
      assert (Sv : solves tm (true_rf n) (true_rf n) l0 rest (pair_of tm (nth 0 As' amp0)) ABs (fst (pair_of tm (nth (S (length rest)) As' amp0))) (RtoC 1)).
      { split; [destruct tm; assumption|]. split; [exact G1|]. destruct (pair_of tm (nth (S (length rest)) As' amp0)) as [p q] eqn:Ep.
        replace q with (RtoC 1) in G2; [exact G2|]. destruct tm; cbn in Ep; injection Ep as _ <-; symmetry; assumption. }
      apply (exact_unique n Hn tm l0 rest) in Sv; [|exact Hs]. rewrite Sv. fold ab. ring. }
    apply amps_eq. intros tm. pose proof (G tm) as Gt. destruct tm; cbn [pair_of fst] in *; rewrite Gt, ?K3, ?K3'; reflexivity.
  - destruct (stack_tends n_max n Hn l0 rest Hs) as [Ta Tb].
    assert (Te : tends_amps (fun k => let ab := @pena_ab R ROps n_max k l0 rest n in @exterior R ROps (fst ab) (snd ab)) ext).
    { split; [exact Ta|]. split; [exact Tb|]. split; exact (tends_const (RtoC 1)). }
    pose proof (raw_tends n_max n rest l0 _ ext Ha Te) as T. cbv zeta in T. intros i. specialize (T i). destruct T as (T1 & T2 & T3 & T4).
    assert (Eh : forall k, nth i (@near_amps R ROps n_max k l0 rest n) amp0 =
      let A := nth i (@near_raw R ROps n_max k l0 rest (@exterior R ROps (fst (@pena_ab R ROps n_max k l0 rest n)) (snd (@pena_ab R ROps n_max k l0 rest n))) n) amp0 in
      if Nat.eqb i 0 then @zero_core R ROps A else A).
    { intros k. unfold near_amps. cbv zeta. destruct rest, i; reflexivity. }
    destruct (Nat.eqb_spec i 0) as [->|Hi].
    + pose proof (Hcore true) as C1. pose proof (Hcore false) as C2. cbn [pair_of fst] in C1, C2.
      split; [|split; [|split]].
      * eapply tends_ev; [exists 0%nat; intros k _; rewrite Eh; reflexivity|]. rewrite C1. exact (tends_const (RtoC 0)).
      * eapply tends_ev; [exists 0%nat; intros k _; rewrite Eh; reflexivity|]. rewrite C2. exact (tends_const (RtoC 0)).
      * eapply tends_ev; [exists 0%nat; intros k _; rewrite Eh; reflexivity|]. exact T3.
      * eapply tends_ev; [exists 0%nat; intros k _; rewrite Eh; reflexivity|]. exact T4.
    + cbv zeta in Eh.
      split; [|split; [|split]]; (eapply tends_ev; [exists 0%nat; intros k _; rewrite Eh; reflexivity|]); assumption.
Qed.
