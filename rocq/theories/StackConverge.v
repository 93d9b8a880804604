(** Convergence of [_miecoef_pena] to the exact solution of the boundary-value
    problem with the true Riccati-Bessel functions (C18). *)
From Coq Require Import Reals ZArith Lra Lia Bool List Arith.
From Coquelicot Require Import Coquelicot.
From Verif Require Import Ops ROps Spec CLemmas CTrig ComplexDiff ModelSpecial ModelMie PenaProofs
  BesselSpec BesselTrue BesselMinimal StackSpec QuietSpec StackProofs ConvergeSpec BesselLimits.
Import ListNotations.
Open Scope C_scope.

Notation e30 := (@eps30 R ROps).
Lemma e30_le1 : (0 < e30 <= 1)%R.
Proof.
  split; [apply rtenth_pos|]. unfold eps30, rtenth. cbn [ROps rdiv rone rofZ].
  replace (IZR (10 ^ Z.of_nat 30)) with (10 ^ 30)%R by (rewrite pow_IZR; f_equal; f_equal; reflexivity).
  assert (1 <= 10 ^ 30)%R by (apply pow_R1_Rle; lra).
  apply (Rmult_le_reg_r (10 ^ 30)); [lra|]. unfold Rdiv. rewrite Rmult_assoc, Rinv_l; lra.
Qed.

(** ** true functions: Casoratian and order 0 *)
Lemma zeta0_true (z : C) : z <> 0 -> true_zeta 0 z = Csin z - Ci * Ccos z.
Proof. intros Hz. unfold true_zeta, true_j, true_y. cbn [three_term fst]. field. exact Hz. Qed.
Lemma psi0_true (z : C) : z <> 0 -> true_psi 0 z = Csin z.
Proof. intros Hz. unfold true_psi, true_j. cbn [three_term fst]. field. exact Hz. Qed.
Lemma zeta0_nz (z : C) : z <> 0 -> true_zeta 0 z <> 0.
Proof.
  intros Hz. rewrite zeta0_true by exact Hz. change (Csin z - Ci * Ccos z) with (gzeta 1 0 z 0). rewrite gzeta_0'.
  intros E. apply (Cexp_neq0 (Ci * z)). apply (Cmult_eq_reg_l Ci); [apply Ci_neq0|].
  replace (Ci * Cexp (Ci * z)) with (- - (Ci * Cexp (Ci * z))) by ring. rewrite E. ring.
Qed.
Lemma true_casoratian (z : C) n : z <> 0 -> true_psi n z * true_zeta (S n) z - true_psi (S n) z * true_zeta n z = - Ci.
Proof.
  intros Hz. induction n as [|n IH].
  - unfold true_psi, true_zeta, true_j, true_y. cbn [three_term fst snd].
    pose proof (Csin2_Ccos2 z) as T.
    transitivity (- Ci * (Csin z * Csin z + Ccos z * Ccos z)); [field; exact Hz|rewrite T; ring].
  - rewrite true_psi_rec, true_zeta_rec. rewrite <- IH. ring.
Qed.
Lemma L3_L1 (z : C) n : z <> 0 -> true_psi n z <> 0 -> true_zeta n z <> 0 ->
  true_L3 n z = true_L1 n z + Ci / (true_psi n z * true_zeta n z).
Proof.
  intros Hz Hp Hs. unfold true_L1, true_L3. pose proof (true_casoratian z n Hz) as K.
  assert (E : Ci = - (true_psi n z * true_zeta (S n) z - true_psi (S n) z * true_zeta n z)) by (rewrite K; ring).
  rewrite E. field. auto.
Qed.
Lemma L3_0 (z : C) : z <> 0 -> true_L3 0 z = Ci.
Proof.
  intros Hz. unfold true_L3. assert (H0 := zeta0_nz z Hz). change (INR 1) with 1%R.
  apply (Cmult_eq_reg_l (true_zeta 0 z)); [exact H0|].
  transitivity (true_zeta 0 z / z - true_zeta 1 z); [field; auto|].
  rewrite zeta0_true by exact Hz. unfold true_zeta, true_j, true_y. cbn [three_term fst snd].
  transitivity (Ci * Csin z - (Ci * Ci) * Ccos z); [rewrite Ci_sqr; field; exact Hz|ring].
Qed.

(** ** one argument *)
Section Arg.
  Variables (n_max : nat) (z : C) (n : nat).
  Hypothesis Hreg : regular_arg e30 z n.
  Notation D1 k := (@pD1 R ROps n_max k).
  Notation D3 k := (@pD3 R ROps n_max k).
  Notation psi k := (@ppsi R ROps n_max k).
  Notation zeta k := (@pzeta R ROps n_max k).
  Lemma a_z : (e30 <= Cmod z)%R. Proof. apply Hreg. Qed.
  Lemma a_nz : z <> 0. Proof. apply (Cmod_pos_neq e30); [apply e30_pos|apply a_z]. Qed.
  Lemma a_psi j : true_psi j z <> 0.
  Proof. apply (regular_nz e30 z e30_le1 a_z 0); [apply Hreg|lia]. Qed.
  Lemma a_zeta j : (j <= n)%nat -> true_zeta j z <> 0.
  Proof.
    intros Hj. destruct j as [|j]; [apply zeta0_nz, a_nz|]. pose proof (proj2 Hreg (S j) ltac:(lia)) as H.
    intros E. rewrite E, Cmult_0_r, Cmod_0 in H. pose proof e30_pos. lra.
  Qed.
  Lemma a_D1 j : tends (fun k => D1 k z j) (true_L1 j z).
  Proof.
    assert (H : regular_from e30 z j).
    { destruct Hreg as [[H1 H2] _]. split; [exact H1|]. intros k Hk. apply H2. lia. }
    pose proof (D1_tends e30 z e30_le1 a_z j H) as T. exact (tends_shift _ _ n_max T).
  Qed.
  (* computed recurrences for any k *)
  Lemma c_psi k j : psi k z (S j) = psi k z j * (Cn (S j) / z - D1 k z j).
  Proof. apply (gpsi_S e30 (n_max + k) z a_z j). Qed.
  Lemma c_zeta k j : zeta k z (S j) = zeta k z j * (Cn (S j) / z - D3 k z j).
  Proof. apply (gzeta_S e30 (n_max + k) z a_z j). Qed.
  Lemma a_all j : (j <= n)%nat ->
    tends (fun k => psi k z j) (true_psi j z) /\ tends (fun k => zeta k z j) (true_zeta j z) /\ tends (fun k => D3 k z j) (true_L3 j z).
  Proof.
    induction j as [|j IH]; intros Hj.
    - split; [|split].
      + apply (tends_val _ (Csin z)); [symmetry; apply psi0_true, a_nz|]. exact (tends_const (Csin z)).
      + apply (tends_val _ (Csin z - Ci * Ccos z)); [symmetry; apply zeta0_true, a_nz|]. exact (tends_const (Csin z - Ci * Ccos z)).
      + apply (tends_val _ Ci); [symmetry; apply L3_0, a_nz|]. exact (tends_const Ci).
    - destruct (IH ltac:(lia)) as (T1 & T2 & T3).
      assert (P : tends (fun k => psi k z (S j)) (true_psi (S j) z)).
      { apply (tends_ev (fun k => psi k z j * (Cn (S j) / z - D1 k z j))); [exists 0%nat; intros; symmetry; apply c_psi|].
        eapply tends_val; [|apply tends_mult; [exact T1|apply tends_minus; [apply tends_const|apply a_D1]]].
        unfold true_L1. pose proof (a_psi j). pose proof a_nz. field. auto. }
      assert (Z : tends (fun k => zeta k z (S j)) (true_zeta (S j) z)).
      { apply (tends_ev (fun k => zeta k z j * (Cn (S j) / z - D3 k z j))); [exists 0%nat; intros; symmetry; apply c_zeta|].
        eapply tends_val; [|apply tends_mult; [exact T2|apply tends_minus; [apply tends_const|exact T3]]].
        unfold true_L3. pose proof (a_zeta j ltac:(lia)). pose proof a_nz. field. auto. }
      split; [exact P|]. split; [exact Z|].
      pose proof (tends_mult _ _ _ _ P Z) as PZ.
      destruct (tends_away _ _ e30 PZ (proj2 Hreg (S j) ltac:(lia))) as [M HM].
      apply (tends_ev (fun k => D1 k z (S j) + Ci / (psi k z (S j) * zeta k z (S j)))).
      { exists M. intros k Hk. symmetry. apply (gD3_S e30 (n_max + k) z a_z j). left. apply (HM k Hk). }
      pose proof (a_psi (S j)). pose proof (a_zeta (S j) ltac:(lia)).
      eapply tends_val; [symmetry; apply L3_L1; [apply a_nz|assumption|assumption]|].
      apply tends_plus; [apply a_D1|]. apply tends_div; [now apply Cmult_neq_0|apply tends_const|exact PZ].
  Qed.
  Lemma a_psi_t j : (j <= n)%nat -> tends (fun k => psi k z j) (true_psi j z). Proof. intros H. apply (a_all j H). Qed.
  Lemma a_zeta_t j : (j <= n)%nat -> tends (fun k => zeta k z j) (true_zeta j z). Proof. intros H. apply (a_all j H). Qed.
  Lemma a_D3 j : (j <= n)%nat -> tends (fun k => D3 k z j) (true_L3 j z). Proof. intros H. apply (a_all j H). Qed.
  Lemma a_quiet : ev (fun k => quiet_arg n_max k z n).
  Proof.
    assert (ev (fun k => forall j, (1 <= j <= n)%nat ->
      no_guard e30 (D1 k z j + Cn j / z) /\ no_guard e30 (psi k z j * zeta k z j))).
    { apply ev_all. intros j Hj. apply ev_and.
      - assert (T : tends (fun k => D1 k z j + Cn j / z) (rr z j)).
        { destruct (psi_id e30 z e30_le1 a_z j (a_psi j)) as [E|E]; [|lia]. eapply tends_val; [exact E|].
          apply tends_plus; [apply a_D1|apply tends_const]. }
        assert (H : (e30 < Cmod (rr z j))%R) by (apply (rr_away e30 z e30_le1 a_z 0); [apply Hreg|lia]).
        apply (ev_mono _ _ (fun k Hk => Rlt_le _ _ Hk) (tends_away _ _ _ T H)).
      - pose proof (tends_mult _ _ _ _ (a_psi_t j ltac:(lia)) (a_zeta_t j ltac:(lia))) as T.
        apply (ev_mono _ _ (fun k Hk => Rlt_le _ _ Hk) (tends_away _ _ _ T (proj2 Hreg j Hj))). }
    apply (ev_mono _ _ (fun k Hk => conj a_z Hk) H).
  Qed.
  (* the log derivatives give the derivatives of the specification *)
  Lemma a_dpsi : (1 <= n)%nat -> true_dpsi n z = true_L1 n z * true_psi n z.
  Proof.
    intros Hn. pose proof (a_psi n). pose proof a_nz as Hz. destruct n as [|q]; [lia|]. unfold true_dpsi, true_L1. rewrite true_psi_rec.
    replace (S q - 1)%nat with q by lia. nrm. field. auto.
  Qed.
  Lemma a_dzeta : (1 <= n)%nat -> true_dzeta n z = true_L3 n z * true_zeta n z.
  Proof.
    intros Hn. pose proof (a_zeta n (le_n _)) as Hs. pose proof a_nz as Hz. destruct n as [|q]; [lia|]. unfold true_dzeta, true_L3. rewrite true_zeta_rec.
    replace (S q - 1)%nat with q by lia. nrm. field. auto.
  Qed.
End Arg.

(** ** ratio *)
Section Ratio.
  Variables (n_max : nat) (z1 z2 x1 x2 : C) (n : nat).
  Hypotheses (Hn : (1 <= n)%nat) (R1 : regular_arg e30 z1 n) (R2 : regular_arg e30 z2 n) (RQ : regular_ratio e30 z1 z2 x2 n).
  Hypothesis Hx : x1 * z2 = x2 * z1.
  Lemma q_quiet : ev (fun k => quiet_ratio n_max k z1 z2 x2 n).
  Proof.
    destruct RQ as (H1 & H2 & H3).
    assert (ev (fun k => forall j, (1 <= j <= n)%nat ->
      no_guard e30 ((z1 * @pD1 R ROps n_max k z1 j + Cn j) * (Cn j - z1 * @pD3 R ROps n_max k z1 (j - 1))))).
    { apply ev_all. intros j Hj.
      assert (T : tends (fun k => (z1 * @pD1 R ROps n_max k z1 j + Cn j) * (Cn j - z1 * @pD3 R ROps n_max k z1 (j - 1)))
                   ((z1 * true_L1 j z1 + Cn j) * (Cn j - z1 * true_L3 (j - 1) z1))).
      { apply tends_mult; [apply tends_plus; [apply tends_mult; [apply tends_const|exact (a_D1 n_max z1 n R1 j)]|apply tends_const]|].
        apply tends_minus; [apply tends_const|]. apply tends_mult; [apply tends_const|]. apply (a_D3 n_max z1 n R1). lia. }
      apply (ev_mono _ _ (fun k Hk => Rlt_le _ _ Hk) (tends_away _ _ _ T (H3 j Hj))). }
    apply (ev_mono _ _ (fun k Hk => conj H1 (conj H2 Hk)) H).
  Qed.
  Lemma q_tends : tends (fun k => @pQ R ROps n_max k z1 z2 x1 x2 n) (true_Q z1 z2 n).
  Proof.
    destruct (ev_and _ _ (ev_and _ _ (ev_and _ _ (a_quiet n_max z1 n R1) (a_quiet n_max z2 n R2)) q_quiet) (ev_ge n)) as [M HM].
    pose proof (a_psi z2 n R2 n) as P2. pose proof (a_zeta z1 n R1 n (le_n _)) as S1.
    assert (PN : (1 <= n)%nat) by exact Hn.
    apply (tends_ev (fun k => @ppsi R ROps n_max k z1 n * @pzeta R ROps n_max k z2 n
                              / (@pzeta R ROps n_max k z1 n * @ppsi R ROps n_max k z2 n))).
    { exists M. intros k Hk. destruct (HM k Hk) as [[[A B] D] E].
      assert (Hnk : (1 <= n <= n_max + k)%nat) by lia.
      pose proof (Q_fact n_max k z1 z2 x1 x2 n Hnk A B D Hx) as F. rewrite <- F.
      destruct (arg_facts n_max k z1 n Hnk A) as (_ & _ & Hs & _). destruct (arg_facts n_max k z2 n Hnk B) as (_ & Hp & _ & _).
      match goal with |- ?a = ?b => change (@eq C a b) end. field. auto. }
    apply tends_div; [now apply Cmult_neq_0|apply tends_mult|apply tends_mult].
    - apply (a_psi_t n_max z1 n R1). lia.
    - apply (a_zeta_t n_max z2 n R2). lia.
    - apply (a_zeta_t n_max z1 n R1). lia.
    - apply (a_psi_t n_max z2 n R2). lia.
  Qed.
End Ratio.

(** ** the layer recursion *)
Lemma tends_guard u l : (e30 < Cmod l)%R -> tends u l -> tends (fun k => @guard R ROps e30 (u k)) l.
Proof.
  intros Hl Hu. destruct (tends_away _ _ _ Hu Hl) as [M HM]. apply (tends_ev u); [|exact Hu].
  exists M. intros k Hk. symmetry. apply guard_id. left. now apply HM.
Qed.
Lemma mod_nz (x : C) : (e30 < Cmod x)%R -> x <> 0.
Proof. intros H. apply Cmod_gt_0. pose proof e30_pos. lra. Qed.
Section Layers.
  Variables (n_max n : nat).
  Hypothesis Hn : (1 <= n)%nat.
  Definition tends2 (u : nat -> C * C) (l : C * C) : Prop := tends (fun k => fst (u k)) (fst l) /\ tends (fun k => snd (u k)) (snd l).
  Lemma layer_tends lm1 l (Hk : nat -> C * C) H : regular_layer e30 lm1 l H n -> tends2 Hk H ->
    tends2 (fun k => @pena_layer R ROps n_max k lm1 l (Hk k) n) (exact_layer lm1 l H n).
  Proof.
    intros (R1 & R2 & RQ & Ga & Gb) [Ta Tb].
    pose proof (a_D1 n_max _ n R1 n) as D1p. pose proof (a_D1 n_max _ n R2 n) as D1c.
    pose proof (a_D3 n_max _ n R1 n (le_n _)) as D3p. pose proof (a_D3 n_max _ n R2 n (le_n _)) as D3c.
    pose proof (q_tends n_max _ _ (snd lm1) (snd l) n Hn R1 R2 RQ ltac:(ring)) as TQ.
    set (zp := fst l * snd lm1) in *. set (zc := fst l * snd l) in *.
    assert (G : forall (u v : C) (h : nat -> C) (h0 : C) (d : nat -> nat -> C) (d0 : C), tends h h0 -> tends (fun k => d k n) d0 ->
       tends (fun k => u * h k - v * d k n) (u * h0 - v * d0)).
    { intros u v h h0 d d0 Th Td. apply tends_minus; apply tends_mult; try apply tends_const; assumption. }
    assert (A : forall (u v : C) (h : nat -> C) (h0 : C), tends h h0 -> (e30 < Cmod (exact_den u v h0 zp zc n))%R ->
       tends (fun k => ((u * h k - v * @pD3 R ROps n_max k zp n) * @pD1 R ROps n_max k zc n
                - @pQ R ROps n_max k zp zc (snd lm1) (snd l) n * (u * h k - v * @pD1 R ROps n_max k zp n) * @pD3 R ROps n_max k zc n)
              / @guard R ROps e30 ((u * h k - v * @pD3 R ROps n_max k zp n)
                - @pQ R ROps n_max k zp zc (snd lm1) (snd l) n * (u * h k - v * @pD1 R ROps n_max k zp n)))
         (exact_num u v h0 zp zc n / exact_den u v h0 zp zc n)).
    { intros u v h h0 Th Hg.
      pose proof (G u v h h0 (fun k => @pD1 R ROps n_max k zp) _ Th D1p) as G1.
      pose proof (G u v h h0 (fun k => @pD3 R ROps n_max k zp) _ Th D3p) as G2. cbv beta in G1, G2.
      apply tends_div; [now apply mod_nz| |apply tends_guard; [exact Hg|]].
      - apply tends_minus; [apply tends_mult; assumption|]. apply tends_mult; [|exact D3c]. apply tends_mult; assumption.
      - apply tends_minus; [exact G2|]. apply tends_mult; assumption. }
    split.
    - exact (A (fst l) (fst lm1) _ _ Ta Ga).
    - exact (A (fst lm1) (fst l) _ _ Tb Gb).
  Qed.
  Lemma layers_tends rest : forall lm1 (Hk : nat -> C * C) H, regular_layers e30 lm1 rest H n -> tends2 Hk H ->
    tends2 (fun k => @pena_layers R ROps n_max k lm1 rest (Hk k) n) (exact_layers lm1 rest H n).
  Proof.
    induction rest as [|l rest IH]; intros lm1 Hk H Hr Ht; [exact Ht|]. destruct Hr as [H1 H2].
    exact (IH l (fun k => @pena_layer R ROps n_max k lm1 l (Hk k) n) _ H2 (layer_tends lm1 l Hk H H1 Ht)).
  Qed.
  Definition exact_final (lL H : C * C) : C * C :=
    let x := snd lL in
    ((fst H / fst lL * true_psi n x - true_dpsi n x) / (fst H / fst lL * true_zeta n x - true_dzeta n x),
     (fst lL * snd H * true_psi n x - true_dpsi n x) / (fst lL * snd H * true_zeta n x - true_dzeta n x)).
  Lemma final_tends (lL : C * C) (Hk : nat -> C * C) H : fst lL <> 0 -> regular_final e30 lL H n -> tends2 Hk H ->
    tends2 (fun k => @pena_final R ROps n_max k lL (Hk k) n) (exact_final lL H).
  Proof.
    intros Hm (Rx & Ga & Gb) [Ta Tb]. set (x := snd lL) in *.
    pose proof (a_psi_t n_max x n Rx n (le_n _)) as P. pose proof (a_zeta_t n_max x n Rx n (le_n _)) as S.
    pose proof (a_psi_t n_max x n Rx (n - 1) ltac:(lia)) as P'. pose proof (a_zeta_t n_max x n Rx (n - 1) ltac:(lia)) as S'.
    assert (A : forall (h : nat -> C) (h0 : C), tends h h0 -> (e30 < Cmod (h0 * true_zeta n x - true_dzeta n x)%C)%R ->
      tends (fun k => ((h k + Cn n / x) * @ppsi R ROps n_max k x n - @ppsi R ROps n_max k x (n - 1))
         / @guard R ROps e30 ((h k + Cn n / x) * @pzeta R ROps n_max k x n - @pzeta R ROps n_max k x (n - 1)))
       ((h0 * true_psi n x - true_dpsi n x) / (h0 * true_zeta n x - true_dzeta n x))).
    { intros h h0 Th Hg. apply tends_div; [now apply mod_nz| |apply tends_guard; [exact Hg|]].
      - unfold true_dpsi. replace (h0 * true_psi n x - (true_psi (n - 1) x - Cn n / x * true_psi n x))
          with ((h0 + Cn n / x) * true_psi n x - true_psi (n - 1) x) by ring.
        apply tends_minus; [|exact P']. apply tends_mult; [|exact P]. apply tends_plus; [exact Th|apply tends_const].
      - unfold true_dzeta. replace (h0 * true_zeta n x - (true_zeta (n - 1) x - Cn n / x * true_zeta n x))
          with ((h0 + Cn n / x) * true_zeta n x - true_zeta (n - 1) x) by ring.
        apply tends_minus; [|exact S']. apply tends_mult; [|exact S]. apply tends_plus; [exact Th|apply tends_const]. }
    split.
    - assert (Th : tends (fun k => fst (Hk k) / fst lL) (fst H / fst lL)) by (apply tends_div; [exact Hm|exact Ta|apply tends_const]).
      pose proof (A _ _ Th Ga) as T. refine (tends_ev _ _ _ _ T). exists 0%nat. intros k _.
      unfold pena_final. toC. cbv zeta. cbn [fst snd]. rewrite (guard_id _ (snd lL)) by apply (proj1 (proj1 Rx)). reflexivity.
    - assert (Th : tends (fun k => fst lL * snd (Hk k)) (fst lL * snd H)) by (apply tends_mult; [apply tends_const|exact Tb]).
      pose proof (A _ _ Th Gb) as T. refine (tends_ev _ _ _ _ T). exists 0%nat. intros k _.
      unfold pena_final. toC. cbv zeta. cbn [fst snd]. rewrite (guard_id _ (snd lL)) by apply (proj1 (proj1 Rx)). reflexivity.
  Qed.
  Definition exact_ab l0 rest : C * C := exact_final (last rest l0) (exact_layers l0 rest (exact_first l0 n) n).
  Lemma reg_m (l : C * C) x : regular_arg e30 (fst l * x) n -> fst l <> 0.
  Proof. intros H. exact (Cmult_neq_l _ _ (a_nz _ n H)). Qed.
  Lemma reg_last_m rest : forall (l0 H : C * C), fst l0 <> 0 -> regular_layers e30 l0 rest H n -> fst (last rest l0) <> 0.
  Proof.
    induction rest as [|l rest IH]; intros l0 H Hm Hr; [exact Hm|]. rewrite last_cons. destruct Hr as [(Hz & _) Hr].
    eapply IH; [|exact Hr]. eapply reg_m; exact Hz.
  Qed.
  Theorem stack_tends l0 rest : regular_stack e30 l0 rest n ->
    tends2 (fun k => @pena_ab R ROps n_max k l0 rest n) (exact_ab l0 rest).
  Proof.
    intros (H0 & Hl & Hf). unfold exact_ab.
    apply (final_tends (last rest l0) (fun k => @pena_H R ROps n_max k l0 rest n)).
    - eapply reg_last_m; [|exact Hl]. eapply reg_m; exact H0.
    - exact Hf.
    - apply (layers_tends rest l0 (fun k => @pena_first R ROps n_max k l0 n)); [exact Hl|].
      split; apply (a_D1 n_max _ n H0 n).
  Qed.
End Layers.

(** ** the limit solves the exact boundary-value problem, uniquely *)
Section Exact.
  Variable n : nat.
  Hypothesis Hn : (1 <= n)%nat.
  Notation rf := (true_rf n).
  Notation P := (true_psi n). Notation S := (true_zeta n). Notation D1 := (true_L1 n). Notation D3 := (true_L3 n).
  Lemma dFld_true (AB : C * C) z : regular_arg e30 z n -> dFld rf AB z = snd AB * (D1 z * P z) - fst AB * (D3 z * S z).
  Proof. intros H. unfold dFld, true_rf. cbn [rf_dpsi rf_dzeta]. now rewrite (a_dpsi z n H Hn), (a_dzeta z n H Hn). Qed.
  Lemma Fld_true (AB : C * C) z : Fld rf AB z = snd AB * P z - fst AB * S z. Proof. reflexivity. Qed.
  Lemma W_true z : regular_arg e30 z n -> (D3 z - D1 z) * (P z * S z) = Ci.
  Proof.
    intros H. pose proof (a_psi z n H n). pose proof (a_zeta z n H n (le_n _)).
    rewrite (L3_L1 z n (a_nz z n H)) by assumption. field. auto.
  Qed.
  Lemma Q_true z1 z2 : regular_arg e30 z1 n -> regular_arg e30 z2 n -> true_Q z1 z2 n * (S z1 * P z2) = P z1 * S z2.
  Proof. intros H1 H2. pose proof (a_zeta z1 n H1 n (le_n _)). pose proof (a_psi z2 n H2 n). unfold true_Q. field. auto. Qed.

  Lemma ex_layer_sel (tm : bool) (lm1 l H : C * C) : regular_layer e30 lm1 l H n ->
    let zp := fst l * snd lm1 in let zc := fst l * snd l in
    let G1 := uu tm lm1 l * sel tm H - vv tm lm1 l * D1 zp in
    let G2 := uu tm lm1 l * sel tm H - vv tm lm1 l * D3 zp in
    G2 - true_Q zp zc n * G1 <> 0 /\
    sel tm (exact_layer lm1 l H n) = (G2 * D1 zc - true_Q zp zc n * G1 * D3 zc) / (G2 - true_Q zp zc n * G1).
  Proof. intros (_ & _ & _ & Ha & Hb). destruct tm; (split; [apply mod_nz; assumption|reflexivity]). Qed.

  Lemma ex_interface_uv (tm : bool) (lm1 l : C * C) AB AB' h : fst lm1 <> 0 -> fst l <> 0 ->
    interface_ok tm (snd lm1) rf (fst lm1) AB rf (fst l) AB' ->
    dFld rf AB (fst lm1 * snd lm1) = h * Fld rf AB (fst lm1 * snd lm1) ->
    vv tm lm1 l * dFld rf AB' (fst l * snd lm1) = uu tm lm1 l * h * Fld rf AB' (fst l * snd lm1).
  Proof.
    intros H1 H2. destruct tm; cbn [interface_ok uu vv]; intros [E1 E2] E.
    - rewrite <- E1.
      replace (dFld rf AB' (fst l * snd lm1)) with (fst l * (dFld rf AB' (fst l * snd lm1) / fst l)) by (field; exact H2).
      rewrite <- E2.
      transitivity (fst l * dFld rf AB (fst lm1 * snd lm1)); [field; exact H1|]. rewrite E. ring.
    - rewrite <- E2, E.
      replace (Fld rf AB' (fst l * snd lm1)) with (fst l * (Fld rf AB' (fst l * snd lm1) / fst l)) by (field; exact H2).
      rewrite <- E1. field. exact H1.
  Qed.
  Lemma ex_interface_out (tm : bool) (l : C * C) AB out h : fst l <> 0 ->
    interface_ok tm (snd l) rf (fst l) AB rf 1 out ->
    dFld rf AB (fst l * snd l) = h * Fld rf AB (fst l * snd l) ->
    dFld rf out (snd l) = (if tm then h / fst l else fst l * h) * Fld rf out (snd l).
  Proof.
    intros H1. destruct tm; cbn [interface_ok]; rewrite Cmult_1_l, !Cdiv1; intros [E1 E2] E;
      rewrite <- E2, <- E1, E; field; exact H1.
  Qed.
  Lemma ex_final_sel (tm : bool) (lL H : C * C) : regular_final e30 lL H n ->
    let h := if tm then sel tm H / fst lL else fst lL * sel tm H in
    h * S (snd lL) - true_dzeta n (snd lL) <> 0 /\
    sel tm (exact_final n lL H) = (h * P (snd lL) - true_dpsi n (snd lL)) / (h * S (snd lL) - true_dzeta n (snd lL)).
  Proof. intros (_ & Ha & Hb). destruct tm; (split; [apply mod_nz; assumption|reflexivity]). Qed.

  Lemma ex_layers_unique (tm : bool) : forall rest (lm1 H AB : C * C) amps (A B : C), fst lm1 <> 0 ->
    length amps = length rest -> regular_layers e30 lm1 rest H n ->
    regular_final e30 (last rest lm1) (exact_layers lm1 rest H n) n ->
    dFld rf AB (fst lm1 * snd lm1) = sel tm H * Fld rf AB (fst lm1 * snd lm1) ->
    interfaces_ok tm rf rf lm1 AB (combine rest amps) (A, B) ->
    A = sel tm (exact_final n (last rest lm1) (exact_layers lm1 rest H n)) * B.
  Proof.
    induction rest as [|l rest IH]; intros lm1 H AB amps A B Hm Hlen Hq Hf Hcore Hok.
    - destruct amps; [|discriminate]. cbn [last exact_layers combine interfaces_ok] in *.
      pose proof (ex_interface_out tm lm1 AB (A, B) _ Hm Hok Hcore) as E.
      destruct (ex_final_sel tm lm1 H Hf) as [Hne ->]. cbv zeta in Hne.
      set (h := if tm then sel tm H / fst lm1 else fst lm1 * sel tm H) in *.
      unfold Fld, dFld, true_rf in E. cbn [rf_psi rf_zeta rf_dpsi rf_dzeta fst snd] in E.
      set (p := P (snd lm1)) in *. set (s := S (snd lm1)) in *. set (dp := true_dpsi n (snd lm1)) in *. set (ds := true_dzeta n (snd lm1)) in *.
      apply (Cmult_eq_reg_l (h * s - ds)); [exact Hne|].
      transitivity ((h * p - dp) * B); [|field; exact Hne].
      apply Csub_eq0. transitivity ((B * dp - A * ds) - h * (B * p - A * s)); [ring|]. rewrite E. ring.
    - destruct amps as [|AB' amps]; [discriminate|]. injection Hlen as Hlen.
      rewrite last_cons in *. cbn [combine interfaces_ok] in Hok. destruct Hok as [Hok1 Hok2].
      cbn [regular_layers] in Hq. destruct Hq as [Hq1 Hq2]. cbn [exact_layers] in *.
      pose proof Hq1 as (Hzp & Hzc & HQr & _ & _).
      assert (Hm' : fst l <> 0) by (eapply reg_m; exact Hzp).
      apply (IH l _ AB' amps A B Hm' Hlen Hq2 Hf); [|exact Hok2].
      destruct (ex_layer_sel tm lm1 l H Hq1) as [Hden EH]. rewrite EH.
      rewrite dFld_true by exact Hzc. rewrite Fld_true.
      apply (layer_unique (uu tm lm1 l) (vv tm lm1 l) (sel tm H) _ _ _ _ (P (fst l * snd lm1)) (S (fst l * snd lm1))).
      + apply Q_true; assumption.
      + exact (a_zeta _ n Hzp n (le_n _)).
      + exact Hden.
      + pose proof (ex_interface_uv tm lm1 l AB AB' (sel tm H) Hm Hm' Hok1 Hcore) as E.
        rewrite dFld_true in E by exact Hzp. rewrite Fld_true in E. exact E.
  Qed.
  Lemma ex_core (tm : bool) (l0 AB0 : C * C) : regular_arg e30 (fst l0 * snd l0) n -> fst AB0 = 0 ->
    dFld rf AB0 (fst l0 * snd l0) = sel tm (exact_first l0 n) * Fld rf AB0 (fst l0 * snd l0).
  Proof.
    intros Hr HA. rewrite dFld_true by exact Hr. rewrite Fld_true, HA. unfold exact_first. destruct tm; cbn [sel fst snd]; ring.
  Qed.
  Theorem exact_unique (tm : bool) l0 rest AB0 amps (A B : C) : regular_stack e30 l0 rest n ->
    solves tm rf rf l0 rest AB0 amps A B -> A = sel tm (exact_ab n l0 rest) * B.
  Proof.
    intros (H0 & Hq & Hf) (HA & Hlen & Hok). eapply ex_layers_unique; try eassumption.
    - eapply reg_m; exact H0.
    - apply ex_core; assumption.
  Qed.

  Lemma ex_interface_mk (tm : bool) (lm1 l : C * C) AB h : fst lm1 <> 0 -> fst l <> 0 ->
    dFld rf AB (fst lm1 * snd lm1) = h * Fld rf AB (fst lm1 * snd lm1) ->
    forall AB',
    Fld rf AB' (fst l * snd lm1) =
      (if tm then Fld rf AB (fst lm1 * snd lm1) else fst l / fst lm1 * Fld rf AB (fst lm1 * snd lm1)) ->
    vv tm lm1 l * dFld rf AB' (fst l * snd lm1) = uu tm lm1 l * h * Fld rf AB' (fst l * snd lm1) ->
    interface_ok tm (snd lm1) rf (fst lm1) AB rf (fst l) AB'.
  Proof.
    intros H1 H2 E AB' E1 E2. destruct tm; cbn [interface_ok uu vv] in *.
    - split; [now rewrite E1|]. rewrite E, <- E1.
      apply (Cmult_eq_reg_l (fst lm1 * fst l)); [now apply Cmult_neq_0|].
      transitivity (fst l * h * Fld rf AB' (fst l * snd lm1)); [field; exact H1|]. rewrite <- E2. field. exact H2.
    - split; [rewrite E1; field; auto|].
      apply (Cmult_eq_reg_l (fst l)); [exact H2|]. rewrite E2, E1, E. field. exact H1.
  Qed.
  Lemma ex_layers_exist (tm : bool) : forall rest (lm1 H AB : C * C), fst lm1 <> 0 ->
    regular_layers e30 lm1 rest H n -> regular_final e30 (last rest lm1) (exact_layers lm1 rest H n) n ->
    Fld rf AB (fst lm1 * snd lm1) <> 0 ->
    dFld rf AB (fst lm1 * snd lm1) = sel tm H * Fld rf AB (fst lm1 * snd lm1) ->
    exists amps (s : C), s <> 0 /\ length amps = length rest /\
      interfaces_ok tm rf rf lm1 AB (combine rest amps)
        (sel tm (exact_final n (last rest lm1) (exact_layers lm1 rest H n)) * s, s).
  Proof.
    induction rest as [|l rest IH]; intros lm1 H AB Hm Hq Hf HF Hcore.
    - cbn [last exact_layers] in *. destruct (ex_final_sel tm lm1 H Hf) as [Hne Ea].
      pose proof Hf as (Rx & _ & _). pose proof (W_true _ Rx) as HW.
      rewrite (a_dzeta _ n Rx Hn), (a_dpsi _ n Rx Hn) in *.
      set (a := sel tm (exact_final n lm1 H)) in *. cbv zeta in Hne, Ea.
      set (h := if tm then sel tm H / fst lm1 else fst lm1 * sel tm H) in *.
      set (p := P (snd lm1)) in *. set (s := S (snd lm1)) in *. set (d1 := D1 (snd lm1)) in *. set (d3 := D3 (snd lm1)) in *.
      assert (Hpa : p - a * s <> 0).
      { intros E0. apply Ci_neq0. rewrite <- HW.
        transitivity (- ((h * s - d3 * s) * (p - a * s))); [|rewrite E0; ring].
        rewrite Ea. field. exact Hne. }
      set (F := Fld rf AB (fst lm1 * snd lm1)) in *.
      exists [], ((if tm then F else F / fst lm1) / (p - a * s)).
      assert (HS : (if tm then F else F / fst lm1) <> 0) by (destruct tm; [exact HF|now apply Cdiv_neq0]).
      set (t := if tm then F else F / fst lm1) in *.
      split; [now apply Cdiv_neq0|]. split; [reflexivity|]. cbn [combine interfaces_ok].
      assert (HFo : Fld rf (a * (t / (p - a * s)), t / (p - a * s)) (snd lm1) = t).
      { rewrite Fld_true. cbn [fst snd]. fold p s. field. exact Hpa. }
      assert (HGo : dFld rf (a * (t / (p - a * s)), t / (p - a * s)) (snd lm1) = h * t).
      { rewrite dFld_true by exact Rx. cbn [fst snd]. fold p s d1 d3.
        transitivity ((d1 * p - a * (d3 * s)) * t / (p - a * s)); [field; exact Hpa|].
        enough (E0 : d1 * p - a * (d3 * s) = h * (p - a * s)) by (rewrite E0; field; exact Hpa).
        rewrite Ea. field. exact Hne. }
      destruct tm; cbn [interface_ok]; rewrite Cmult_1_l, !Cdiv1, HFo, HGo, Hcore; unfold t, h; fold F.
      + split; [reflexivity|]. field. exact Hm.
      + split; [reflexivity|]. field. exact Hm.
    - rewrite last_cons in *. cbn [regular_layers] in Hq. destruct Hq as [Hq1 Hq2]. cbn [exact_layers] in *.
      pose proof Hq1 as (Hzp & Hzc & HQr & _ & _).
      assert (Hm' : fst l <> 0) by (eapply reg_m; exact Hzp).
      destruct (ex_layer_sel tm lm1 l H Hq1) as [Hden EH].
      pose proof (a_zeta _ n Hzp n (le_n _)) as Hs. pose proof (a_psi _ n Hzc n) as Hpc. pose proof (W_true _ Hzp) as Hw.
      set (F := Fld rf AB (fst lm1 * snd lm1)) in *.
      set (F' := if tm then F else fst l / fst lm1 * F).
      assert (HF' : F' <> 0).
      { unfold F'. destruct tm; [exact HF|]. apply Cmult_neq_0; [now apply Cdiv_neq0|exact HF]. }
      pose proof (Q_true _ _ Hzp Hzc) as HQ.
      assert (Hv : vv tm lm1 l <> 0) by (destruct tm; assumption).
      destruct (layer_exists (uu tm lm1 l) (vv tm lm1 l) (sel tm H) (D1 (fst l * snd lm1)) (D3 (fst l * snd lm1))
                  (P (fst l * snd lm1)) (S (fst l * snd lm1)) (P (fst l * snd l)) (S (fst l * snd l))
                  _ HQ Hs Hden Hw Hv Hpc F' HF') as (A & B & E1 & E2 & E3).
      destruct (IH l _ (A, B) Hm' Hq2 Hf) as (amps & s & Hs0 & Hlen & Hok).
      + exact E3.
      + rewrite EH. rewrite dFld_true by exact Hzc. rewrite Fld_true.
        apply (layer_unique (uu tm lm1 l) (vv tm lm1 l) (sel tm H) _ _ _ _
               (P (fst l * snd lm1)) (S (fst l * snd lm1))); [exact HQ|exact Hs|exact Hden|].
        cbn [fst snd]. rewrite E2, E1. reflexivity.
      + exists ((A, B) :: amps), s. split; [exact Hs0|]. split; [cbn; now rewrite Hlen|].
        cbn [combine interfaces_ok]. split; [|exact Hok].
        apply (ex_interface_mk tm lm1 l AB (sel tm H) Hm Hm' Hcore (A, B)).
        * exact E1.
        * rewrite dFld_true by exact Hzp. rewrite Fld_true. cbn [fst snd].
          transitivity (uu tm lm1 l * sel tm H * F'); [exact E2|]. f_equal. symmetry. exact E1.
  Qed.
  Theorem exact_exists (tm : bool) l0 rest : regular_stack e30 l0 rest n ->
    exists AB0 amps, solves tm rf rf l0 rest AB0 amps (sel tm (exact_ab n l0 rest)) 1.
  Proof.
    intros Hs. pose proof Hs as (Hq0 & Hq & Hf).
    assert (Hm : fst l0 <> 0) by (eapply reg_m; exact Hq0).
    destruct (ex_layers_exist tm rest l0 (exact_first l0 n) (RtoC 0, RtoC 1) Hm Hq Hf) as (amps & s & Hs0 & Hlen & Hok).
    - rewrite Fld_true. cbn [fst snd].
      replace (1 * P (fst l0 * snd l0) - 0 * S (fst l0 * snd l0)) with (P (fst l0 * snd l0)) by ring. apply (a_psi _ n Hq0).
    - apply ex_core; [exact Hq0|reflexivity].
    - exists (scaleAB (/ s) (RtoC 0, RtoC 1)), (map (scaleAB (/ s)) amps).
      replace (sel tm (exact_ab n l0 rest)) with (/ s * (sel tm (exact_ab n l0 rest) * s)) by (field; exact Hs0).
      replace (RtoC 1) with (/ s * s) at 2 by (field; exact Hs0).
      apply solves_scale. split; [reflexivity|]. split; [exact Hlen|]. exact Hok.
  Qed.
  (* the homogeneous sphere: textbook formulas *)
  Lemma exact_bh (m x : C) : regular_stack e30 (m, x) [] n -> exact_ab n (m, x) [] = (bh_a m x n, bh_b m x n).
  Proof.
    intros (H0 & _ & (Hx & Ha & Hb)). unfold exact_ab, exact_final, bh_a, bh_b in *. cbn [last exact_layers exact_first fst snd] in *.
    pose proof (a_psi _ n H0 n) as Hp. pose proof (a_nz _ n H0) as Hmx. pose proof (Cmult_neq_l _ _ Hmx) as Hm.
    rewrite (a_dpsi (m * x) n H0 Hn). apply mod_nz in Ha. apply mod_nz in Hb.
    set (L := D1 (m * x)) in *. set (Pm := P (m * x)) in *.
    assert (Fa : m * Pm * true_dzeta n x - S x * (L * Pm) <> 0).
    { intros E. apply Ha. apply (Cmult_eq_reg_l (m * Pm)); [now apply Cmult_neq_0|].
      transitivity (- (m * Pm * true_dzeta n x - S x * (L * Pm))); [field; exact Hm|rewrite E; ring]. }
    assert (Fb : Pm * true_dzeta n x - m * S x * (L * Pm) <> 0).
    { intros E. apply Hb. apply (Cmult_eq_reg_l Pm); [exact Hp|].
      transitivity (- (Pm * true_dzeta n x - m * S x * (L * Pm))); [ring|rewrite E; ring]. }
    f_equal.
    - apply Cdiv_eq; [exact Ha|].
      transitivity (- ((m * Pm * true_dpsi n x - P x * (L * Pm)) * / (m * Pm))); [field; auto|].
      transitivity (- ((m * Pm * true_dpsi n x - P x * (L * Pm)) * / (m * Pm)) * ((m * Pm * true_dzeta n x - S x * (L * Pm)) / (m * Pm * true_dzeta n x - S x * (L * Pm)))); [field; auto|].
      field. auto.
    - apply Cdiv_eq; [exact Hb|].
      transitivity (- ((Pm * true_dpsi n x - m * P x * (L * Pm)) * / Pm) * ((Pm * true_dzeta n x - m * S x * (L * Pm)) / (Pm * true_dzeta n x - m * S x * (L * Pm)))); [field; auto|].
      field. auto.
  Qed.
End Exact.
