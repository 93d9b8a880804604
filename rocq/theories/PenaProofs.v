(** Pena/Yang recurrences: consistency of D1, D3, psi, zeta, Q (C09, C10). *)
From Coq Require Import Reals ZArith Lra Lia Bool List Arith.
From Coquelicot Require Import Coquelicot.
From Verif Require Import Ops ROps Spec CLemmas CTrig ModelSpecial ModelMie.
Import ListNotations.
Open Scope C_scope.

Notation Cn n := (RtoC (INR n)).

Section Pena.
  Variables (eps : R) (N : nat).
  Hypothesis Heps : (0 < eps)%R.
  Definition gD1 (z : C) (n : nat) : C := @D1_at R ROps eps N z n.
  Definition gD3 (z : C) (n : nat) : C := @D3_at R ROps eps z (gD1 z) n.
  Definition gpsi (z : C) (n : nat) : C := fst (@psi_zeta_at R ROps eps z (gD1 z) (gD3 z) n).
  Definition gzeta (z : C) (n : nat) : C := snd (@psi_zeta_at R ROps eps z (gD1 z) (gD3 z) n).
  Definition gQ (z1 z2 x1 x2 : C) (n : nat) : C :=
    @Q_at R ROps eps z1 z2 x1 x2 (gD1 z1) (gD1 z2) (gD3 z1) (gD3 z2) n.

  Lemma guard_C (z : C) : no_guard eps z -> @guard R ROps eps z = z.
  Proof. apply guard_id. Qed.

  Section OneZ.
    Variable z : C.
    Hypothesis Hz : no_guard eps z.
    Lemma z_neq0 : z <> 0. Proof. exact (Cmod_pos_neq eps z Heps Hz). Qed.

    Lemma gD1_top : gD1 z N = 0.
    Proof. unfold gD1, D1_at. rewrite Nat.sub_diag. reflexivity. Qed.
    Lemma gD1_step n : (S n <= N)%nat -> no_guard eps (gD1 z (S n) + Cn (S n) / z) ->
      gD1 z n = Cn (S n) / z - 1 / (gD1 z (S n) + Cn (S n) / z).
    Proof.
      intros Hn Hg. unfold gD1, D1_at in *. rewrite (guard_C z Hz) in *.
      replace (N - n)%nat with (S (N - S n)) by lia.
      cbn [d1_iter]. replace (N - (N - S n))%nat with (S n) by lia.
      unfold d1_step. toC. rewrite guard_C; [reflexivity|]. exact Hg.
    Qed.
    (* the key algebraic identity *)
    Lemma gD1_id n : (S n <= N)%nat -> no_guard eps (gD1 z (S n) + Cn (S n) / z) ->
      (gD1 z (S n) + Cn (S n) / z) * (Cn (S n) / z - gD1 z n) = 1.
    Proof.
      intros Hn Hg. rewrite (gD1_step n Hn Hg).
      pose proof (Cmod_pos_neq _ _ Heps Hg) as Hne. pose proof z_neq0.
      set (u := gD1 z (S n) + Cn (S n) / z) in *. field. split; assumption.
    Qed.

    Lemma gpsi_0 : gpsi z 0 = Csin z. Proof. reflexivity. Qed.
    Lemma gzeta_0 : gzeta z 0 = Csin z - Ci * Ccos z. Proof. reflexivity. Qed.
    Lemma gzeta_0' : gzeta z 0 = - (Ci * Cexp (Ci * z)).
    Proof.
      rewrite gzeta_0, Cexp_i.
      replace (- (Ci * (Ccos z + Ci * Csin z))) with (- (Ci * Ci) * Csin z - Ci * Ccos z) by ring.
      rewrite Ci_sqr. ring.
    Qed.
    Lemma gpsi_S n : gpsi z (S n) = gpsi z n * (Cn (S n) / z - gD1 z n).
    Proof.
      unfold gpsi. cbn [psi_zeta_at]. destruct (@psi_zeta_at R ROps eps z (gD1 z) (gD3 z) n) as [p s].
      cbn [fst]. rewrite guard_C by exact Hz. toC. reflexivity.
    Qed.
    Lemma gzeta_S n : gzeta z (S n) = gzeta z n * (Cn (S n) / z - gD3 z n).
    Proof.
      unfold gzeta. cbn [psi_zeta_at]. destruct (@psi_zeta_at R ROps eps z (gD1 z) (gD3 z) n) as [p s].
      cbn [snd]. rewrite guard_C by exact Hz. toC. reflexivity.
    Qed.
    Lemma gD3_0 : gD3 z 0 = Ci. Proof. reflexivity. Qed.

    Definition gW (n : nat) : C := fst (@d3_state R ROps eps z (gD1 z) n).
    Lemma gW_S n : gW (S n) = gW n * (Cn (S n) / z - gD1 z n) * (Cn (S n) / z - gD3 z n).
    Proof.
      unfold gW, gD3, D3_at. cbn [d3_state]. destruct (@d3_state R ROps eps z (gD1 z) n) as [p s].
      cbn [fst snd]. rewrite guard_C by exact Hz. toC. reflexivity.
    Qed.
    Lemma gW_0 : gW 0 = gpsi z 0 * gzeta z 0.
    Proof.
      rewrite gpsi_0, gzeta_0'. unfold gW. cbn [d3_state fst]. rewrite rtwo_R. toCT.
      change (rdiv rone 2%R) with (1 / 2)%R.
      replace (RtoC (INR 2) * Ci * z) with (Ci * z + Ci * z) by (apply C_eq; simpl; ring).
      rewrite Cexp_plus.
      assert (E : Csin z = (Cexp (Ci * z) - Cexp (- (Ci * z))) / ((1 + 1) * Ci)).
      { rewrite Cexp_i, Cexp_mi. field. split; [apply Ci_neq0|apply C2_neq0]. }
      rewrite E. pose proof (Cexp_opp (Ci * z)) as H1.
      replace (RtoC (1 / 2)) with (/ (1 + 1)) by (apply C_eq; simpl; field).
      set (e := Cexp (Ci * z)) in *. set (e' := Cexp (- (Ci * z))) in *.
      replace (1 - e * e) with (e * e' - e * e) by (rewrite H1; ring).
      field. split; [apply Ci_neq0|apply C2_neq0].
    Qed.
    Lemma gW_eq n : gW n = gpsi z n * gzeta z n.
    Proof.
      induction n as [|n IH]; [apply gW_0|]. rewrite gW_S, IH, gpsi_S, gzeta_S. ring.
    Qed.
    Lemma gD3_S n : no_guard eps (gpsi z (S n) * gzeta z (S n)) ->
      gD3 z (S n) = gD1 z (S n) + Ci / (gpsi z (S n) * gzeta z (S n)).
    Proof.
      intros Hg. rewrite <- gW_eq in *. unfold gD3, D3_at, gW in *. cbn [d3_state] in *.
      destruct (@d3_state R ROps eps z (gD1 z) n) as [p s]. cbn [fst snd] in *.
      rewrite guard_C by exact Hg. reflexivity.
    Qed.
    Lemma wronskian n : no_guard eps (gpsi z (S n) * gzeta z (S n)) ->
      (gD3 z (S n) - gD1 z (S n)) * (gpsi z (S n) * gzeta z (S n)) = Ci.
    Proof.
      intros Hg. rewrite gD3_S by exact Hg. pose proof (Cmod_pos_neq _ _ Heps Hg) as Hne.
      set (w := gpsi z (S n) * gzeta z (S n)) in *. field. exact Hne.
    Qed.
    Lemma gpsi_rec n : (S n <= N)%nat -> no_guard eps (gD1 z (S n) + Cn (S n) / z) ->
      gpsi z (S n) * (gD1 z (S n) + Cn (S n) / z) = gpsi z n.
    Proof.
      intros Hn Hg. rewrite gpsi_S. pose proof (gD1_id n Hn Hg) as E.
      set (u := gD1 z (S n) + Cn (S n) / z) in *. set (v := Cn (S n) / z - gD1 z n) in *.
      replace (gpsi z n * v * u) with (gpsi z n * (u * v)) by ring. rewrite E. ring.
    Qed.
    Lemma gD3_id n : (S (S n) <= N)%nat -> no_guard eps (gD1 z (S (S n)) + Cn (S (S n)) / z) ->
      no_guard eps (gpsi z (S n) * gzeta z (S n)) ->
      no_guard eps (gpsi z (S (S n)) * gzeta z (S (S n))) ->
      (gD3 z (S (S n)) + Cn (S (S n)) / z) * (Cn (S (S n)) / z - gD3 z (S n)) = 1.
    Proof.
      intros Hn Hg HW HW'. pose proof (gD1_id _ Hn Hg) as E.
      rewrite (gD3_S (S n) HW').
      pose proof (Cmod_pos_neq _ _ Heps HW') as Hne'. pose proof (Cmod_pos_neq _ _ Heps HW) as Hne.
      pose proof (gW_S (S n)) as EW. rewrite !gW_eq in EW.
      rewrite EW in *. rewrite (gD3_S n HW) in *.
      set (W := gpsi z (S n) * gzeta z (S n)) in *.
      set (q := Cn (S (S n)) / z) in *. set (d := gD1 z (S (S n))) in *. set (d' := gD1 z (S n)) in *.
      pose proof (Cmult_neq_r _ _ Hne') as Hv.
      assert (Hu : q - d' <> 0) by exact (Cmult_neq_r _ _ (Cmult_neq_l _ _ Hne')).
      assert (Ed : d + q = 1 / (q - d')).
      { apply (Cmult_eq_reg_l (q - d')); [exact Hu|]. rewrite <- (Cmult_comm (d + q)), E. field. exact Hu. }
      replace (d + Ci / (W * (q - d') * (q - (d' + Ci / W))) + q)
        with ((d + q) + Ci / (W * (q - d') * (q - (d' + Ci / W)))) by ring.
      rewrite Ed. set (v := q - (d' + Ci / W)) in *.
      assert (Ev : (q - d') = v + Ci / W) by (unfold v; ring).
      assert (Hs : W * v + Ci <> 0).
      { intros H0. apply Hu. rewrite Ev. replace (v + Ci / W) with ((W * v + Ci) / W) by (field; exact Hne).
        rewrite H0. field. exact Hne. }
      rewrite Ev. field. repeat split; auto. now rewrite (Cmult_comm v W).
    Qed.
    Lemma gzeta_rec n : (S (S n) <= N)%nat -> no_guard eps (gD1 z (S (S n)) + Cn (S (S n)) / z) ->
      no_guard eps (gpsi z (S n) * gzeta z (S n)) ->
      no_guard eps (gpsi z (S (S n)) * gzeta z (S (S n))) ->
      gzeta z (S (S n)) * (gD3 z (S (S n)) + Cn (S (S n)) / z) = gzeta z (S n).
    Proof.
      intros Hn Hg HW HW'. rewrite gzeta_S. pose proof (gD3_id n Hn Hg HW HW') as E.
      set (u := gD3 z (S (S n)) + Cn (S (S n)) / z) in *. set (v := Cn (S (S n)) / z - gD3 z (S n)) in *.
      replace (gzeta z (S n) * v * u) with (gzeta z (S n) * (u * v)) by ring. rewrite E. ring.
    Qed.
  End OneZ.

  (** ** Interface ratio *)
  Definition quiet_z (z : C) (n : nat) : Prop :=
    (n <= N)%nat /\ no_guard eps z /\
    forall j, (1 <= j <= n)%nat -> no_guard eps (gD1 z j + Cn j / z) /\ no_guard eps (gpsi z j * gzeta z j).
  Definition quiet_Q (z1 z2 x2 : C) (n : nat) : Prop :=
    no_guard eps x2 /\
    no_guard eps (Cexp (- RtoC 2 * Ci * RtoC (fst z2)) - RtoC (exp (- 2 * snd z2))) /\
    forall j, (1 <= j <= n)%nat ->
      no_guard eps ((z1 * gD1 z1 j + Cn j) * (Cn j - z1 * gD3 z1 (j - 1))).

  Lemma quiet_z_le z n m : (m <= n)%nat -> quiet_z z n -> quiet_z z m.
  Proof. intros Hm (H1 & H2 & H3). split; [lia|]. split; [exact H2|]. intros j Hj. apply H3. lia. Qed.

  Lemma psi_zeta_neq0 z n : quiet_z z (S n) -> forall j, (j <= S n)%nat -> gpsi z j <> 0 /\ gzeta z j <> 0.
  Proof.
    intros (Hn & Hz & HQ) j Hj. destruct j as [|j].
    - destruct (HQ 1%nat ltac:(lia)) as [_ HW]. pose proof (Cmod_pos_neq _ _ Heps HW) as H.
      pose proof (Cmult_neq_l _ _ H) as Hp. pose proof (Cmult_neq_r _ _ H) as Hs.
      rewrite gpsi_S in Hp by exact Hz. rewrite gzeta_S in Hs by exact Hz.
      split; eapply Cmult_neq_l; eassumption.
    - destruct (HQ (S j) ltac:(lia)) as [_ HW]. pose proof (Cmod_pos_neq _ _ Heps HW) as H.
      split; [exact (Cmult_neq_l _ _ H)|exact (Cmult_neq_r _ _ H)].
  Qed.

  Lemma Q0_eq z1 z2 : no_guard eps (Cexp (- RtoC 2 * Ci * RtoC (fst z2)) - RtoC (exp (- 2 * snd z2))) ->
    gpsi z2 0 <> 0 -> gQ z1 z2 z1 z2 0 * (gzeta z1 0 * gpsi z2 0) = gpsi z1 0 * gzeta z2 0.
  Proof.
    intros Hg Hp. unfold gQ. cbn [Q_at]. unfold Q0. toCT.
    change (@cre R) with (@fst R R). change (@cim R) with (@snd R R).
    cbn [rexp rmul rsub ROps ropp radd]. rewrite rtwo_R.
    change (Ropp 2) with (-2)%R.
    replace (RtoC (-2)) with (- RtoC 2) by (apply C_eq; simpl; ring).
    assert (E : forall z : C, Cexp (- RtoC 2 * Ci * RtoC (fst z)) - RtoC (exp (-2 * snd z)) =
       RtoC (exp (-2 * snd z)) * (Cexp (- (Ci * z)) * Cexp (- (Ci * z)) - 1)).
    { intros z. rewrite <- Cexp_plus, <- (Cexp_R (-2 * snd z)).
      replace (Cexp (- RtoC 2 * Ci * RtoC (fst z))) with
        (Cexp (RtoC (-2 * snd z)) * Cexp (- (Ci * z) + - (Ci * z))).
      - ring.
      - rewrite <- Cexp_plus. apply f_equal. destruct z as [a b]. apply C_eq; simpl; ring. }
    rewrite guard_C by exact Hg.
    rewrite !E in *.
    assert (Hs : forall z : C, gpsi z 0 = gzeta z 0 * ((1 - Cexp (- (Ci * z)) * Cexp (- (Ci * z))) / (1 + 1))).
    { intros z. rewrite gpsi_0, gzeta_0'.
      assert (E2 : Csin z = (Cexp (Ci * z) - Cexp (- (Ci * z))) / ((1 + 1) * Ci)).
      { rewrite Cexp_i, Cexp_mi. field. split; [apply Ci_neq0|apply C2_neq0]. }
      rewrite E2. pose proof (Cexp_opp (Ci * z)) as H1.
      set (e := Cexp (Ci * z)) in *. set (e' := Cexp (- (Ci * z))) in *.
      replace (- (Ci * e) * ((1 - e' * e') / (1 + 1))) with (- Ci * (e - (e * e') * e') / (1 + 1))
        by (field; apply C2_neq0).
      rewrite H1. replace (- Ci) with (- (Ci * Ci) / Ci) by (field; apply Ci_neq0). rewrite Ci_sqr.
      field. split; [apply Ci_neq0|apply C2_neq0]. }
    rewrite (Hs z1), (Hs z2) in *.
    set (u1 := Cexp (- (Ci * z1)) * Cexp (- (Ci * z1))) in *.
    set (u2 := Cexp (- (Ci * z2)) * Cexp (- (Ci * z2))) in *.
    set (y1 := gzeta z1 0) in *. set (y2 := gzeta z2 0) in *.
    replace (exp (-2 * (snd z2 + - snd z1))) with (exp (-2 * snd z2) * / exp (-2 * snd z1))%R
      by (rewrite <- exp_Ropp, <- exp_plus; f_equal; ring).
    pose proof (exp_pos (-2 * snd z2)) as P2. pose proof (exp_pos (-2 * snd z1)) as P1.
    set (e1 := exp (-2 * snd z1)) in *. set (e2 := exp (-2 * snd z2)) in *.
    rewrite RtoC_mult, RtoC_inv by lra.
    assert (He1 : RtoC e1 <> 0) by (apply RtoC_neq; lra).
    assert (He2 : RtoC e2 <> 0) by (apply RtoC_neq; lra).
    assert (Hu : u2 - 1 <> 0).
    { intros H. apply Hp. replace (1 - u2) with (- (u2 - 1)) by ring. rewrite H. field. apply C2_neq0. }
    field. repeat split; auto. apply C2_neq0.
  Qed.

  Lemma gQ_0_indep z1 z2 x1 x2 y1 y2 : gQ z1 z2 x1 x2 0 = gQ z1 z2 y1 y2 0.
  Proof. reflexivity. Qed.

  Lemma gQ_S z1 z2 x1 x2 n : no_guard eps x2 ->
     no_guard eps ((z1 * gD1 z1 (S n) + Cn (S n)) * (Cn (S n) - z1 * gD3 z1 n)) ->
     gQ z1 z2 x1 x2 (S n) = gQ z1 z2 x1 x2 n * ((x1 / x2) * (x1 / x2)) *
       ((z2 * gD1 z2 (S n) + Cn (S n)) * (Cn (S n) - z2 * gD3 z2 n)
        / ((z1 * gD1 z1 (S n) + Cn (S n)) * (Cn (S n) - z1 * gD3 z1 n))).
  Proof.
    intros Hx Hg. unfold gQ. cbn [Q_at]. unfold csqr. toC.
    rewrite (guard_C x2 Hx). rewrite guard_C by exact Hg. reflexivity.
  Qed.

  Lemma Q_ratio z1 z2 x1 x2 n : (1 <= n)%nat -> quiet_z z1 n -> quiet_z z2 n -> quiet_Q z1 z2 x2 n ->
    x1 * z2 = x2 * z1 ->
    gQ z1 z2 x1 x2 n = (gpsi z1 n * gzeta z2 n) / (gzeta z1 n * gpsi z2 n).
  Proof.
    intros Hn H1 H2 (Hx & H0 & HQ) Hr. destruct n as [|n0]; [lia|]. clear Hn.
    assert (Hz1 : no_guard eps z1) by apply H1. assert (Hz2 : no_guard eps z2) by apply H2.
    pose proof (psi_zeta_neq0 z1 n0 H1) as N1. pose proof (psi_zeta_neq0 z2 n0 H2) as N2.
    pose proof (Cmod_pos_neq _ _ Heps Hz1) as Z1. pose proof (Cmod_pos_neq _ _ Heps Hz2) as Z2.
    pose proof (Cmod_pos_neq _ _ Heps Hx) as X2.
    enough (forall j, (j <= S n0)%nat -> gQ z1 z2 x1 x2 j * (gzeta z1 j * gpsi z2 j) = gpsi z1 j * gzeta z2 j) as Hall.
    { pose proof (Hall (S n0) (le_n _)) as E. destruct (N1 (S n0) (le_n _)) as [_ Hs]. destruct (N2 (S n0) (le_n _)) as [Hp _].
      rewrite <- E. field. split; assumption. }
    induction j as [|j IH]; intros Hj.
    - rewrite (gQ_0_indep _ _ _ _ z1 z2). apply Q0_eq; [exact H0|]. apply N2; lia.
    - specialize (IH ltac:(lia)).
      rewrite gQ_S; [|exact Hx|].
      2:{ specialize (HQ (S j) ltac:(lia)). replace (S j - 1)%nat with j in HQ by lia. exact HQ. }
      assert (Hden : (z1 * gD1 z1 (S j) + Cn (S j)) * (Cn (S j) - z1 * gD3 z1 j) <> 0).
      { specialize (HQ (S j) ltac:(lia)). replace (S j - 1)%nat with j in HQ by lia.
        exact (Cmod_pos_neq _ _ Heps HQ). }
      destruct H1 as (HN & _ & HD1). destruct H2 as (_ & _ & HD2).
      destruct (HD1 (S j) ltac:(lia)) as [G1 _]. destruct (HD2 (S j) ltac:(lia)) as [G2 _].
      pose proof (gpsi_rec z1 Hz1 j ltac:(lia) G1) as P1.
      pose proof (gpsi_rec z2 Hz2 j ltac:(lia) G2) as P2.
      pose proof (Cmod_pos_neq _ _ Heps G1) as U1. pose proof (Cmod_pos_neq _ _ Heps G2) as U2.
      rewrite (gzeta_S z1 Hz1 j), (gzeta_S z2 Hz2 j).
      rewrite <- P1, <- P2 in IH.
      set (s1 := gzeta z1 j) in *. set (s2 := gzeta z2 j) in *.
      set (p1 := gpsi z1 (S j)) in *. set (p2 := gpsi z2 (S j)) in *.
      set (q := gQ z1 z2 x1 x2 j) in *.
      set (d1 := gD1 z1 (S j)) in *. set (d2 := gD1 z2 (S j)) in *.
      set (t1 := gD3 z1 j) in *. set (t2 := gD3 z2 j) in *. set (c := Cn (S j)) in *.
      assert (Ex : x1 / x2 = z1 / z2).
      { apply Cdiv_eq; [exact X2|]. apply (Cmult_eq_reg_l z2); [exact Z2|].
        rewrite (Cmult_comm z2 x1), Hr. field. exact Z2. }
      rewrite Ex.
      pose proof (Cmult_neq_l _ _ Hden) as Ha. pose proof (Cmult_neq_r _ _ Hden) as Hb.
      assert (F : p1 * s2 = q * s1 * p2 * (d2 + c / z2) / (d1 + c / z1)).
      { apply (Cmult_eq_reg_l (d1 + c / z1)); [exact U1|].
        transitivity (p1 * (d1 + c / z1) * s2); [ring|]. rewrite <- IH. field.
        repeat split; try assumption.
        intros H. apply U1. replace (d1 + c / z1) with ((z1 * d1 + c) / z1) by (field; exact Z1).
        replace (z1 * d1 + c) with (d1 * z1 + c) by ring. rewrite H. field. exact Z1. }
      transitivity (p1 * s2 * (c / z2 - t2)); [|ring]. rewrite F.
      field. repeat split; auto.
      intros H. apply Ha. rewrite <- H. ring.
  Qed.
End Pena.
