(** D1n_torch and D3n_torch (special.py:1208-1326): the unguarded recurrences
    compute the logarithmic derivatives of psi_n and zeta_n (C91). *)
From Coq Require Import Reals ZArith Lra Lia Bool List Arith.
From Coquelicot Require Import Coquelicot.
From Verif Require Import Ops ROps Spec CLemmas CTrig ComplexDiff ModelSpecial ModelMie PenaProofs BesselProofs
  BesselSpec BesselTrue BesselMinimal StackSpec ConvergeSpec BesselLimits StackConverge ExampleStack TorchConverge.
Open Scope C_scope.
Arguments Cmod x%C_scope.

Section D1.
  Variable z : C.
  Hypothesis Hz : (e10 <= Cmod z)%R.
  Let m := Cmod z.
  Lemma e10_pos' : (0 < e10)%R. Proof. apply rtenth_pos. Qed.
  Lemma zz : z <> 0. Proof. apply (Cmod_pos_neq e10); [apply e10_pos'|exact Hz]. Qed.
  Definition dn (N n : nat) : C := @d1n_iter R ROps z N (N - n).
  Lemma D1n_dn n_max n_add n : @D1n_torch R ROps n_max n_add z n = dn (n_max + n_add) n.
  Proof. unfold D1n_torch. rewrite replace_small_id by exact Hz. reflexivity. Qed.
  Lemma dn_top N : dn N N = 0. Proof. unfold dn. rewrite Nat.sub_diag. reflexivity. Qed.
  Lemma dn_step N k : (S k <= N)%nat -> dn N k = Cn (S k) / z - 1 / (dn N (S k) + Cn (S k) / z).
  Proof.
    intros H. unfold dn. replace (N - k)%nat with (S (N - S k)) by lia. cbn [d1n_iter].
    replace (N - (N - S k))%nat with (S k) by lia. toC. reflexivity.
  Qed.
  (* beyond the turning point the guarded recurrence of pena_D1_n is the same *)
  Let e := Rmin 1 m.
  Lemma e_ok : (0 < e <= 1)%R /\ (e <= Cmod z)%R.
  Proof.
    assert (0 < m)%R by (unfold m; pose proof e10_pos'; lra). unfold e. split; [split; [apply Rmin_pos; lra|apply Rmin_l]|apply Rmin_r].
  Qed.
  Lemma dn_guarded N j : (j <= N)%nat -> (m <= INR (N - j))%R -> (m + 1 <= INR N)%R -> dn N (N - j) = gD1 e N z (N - j).
  Proof.
    intros Hj Hm HN. destruct e_ok as [E1 E2]. induction j as [|j IH].
    - rewrite Nat.sub_0_r, dn_top, gD1_top. reflexivity.
    - specialize (IH ltac:(lia)). assert (Hm' : (m <= INR (N - j))%R) by (eapply Rle_trans; [exact Hm|apply le_INR; lia]).
      specialize (IH Hm'). set (k := (N - S j)%nat) in *. replace (N - j)%nat with (S k) in * by (unfold k; lia).
      pose proof (d_big e z E1 E2 N j ltac:(lia)) as B. replace (N - j)%nat with (S k) in B by (unfold k; lia).
      specialize (B ltac:(lia) Hm' HN). assert (0 < / Cmod z)%R by (apply Rinv_0_lt_compat, Cmod_gt_0, zz).
      rewrite dn_step, IH by (unfold k; lia). symmetry. apply gD1_step; [exact E2|unfold k; lia|]. unfold no_guard. lra.
  Qed.
  Theorem dn_rate N n : (1 <= n < N)%nat -> (m <= INR n)%R ->
    (Cmod (dn N n - true_L1 n z) <= 2 * (m / (m + 1)) ^ (2 * (N - 1 - n)))%R.
  Proof.
    intros Hn Hm. destruct e_ok as [E1 E2]. replace n with (N - (N - n))%nat at 1 by lia.
    rewrite dn_guarded; [|lia| |].
    - replace (N - (N - n))%nat with n by lia. exact (D1_rate e z E1 E2 N n Hn Hm).
    - now replace (N - (N - n))%nat with n by lia.
    - assert (INR (S n) <= INR N)%R by (apply le_INR; lia). rewrite S_INR in *. lra.
  Qed.
  Lemma dn_high n : (1 <= n)%nat -> (m <= INR n)%R -> tends (fun N => dn N n) (true_L1 n z).
  Proof.
    intros Hn Hm. destruct e_ok as [E1 E2]. apply (tends_ev (fun N => gD1 e N z n)); [|now apply D1_tends_high].
    exists (S n). intros N HN. symmetry. replace n with (N - (N - n))%nat by lia. apply dn_guarded; [lia| |].
    - now replace (N - (N - n))%nat with n by lia.
    - assert (INR (S n) <= INR N)%R by (apply le_INR; lia). rewrite S_INR in *. lra.
  Qed.
  (* down to order n, as long as no psi_k vanishes *)
  Theorem dn_tends n : (forall k, (n <= k)%nat -> true_psi k z <> 0) -> tends (fun N => dn N n) (true_L1 n z).
  Proof.
    intros Hnz. assert (HKe : exists K, (m < INR K)%R).
    { exists (Z.to_nat (up m)). destruct (archimed m) as [U _]. assert (0 < m)%R by (apply Cmod_gt_0, zz).
      rewrite INR_IZR_INZ, Z2Nat.id; [lra|]. apply le_IZR. lra. }
    destruct HKe as [K HK].
    assert (Hdown : forall j, (n <= S K + n - j)%nat -> (j <= S K + n)%nat -> tends (fun N => dn N (S K + n - j)) (true_L1 (S K + n - j) z)).
    { induction j as [|j IH]; intros Hj Hj2.
      - rewrite Nat.sub_0_r. apply dn_high; [lia|]. rewrite plus_INR, S_INR. pose proof (pos_INR n). lra.
      - specialize (IH ltac:(lia) ltac:(lia)). set (k := (S K + n - S j)%nat) in *. replace (S K + n - j)%nat with (S k) in IH by (unfold k; lia).
        pose proof (Hnz (S k) ltac:(lia)) as H1. pose proof (Hnz k ltac:(lia)) as H0. pose proof zz as Hz0.
        assert (Er : true_L1 (S k) z + Cn (S k) / z = true_psi k z / true_psi (S k) z).
        { destruct (psi_id (Rmin 1 m) z (proj1 e_ok) (proj2 e_ok) (S k) H1) as [Q|Q]; [|discriminate]. unfold rr in Q. now replace (S k - 1)%nat with k in Q by lia. }
        assert (T : tends (fun N => dn N (S k) + Cn (S k) / z) (true_psi k z / true_psi (S k) z)).
        { eapply tends_val; [exact Er|]. apply tends_plus; [exact IH|apply tends_const]. }
        apply (tends_ev (fun N => Cn (S k) / z - 1 / (dn N (S k) + Cn (S k) / z))).
        { exists (S k). intros N HN. symmetry. now apply dn_step. }
        assert (Hr0 : true_psi k z / true_psi (S k) z <> 0) by (apply Cmult_neq_0; [exact H0|intros Q; apply H1; rewrite <- (Cmult_1_l (true_psi (S k) z)), <- (Cinv_r (true_psi (S k) z) H1), Q; ring]).
        eapply tends_val; [|apply tends_minus; [apply tends_const|apply tends_div; [exact Hr0|apply tends_const|exact T]]].
        unfold true_L1. field. repeat split; assumption. }
    specialize (Hdown (S K) ltac:(lia) ltac:(lia)). now replace (S K + n - S K)%nat with n in Hdown by lia.
  Qed.

  (** ** D3 and psi*zeta *)
  Lemma d3n_S D1 n : @D3n_torch R ROps z D1 (S n) =
    (let p := fst (@D3n_torch R ROps z D1 n) * (Cn (S n) / z - D1 n) * (Cn (S n) / z - snd (@D3n_torch R ROps z D1 n)) in
     (p, D1 (S n) + Ci / p)).
  Proof.
    unfold D3n_torch. cbn [d3n_state]. rewrite replace_small_id by exact Hz. destruct (@d3n_state R ROps z z D1 n) as [p s]. cbn [fst snd]. toC. reflexivity.
  Qed.
  Lemma d3n_0 D1 : @D3n_torch R ROps z D1 0 = (true_psi 0 z * true_zeta 0 z, Ci).
  Proof.
    unfold D3n_torch. cbn [d3n_state]. toC. f_equal. rewrite psi0_true, zeta0_true by apply zz.
    change (Csin z - Ci * Ccos z) with (gzeta 1 0 z 0). rewrite gzeta_0'. toCT. ring.
  Qed.
  Hypothesis Hpsi : forall k, true_psi k z <> 0.
  Lemma step_val n : true_zeta n z <> 0 ->
    true_psi n z * true_zeta n z * (Cn (S n) / z - true_L1 n z) * (Cn (S n) / z - true_L3 n z) = true_psi (S n) z * true_zeta (S n) z.
  Proof. intros Hs. pose proof (Hpsi n). pose proof zz. unfold true_L1, true_L3. field. auto. Qed.
  (* fed with the exact D1 *)
  Theorem d3n_exact n : (forall j, (j <= n)%nat -> true_zeta j z <> 0) ->
    @D3n_torch R ROps z (fun k => true_L1 k z) n = (true_psi n z * true_zeta n z, true_L3 n z).
  Proof.
    intros Hs. induction n as [|n IH].
    - rewrite d3n_0, L3_0 by apply zz. reflexivity.
    - rewrite d3n_S, IH by (intros; apply Hs; lia). cbn [fst snd]. rewrite step_val by (apply Hs; lia).
      cbv zeta. f_equal. symmetry. apply L3_L1; [apply zz|apply Hpsi|apply Hs; lia].
  Qed.
  (* fed with D1n_torch *)
  Theorem d3n_tends n_max n : (forall j, (j <= n)%nat -> true_zeta j z <> 0) ->
    tends (fun a => fst (@D3n_torch R ROps z (@D1n_torch R ROps n_max a z) n)) (true_psi n z * true_zeta n z) /\
    tends (fun a => snd (@D3n_torch R ROps z (@D1n_torch R ROps n_max a z) n)) (true_L3 n z).
  Proof.
    intros Hs. assert (TD : forall k, tends (fun a => @D1n_torch R ROps n_max a z k) (true_L1 k z)).
    { intros k. apply (tends_ev (fun a => dn (n_max + a) k)); [exists 0%nat; intros; symmetry; apply D1n_dn|].
      exact (tends_shift _ _ n_max (dn_tends k (fun j _ => Hpsi j))). }
    induction n as [|n IH].
    - split; [apply (tends_ev (fun _ => true_psi 0 z * true_zeta 0 z))|apply (tends_ev (fun _ => Ci))].
      + exists 0%nat. intros. now rewrite d3n_0.
      + apply tends_const.
      + exists 0%nat. intros. now rewrite d3n_0.
      + rewrite L3_0 by apply zz. apply tends_const.
    - destruct (IH ltac:(intros; apply Hs; lia)) as [T1 T2].
      assert (PZ : tends (fun a => fst (@D3n_torch R ROps z (@D1n_torch R ROps n_max a z) (S n))) (true_psi (S n) z * true_zeta (S n) z)).
      { rewrite <- step_val by (apply Hs; lia).
        apply (tends_ev (fun a => fst (@D3n_torch R ROps z (@D1n_torch R ROps n_max a z) n) * (Cn (S n) / z - @D1n_torch R ROps n_max a z n)
           * (Cn (S n) / z - snd (@D3n_torch R ROps z (@D1n_torch R ROps n_max a z) n)))).
        - exists 0%nat. intros a _. now rewrite d3n_S.
        - repeat apply tends_mult; try exact T1; apply tends_minus; try apply tends_const; [apply TD|exact T2]. }
      split; [exact PZ|].
      apply (tends_ev (fun a => @D1n_torch R ROps n_max a z (S n) + Ci / fst (@D3n_torch R ROps z (@D1n_torch R ROps n_max a z) (S n)))).
      { exists 0%nat. intros a _. now rewrite d3n_S. }
      rewrite L3_L1; [|apply zz|apply Hpsi|apply Hs; lia].
      apply tends_plus; [apply TD|]. apply tends_div; [apply Cmult_neq_0; [apply Hpsi|apply Hs; lia]|apply tends_const|exact PZ].
  Qed.
End D1.
Lemma L3_derive n (z : C) : z <> 0 -> true_zeta n z <> 0 -> Cderive (true_zeta n) z (true_L3 n z * true_zeta n z).
Proof.
  intros Hz Hp. destruct n as [|n].
  - assert (E : true_L3 0 z * true_zeta 0 z = (true_j 0 z + Ci * true_y 0 z) + z * (- true_j 1 z + Ci * - true_y 1 z)).
    { unfold true_L3, true_zeta in *. change (INR 1) with 1%R. field. split; [|exact Hz]. intros E. apply Hp. rewrite E. ring. }
    rewrite E. apply (d_times_z (fun w => true_j 0 w + Ci * true_y 0 w)). apply Cderive_plus; [apply Cderive_true_j0, Hz|].
    apply Cderive_scal. apply Cderive_true_y0, Hz.
  - eapply Cderive_val; [|apply Cderive_true_zeta; [exact Hz|lia]]. unfold true_dzeta, true_L3. rewrite true_zeta_rec. replace (S n - 1)%nat with n by lia.
    nrm. field. split; assumption.
Qed.

(** final forms *)
Theorem logdir_D1_limit n_max n (z : C) : (e10 <= Cmod z)%R -> (forall k, (n <= k)%nat -> true_psi k z <> RtoC 0) ->
  exists d, Cderive (true_psi n) z d /\ tends (fun n_add => @D1n_torch R ROps n_max n_add z n) (d / true_psi n z).
Proof.
  intros Hz Hp. exists (true_L1 n z * true_psi n z). split; [apply L1_derive; [now apply zz|apply Hp; lia]|].
  apply (tends_val _ (true_L1 n z)); [field; apply Hp; lia|].
  apply (tends_ev (fun a => dn z (n_max + a) n)); [exists 0%nat; intros; symmetry; now apply D1n_dn|].
  exact (tends_shift _ _ n_max (dn_tends z Hz n Hp)).
Qed.
Theorem logdir_D1_rate n_max n_add n (z : C) : (e10 <= Cmod z)%R -> (1 <= n < n_max + n_add)%nat -> (Cmod z <= INR n)%R ->
  true_psi n z <> RtoC 0 /\ exists d, Cderive (true_psi n) z d /\
    (Cmod (@D1n_torch R ROps n_max n_add z n - d / true_psi n z)%C <= 2 * (Cmod z / (Cmod z + 1)) ^ (2 * (n_max + n_add - 1 - n)))%R.
Proof.
  intros Hz Hn Hm. assert (Hp : true_psi n z <> 0) by (apply psi_nonzero; [now apply zz|exact Hm]). split; [exact Hp|].
  exists (true_L1 n z * true_psi n z). split; [apply L1_derive; [now apply zz|exact Hp]|].
  replace (true_L1 n z * true_psi n z / true_psi n z) with (true_L1 n z) by (field; exact Hp).
  rewrite D1n_dn by exact Hz. now apply dn_rate.
Qed.
Theorem logdir_D3 n (z : C) : (e10 <= Cmod z)%R -> (forall k, true_psi k z <> RtoC 0) -> (forall j, (j <= n)%nat -> true_zeta j z <> RtoC 0) ->
  exists D1 : nat -> C, (forall k, Cderive (true_psi k) z (D1 k * true_psi k z)) /\
  exists d, Cderive (true_zeta n) z d /\
    @D3n_torch R ROps z D1 n = (true_psi n z * true_zeta n z, d / true_zeta n z) /\
    (forall n_max, tends (fun n_add => fst (@D3n_torch R ROps z (@D1n_torch R ROps n_max n_add z) n)) (true_psi n z * true_zeta n z) /\
       tends (fun n_add => snd (@D3n_torch R ROps z (@D1n_torch R ROps n_max n_add z) n)) (d / true_zeta n z)).
Proof.
  intros Hz Hp Hs. assert (Hz0 := zz z Hz). exists (fun k => true_L1 k z). split; [intros k; now apply L1_derive|].
  exists (true_L3 n z * true_zeta n z). split; [apply L3_derive; [exact Hz0|apply Hs; lia]|].
  replace (true_L3 n z * true_zeta n z / true_zeta n z) with (true_L3 n z) by (field; apply Hs; lia).
  split; [now apply d3n_exact|]. intros n_max. now apply d3n_tends.
Qed.
(** real arguments: zeta_n never vanishes *)
Lemma zeta_real_nz n (t : R) : t <> 0%R -> true_zeta n (RtoC t) <> 0.
Proof.
  intros Ht E. assert (Hz : RtoC t <> 0) by (intros Q; apply Ht; now injection Q).
  assert (P : true_psi n (RtoC t) = 0).
  { rewrite zeta_split in E. pose proof (realc_true_psi n t) as R1. pose proof (realc_tchi n t) as R2. unfold realc in *.
    destruct (true_psi n (RtoC t)) as [a b]. destruct (tchi n (RtoC t)) as [c d]. cbn [snd] in R1, R2. subst b d.
    assert (F : a = 0%R) by (apply (f_equal fst) in E; cbn in E; lra). now rewrite F. }
  pose proof (true_casoratian (RtoC t) n Hz) as K. rewrite E, P in K. apply Ci_neq0. transitivity (- - Ci); [ring|]. rewrite <- K. ring.
Qed.
Lemma half_ok : (e10 <= Cmod (RtoC (1 / 2)))%R /\ (forall k, true_psi k (RtoC (1 / 2)) <> RtoC 0) /\ (forall j, true_zeta j (RtoC (1 / 2)) <> RtoC 0).
Proof.
  split; [|split].
  - rewrite Cmod_R, Rabs_pos_eq by lra. unfold rtenth. cbn [ROps rdiv rone rofZ]. unfold Rdiv. rewrite !Rmult_1_l. apply Rinv_le_contravar; [lra|]. apply IZR_le. cbn. lia.
  - intros [|k].
    + rewrite psi0_true by (intros Q; injection Q; lra). rewrite Csin_R. intros Q. injection Q as Q.
      assert (0 < sin (1 / 2))%R by (apply sin_gt_0; [lra|pose proof PI_RGT_0; pose proof PI2_1; lra]). lra.
    + apply psi_nonzero; [intros Q; injection Q; lra|]. rewrite Cmod_R, Rabs_pos_eq, S_INR by lra. pose proof (pos_INR k). lra.
  - intros j. apply zeta_real_nz. lra.
Qed.
