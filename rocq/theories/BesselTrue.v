(** True spherical Bessel functions: derivatives, minimality, and the torch y_n (C24). *)
From Coq Require Import Reals ZArith Lra Lia Bool List Arith.
From Coquelicot Require Import Coquelicot.
From Verif Require Import Ops ROps Spec CLemmas CTrig ComplexDiff ModelSpecial BesselProofs BesselSpec.
Open Scope C_scope.

Ltac nrm := rewrite ?plus_INR, ?mult_INR, ?S_INR; change (INR 0) with 0%R; rewrite ?Rplus_0_l; rewrite ?RtoC_plus, ?RtoC_mult, ?RtoC_plus.

(** ** recurrences *)
Lemma tt_S f0 f1 z n : three_term f0 f1 z (S n) =
  (snd (three_term f0 f1 z n), Cn (2 * n + 3) / z * snd (three_term f0 f1 z n) - fst (three_term f0 f1 z n)).
Proof. cbn [three_term]. now destruct (three_term f0 f1 z n). Qed.
Lemma tt_snd f0 f1 z n : snd (three_term f0 f1 z n) = fst (three_term f0 f1 z (S n)).
Proof. now rewrite tt_S. Qed.
Lemma tt_SS f0 f1 z n : fst (three_term f0 f1 z (S (S n))) =
  Cn (2 * n + 3) / z * fst (three_term f0 f1 z (S n)) - fst (three_term f0 f1 z n).
Proof. rewrite tt_S. cbn [fst]. rewrite tt_S. reflexivity. Qed.

Lemma true_j_rec n (z : C) : true_j (S (S n)) z = Cn (2 * n + 3) / z * true_j (S n) z - true_j n z.
Proof. apply tt_SS. Qed.
Lemma true_y_rec n (z : C) : true_y (S (S n)) z = Cn (2 * n + 3) / z * true_y (S n) z - true_y n z.
Proof. apply tt_SS. Qed.
Lemma true_psi_rec n (z : C) : true_psi (S (S n)) z = Cn (2 * n + 3) / z * true_psi (S n) z - true_psi n z.
Proof. unfold true_psi. rewrite true_j_rec. ring. Qed.
Lemma true_zeta_rec n (z : C) : true_zeta (S (S n)) z = Cn (2 * n + 3) / z * true_zeta (S n) z - true_zeta n z.
Proof. unfold true_zeta. rewrite true_j_rec, true_y_rec. ring. Qed.

(** ** derivatives *)
Section TT.
  Variables F0 F1 : C -> C.
  Hypothesis H0 : forall z : C, z <> 0 -> Cderive F0 z (- F1 z).
  Hypothesis H1 : forall z : C, z <> 0 -> Cderive F1 z (F0 z - Cn 2 / z * F1 z).
  Notation f n z := (fst (three_term (F0 z) (F1 z) z n)).
  Lemma tt_derive n : forall z : C, z <> 0 ->
    Cderive (fun w => f n w) z (Cn n / z * f n z - f (S n) z) /\
    Cderive (fun w => f (S n) w) z (f n z - Cn (n + 2) / z * f (S n) z).
  Proof.
    induction n as [|n IH]; intros z Hz.
    - split.
      + eapply Cderive_val; [|apply H0, Hz]. cbn [three_term fst INR]. unfold Cdiv. ring.
      + apply H1, Hz.
    - destruct (IH z Hz) as [A B]. split.
      + eapply Cderive_val; [|exact B]. rewrite tt_SS.
        nrm. field. exact Hz.
      + apply (Cderive_ext (fun w => Cn (2 * n + 3) * (/ w * f (S n) w) - f n w)).
        { intros w. rewrite tt_SS. unfold Cdiv. ring. }
        eapply Cderive_val; [|apply Cderive_minus; [apply Cderive_scal, Cderive_mult; [apply Cderive_inv, Hz|exact B]|exact A]].
        rewrite tt_SS. nrm. field. exact Hz.
  Qed.
End TT.

Lemma d_over_z f (l : C) (z : C) : z <> 0 -> Cderive f z l -> Cderive (fun w => f w / w) z (l / z - f z / (z * z)).
Proof.
  intros Hz H. eapply Cderive_val; [|apply (Cderive_mult f (fun w => / w)); [exact H|apply Cderive_inv, Hz]].
  field. exact Hz.
Qed.
Lemma d_over_z2 f (l : C) (z : C) : z <> 0 -> Cderive f z l -> Cderive (fun w => f w / (w * w)) z (l / (z * z) - (1 + 1) * f z / (z * z * z)).
Proof.
  intros Hz H. apply (Cderive_ext_loc (fun w => f w / w / w) _ z _ (Cmod z)).
  - now apply Cmod_gt_0.
  - intros w Hw. assert (w <> 0).
    { intros ->. replace (0 - z) with (- z) in Hw by ring. rewrite Cmod_opp in Hw. lra. }
    field. assumption.
  - eapply Cderive_val; [|apply d_over_z; [exact Hz|apply d_over_z; [exact Hz|exact H]]]. cbv beta. field. exact Hz.
Qed.
Lemma dj0 (z : C) : z <> 0 -> Cderive (fun z => Csin z / z) z (- (Csin z / (z * z) - Ccos z / z)).
Proof. intros Hz. eapply Cderive_val; [|apply d_over_z; [exact Hz|apply Cderive_sin]]. field. exact Hz. Qed.
Lemma dj1 (z : C) : z <> 0 -> Cderive (fun z => Csin z / (z * z) - Ccos z / z) z
  (Csin z / z - Cn 2 / z * (Csin z / (z * z) - Ccos z / z)).
Proof.
  intros Hz. eapply Cderive_val; [|apply Cderive_minus; [apply d_over_z2; [exact Hz|apply Cderive_sin]|apply d_over_z; [exact Hz|apply Cderive_cos]]].
  change (INR 2) with (1 + 1)%R. rewrite RtoC_plus. field. exact Hz.
Qed.
Lemma dy0 (z : C) : z <> 0 -> Cderive (fun z => - (Ccos z / z)) z (- (- (Ccos z / (z * z)) - Csin z / z)).
Proof. intros Hz. eapply Cderive_val; [|apply Cderive_opp, d_over_z; [exact Hz|apply Cderive_cos]]. field. exact Hz. Qed.
Lemma dy1 (z : C) : z <> 0 -> Cderive (fun z => - (Ccos z / (z * z)) - Csin z / z) z
  (- (Ccos z / z) - Cn 2 / z * (- (Ccos z / (z * z)) - Csin z / z)).
Proof.
  intros Hz. eapply Cderive_val; [|apply Cderive_minus; [apply Cderive_opp, d_over_z2; [exact Hz|apply Cderive_cos]|apply d_over_z; [exact Hz|apply Cderive_sin]]].
  change (INR 2) with (1 + 1)%R. rewrite RtoC_plus. field. exact Hz.
Qed.
Lemma Cderive_true_j n (z : C) : z <> 0 -> Cderive (true_j (S n)) z (true_j n z - Cn (n + 2) / z * true_j (S n) z).
Proof. intros Hz. exact (proj2 (tt_derive _ _ dj0 dj1 n z Hz)). Qed.
Lemma Cderive_true_j0 (z : C) : z <> 0 -> Cderive (true_j 0) z (- true_j 1 z).
Proof. intros Hz. exact (dj0 z Hz). Qed.
Lemma Cderive_true_y n (z : C) : z <> 0 -> Cderive (true_y (S n)) z (true_y n z - Cn (n + 2) / z * true_y (S n) z).
Proof. intros Hz. exact (proj2 (tt_derive _ _ dy0 dy1 n z Hz)). Qed.
Lemma Cderive_true_y0 (z : C) : z <> 0 -> Cderive (true_y 0) z (- true_y 1 z).
Proof. intros Hz. exact (dy0 z Hz). Qed.
(* Riccati-Bessel: psi_n' = psi_(n-1) - n/z psi_n *)
Lemma d_times_z f (l : C) (z : C) : Cderive f z l -> Cderive (fun w => w * f w) z (f z + z * l).
Proof. intros H. eapply Cderive_val; [|apply Cderive_mult; [apply Cderive_id|exact H]]. cbv beta. match goal with |- ?a = ?b => change (@eq C a b) end. ring. Qed.
Theorem Cderive_true_psi n (z : C) : z <> 0 -> (1 <= n)%nat -> Cderive (true_psi n) z (true_dpsi n z).
Proof.
  intros Hz Hn. destruct n as [|n]; [lia|]. eapply Cderive_val; [|apply d_times_z, Cderive_true_j, Hz].
  unfold true_dpsi, true_psi. replace (S n - 1)%nat with n by lia. nrm. field. exact Hz.
Qed.
Theorem Cderive_true_zeta n (z : C) : z <> 0 -> (1 <= n)%nat -> Cderive (true_zeta n) z (true_dzeta n z).
Proof.
  intros Hz Hn. destruct n as [|n]; [lia|].
  eapply Cderive_val; [|apply d_times_z, Cderive_plus; [apply Cderive_true_j, Hz|apply Cderive_scal, Cderive_true_y, Hz]].
  unfold true_dzeta, true_zeta. replace (S n - 1)%nat with n by lia. nrm. field. exact Hz.
Qed.

(** ** the torch y_n is the true y_n, and f_der its derivative *)
Lemma sph_yn_true (z : C) n : (e10 <= Cmod z)%R -> @sph_yn R ROps z n = true_y n z.
Proof.
  intros Hz. rewrite sph_yn_def by exact Hz.
  assert (E : @yn_pair R ROps z n = three_term (- (Ccos z / z)) (- (Ccos z / (z * z)) - Csin z / z) z n).
  { induction n as [|n IH]; [cbn [yn_pair three_term]; unfold csqr; toCT; f_equal; cring|].
    rewrite yn_pair_S, tt_S. now rewrite IH. }
  unfold true_y. now rewrite E.
Qed.
Theorem fder_yn (z : C) n : (e10 < Cmod z)%R ->
  Cderive (fun w => @sph_yn R ROps w n) z (@f_der_at R ROps z (@sph_yn R ROps z) n).
Proof.
  intros Hz. assert (Hz0 : z <> 0) by (apply (Cmod_pos_neq e10); [apply rtenth_pos|lra]).
  apply (Cderive_ext_loc (true_y n) _ z _ (Cmod z - e10)); [lra| |].
  - intros w Hw. symmetry. apply sph_yn_true.
    pose proof (Cmod_triangle (z - w) w) as T. replace (z - w + w) with z in T by ring.
    replace (z - w) with (- (w - z)) in T by ring. rewrite Cmod_opp in T. lra.
  - destruct n as [|n]; cbn [f_der_at]; toC; rewrite !sph_yn_true by lra; [now apply Cderive_true_y0|].
    eapply Cderive_val; [|apply Cderive_true_y, Hz0]. replace (S n + 1)%nat with (n + 2)%nat by lia. reflexivity.
Qed.
Theorem fder_jn (z : C) n : z <> 0 ->
  Cderive (true_j n) z (@f_der_at R ROps z (fun k => true_j k z) n).
Proof.
  intros Hz. destruct n as [|n]; cbn [f_der_at]; toC; [now apply Cderive_true_j0|].
  eapply Cderive_val; [|apply Cderive_true_j, Hz]. replace (S n + 1)%nat with (n + 2)%nat by lia. reflexivity.
Qed.
