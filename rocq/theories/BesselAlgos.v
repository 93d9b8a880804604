(** The ratio algorithm and the normalised recurrence compute the same j_n (C25);
    the small-argument branch (C26). *)
From Coq Require Import Reals ZArith Lra Lia Bool List Arith.
From Coquelicot Require Import Coquelicot.
From Verif Require Import Ops ROps Spec CLemmas CTrig ModelSpecial ModelMie BesselProofs TorchLossless.
Import ListNotations.
Open Scope C_scope.

Section Ratio.
  Variables (z : C) (N : nat).
  Notation f := (@jrec_at R ROps z (S N)).
  Hypothesis Hz : z <> RtoC 0.
  Hypothesis Hnz : forall k, (k <= N)%nat -> f k <> RtoC 0.

  Lemma f_down k : (1 <= k <= N)%nat -> f (k - 1) = Cn (2 * k + 1) / z * f k - f (k + 1).
  Proof.
    intros Hk. apply Csub_eq0. pose proof (jrec_recurrence z (S N) k ltac:(lia)) as E.
    transitivity (f (k - 1) + f (k + 1) - Cn (2 * k + 1) / z * f k); [cring|]. rewrite E. cring.
  Qed.
  Lemma r_is_ratio j : (j <= N)%nat -> @r_iter R ROps z N j * f (N - j) = f (N - j + 1).
  Proof.
    induction j as [|j IH]; intros Hj.
    - rewrite Nat.sub_0_r, Nat.add_1_r, jrec_top. cbn [r_iter]. cring.
    - cbn [r_iter]. toC.
      set (k := (N - j)%nat) in *. replace (N - S j)%nat with (k - 1)%nat by lia.
      replace (k - 1 + 1)%nat with k by lia. pose proof (IH ltac:(lia)) as E.
      set (d := Cn (2 * k + 1) / z - @r_iter R ROps z N j).
      assert (Ed : d * f k = f (k - 1)).
      { rewrite f_down by lia. unfold d. rewrite <- E. cring. }
      assert (Hd : d <> RtoC 0).
      { intros H. apply (Hnz (k - 1)); [lia|]. rewrite <- Ed, H. cring. }
      replace (@reqb R ROps (Cmod d) (@rzero R ROps)) with false.
      2:{ symmetry. cbn [reqb rzero ROps]. unfold Reqb. destruct (Req_EM_T (Cmod d) 0) as [E0|E0]; [|reflexivity].
          apply Cmod_eq_0 in E0. contradiction. }
      rewrite <- Ed. cfield. exact Hd.
  Qed.
  Lemma r_at_ratio k : (1 <= k <= N)%nat -> @r_at R ROps z N k * f (k - 1) = f k.
  Proof.
    intros Hk. unfold r_at. pose proof (r_is_ratio (N + 1 - k) ltac:(lia)) as E.
    replace (N - (N + 1 - k))%nat with (k - 1)%nat in E by lia. replace (k - 1 + 1)%nat with k in E by lia. exact E.
  Qed.
  Lemma r_cum_ratio n : (n <= N)%nat -> @r_cum R ROps z N n * f 0 = f n.
  Proof.
    induction n as [|n IH]; intros Hn; [cbn [r_cum]; cring|].
    cbn [r_cum]. rewrite <- (r_at_ratio (S n)) by lia. replace (S n - 1)%nat with n by lia.
    rewrite <- IH by lia. cring.
  Qed.
End Ratio.

Theorem jn_algorithms_agree n_max n_extra (z : C) n :
  (@rtenth R ROps 8 <= Cmod z)%R -> (n <= n_max + n_extra)%nat ->
  (forall k, (k <= n_max + n_extra)%nat -> @jrec_at R ROps z (S (n_max + n_extra)) k <> RtoC 0) ->
  @sph_jn_ratio R ROps n_max n_extra z n = @sph_jn_via_rec R ROps n_max (S n_extra) z n.
Proof.
  intros Hz Hn Hnz.
  assert (Hz10 : (e10 <= Cmod z)%R).
  { apply Rle_trans with (@rtenth R ROps 8); [|exact Hz]. unfold rtenth. cbn [rdiv rone rofZ ROps].
    apply Rmult_le_compat_l; [lra|]. apply Rinv_le_contravar; [apply IZR_lt; now apply Z.ltb_lt|apply IZR_le; now apply Z.leb_le]. }
  assert (H0 : z <> RtoC 0) by (apply (Cmod_pos_neq e10); [apply rtenth_pos|exact Hz10]).
  assert (Hc : @ceqb R ROps z (RtoC 0) = false).
  { unfold ceqb. cbn [reqb ROps RtoC fst snd]. unfold Reqb. destruct (Req_EM_T (fst z) 0) as [E1|E1]; [|reflexivity].
    destruct (Req_EM_T (snd z) 0) as [E2|E2]; [|reflexivity]. exfalso. apply H0. now apply C_eq. }
  rewrite sph_jn_def by exact Hz10. rewrite Nat.add_succ_r.
  unfold sph_jn_ratio. change (@czero R ROps) with (RtoC 0). rewrite Hc.
  toC. cbn [rltb ROps]. rewrite (proj2 (Rltb_false _ _) Hz).
  unfold jn_big. change (@czero R ROps) with (RtoC 0). rewrite Hc. toCT.
  pose proof (r_cum_ratio z (n_max + n_extra) Hnz n Hn) as E.
  pose proof (Hnz 0%nat ltac:(lia)) as Hf0.
  set (f0 := @jrec_at R ROps z (S (n_max + n_extra)) 0) in *.
  rewrite <- E. destruct n; [cbn [r_cum]|]; cfield; split; assumption.
Qed.

(** ** double factorials *)
Lemma zfact_fact n : IZR (zfact n) = INR (fact n).
Proof.
  induction n as [|n IH]; [reflexivity|]. cbn [zfact]. rewrite mult_IZR, IH, <- INR_IZR_INZ.
  change (fact (S n)) with (S n * fact n)%nat. now rewrite mult_INR.
Qed.
Lemma fact_odd n : (INR (fact (2 * n + 1)) = odd_dfact n * 2 ^ n * INR (fact n))%R.
Proof.
  induction n as [|n IH]; [simpl; ring|].
  replace (2 * S n + 1)%nat with (S (S (2 * n + 1))) by lia.
  change (fact (S (S (2 * n + 1)))) with (S (S (2 * n + 1)) * (S (2 * n + 1) * fact (2 * n + 1)))%nat.
  rewrite !mult_INR, IH. cbn [odd_dfact]. change (fact (S n)) with (S n * fact n)%nat. rewrite mult_INR.
  replace (S (S (2 * n + 1))) with (2 * S n + 1)%nat by lia. replace (S (2 * n + 1)) with (2 * S n)%nat by lia.
  rewrite (mult_INR 2). change (INR 2) with (1 + 1)%R. cbn [pow]. ring.
Qed.
Lemma odd_dfact_pos n : (0 < odd_dfact n)%R.
Proof. induction n as [|n IH]; [simpl; lra|]. cbn [odd_dfact]. apply Rmult_lt_0_compat; [apply lt_0_INR; lia|exact IH]. Qed.
Lemma log_dd_eq n : exp (@log_dd R ROps n) = odd_dfact n.
Proof.
  unfold log_dd, lgamma_nat, rsub, rofn. cbn [radd ropp rmul rln rofZ ROps]. rewrite rtwo_R.
  replace (2 * n + 2 - 1)%nat with (2 * n + 1)%nat by lia. replace (n + 1 - 1)%nat with n by lia.
  rewrite !zfact_fact, <- INR_IZR_INZ, fact_odd.
  assert (F : (0 < INR (fact n))%R) by apply lt_0_INR, lt_O_fact.
  pose proof (odd_dfact_pos n). assert (P : (0 < 2 ^ n)%R) by (apply pow_lt; lra).
  rewrite !ln_mult by (try apply Rmult_lt_0_compat; assumption).
  rewrite ln_pow by lra.
  match goal with |- exp ?e = _ => replace e with (ln (odd_dfact n)) by ring end. now apply exp_ln.
Qed.
Theorem jn_small_value n_max n_extra (z : C) n : (Cmod z < @rtenth R ROps 8)%R ->
  @sph_jn_ratio R ROps n_max n_extra z n = Cpow_n z n / RtoC (odd_dfact n).
Proof.
  intros Hz. unfold sph_jn_ratio. change (@czero R ROps) with (RtoC 0).
  assert (D : RtoC (odd_dfact n) <> RtoC 0) by (apply RtoC_neq; pose proof (odd_dfact_pos n); lra).
  destruct (@ceqb R ROps z (RtoC 0)) eqn:Hc.
  - assert (z = RtoC 0) as ->.
    { unfold ceqb in Hc. apply andb_prop in Hc. destruct Hc as [H1 H2]. cbn [reqb ROps] in *. unfold Reqb in *.
      destruct (Req_EM_T (fst z) (fst (RtoC 0))); [|discriminate]. destruct (Req_EM_T (snd z) (snd (RtoC 0))); [|discriminate].
      now apply C_eq. }
    destruct n; cbn [Cpow_n odd_dfact] in *; [|set (d := (INR _ * _)%R) in *]; unfold Cdiv; toC; [field; apply RtoC_neq; lra|].
    rewrite Cmult_0_l, Cmult_0_l. reflexivity.
  - toC. cbn [rltb ROps]. rewrite (proj2 (Rltb_true _ _) Hz). unfold jn_small. toC. cbn [rexp ROps].
    rewrite log_dd_eq. f_equal.
Qed.
Lemma jn_small_zero n_max n_extra n : @sph_jn_ratio R ROps n_max n_extra (RtoC 0) n = RtoC (if Nat.eqb n 0 then 1 else 0).
Proof.
  unfold sph_jn_ratio. change (@czero R ROps) with (RtoC 0).
  replace (@ceqb R ROps (RtoC 0) (RtoC 0)) with true.
  - destruct n; reflexivity.
  - symmetry. unfold ceqb, Reqb. cbn [reqb ROps RtoC fst snd]. unfold Reqb. destruct (Req_EM_T 0 0); [reflexivity|lra].
Qed.
