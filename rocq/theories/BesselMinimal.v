(** psi_n(z) is the minimal solution of the order recurrence: for every complex
    z <> 0 and every n >= |z|, psi_n(z) <> 0 and |psi_(n+1)(z)| <= |psi_n(z)|. *)
From Coq Require Import Reals ZArith Lra Lia Bool List Arith.
From Coquelicot Require Import Coquelicot.
From Verif Require Import Ops ROps Spec CLemmas CTrig ComplexDiff BesselProofs BesselSpec BesselTrue.
Open Scope R_scope.

(** ** a mean value bound along a ray *)
Lemma Cderive_elim f z l : Cderive f z l -> forall eps, 0 < eps -> exists d, 0 < d /\
  forall h, Cmod h < d -> Cmod (f (z + h) - f z - h * l)%C <= eps * Cmod h.
Proof.
  intros [_ H] eps He. specialize (H z (fun P Q => Q)).
  destruct (H (mkposreal eps He)) as [d Hd].
  exists d. split; [apply cond_pos|]. intros h Hh.
  assert (E : (z + h - z)%C = h) by ring.
  specialize (Hd (z + h)%C). rewrite <- E at 2 3. apply Hd. change (Cmod (z + h - z)%C < d). now rewrite E.
Qed.
Lemma ray_derive (F : C -> C) (u w l : C) (t : R) : Cderive F (w + RtoC t * u)%C l ->
  is_derive (fun s => fst (F (w + RtoC s * u)%C)) t (fst (u * l)%C) /\
  is_derive (fun s => snd (F (w + RtoC s * u)%C)) t (snd (u * l)%C).
Proof.
  intros H. assert (K : forall eps, 0 < eps -> exists d : posreal, forall h, h <> 0 -> Rabs h < d ->
    Cmod ((F (w + RtoC (t + h) * u) - F (w + RtoC t * u)) * / RtoC h - u * l)%C < eps).
  { intros eps He. set (m := Cmod u). assert (Hm : 0 <= m) by apply Cmod_ge_0.
    destruct (Cderive_elim _ _ _ H (eps / (m + 1) / 2)) as (d & Hd & B); [repeat apply Rdiv_lt_0_compat; lra|].
    assert (Hp : 0 < d / (m + 1)) by (apply Rdiv_lt_0_compat; lra).
    exists (mkposreal _ Hp). intros h Hh0 Hh. cbn in Hh.
    assert (Hha : 0 < Rabs h) by now apply Rabs_pos_lt.
    assert (Hhu : Cmod (RtoC h * u)%C < d).
    { rewrite Cmod_mult, Cmod_R. fold m. apply Rle_lt_trans with (Rabs h * (m + 1)); [apply Rmult_le_compat_l; lra|].
      replace d with (d / (m + 1) * (m + 1)) by (field; lra). apply Rmult_lt_compat_r; lra. }
    specialize (B _ Hhu). assert (Hc : RtoC h <> 0%C) by now apply RtoC_neq.
    replace ((F (w + RtoC (t + h) * u) - F (w + RtoC t * u)) * / RtoC h - u * l)%C
      with ((F (w + RtoC t * u + RtoC h * u) - F (w + RtoC t * u) - RtoC h * u * l) * / RtoC h)%C.
    2:{ replace (w + RtoC t * u + RtoC h * u)%C with (w + RtoC (t + h) * u)%C by (rewrite RtoC_plus; ring). field. exact Hc. }
    rewrite Cmod_mult, Cmod_inv, Cmod_R by exact Hc.
    rewrite Cmod_mult, Cmod_R in B. fold m in B.
    apply Rle_lt_trans with (eps / (m + 1) / 2 * m).
    - apply Rle_trans with (eps / (m + 1) / 2 * (Rabs h * m) * / Rabs h).
      + apply Rmult_le_compat_r; [left; now apply Rinv_0_lt_compat|exact B].
      + right. field. split; lra.
    - replace eps with (eps / (m + 1) * (m + 1)) at 2 by (field; lra).
      assert (0 < eps / (m + 1)) by (apply Rdiv_lt_0_compat; lra). nra. }
  assert (Hfst : forall c : C, Rabs (fst c) <= Cmod c) by (intros c; pose proof (Rmax_Cmod c); pose proof (Rmax_l (Rabs (fst c)) (Rabs (snd c))); lra).
  assert (Hsnd : forall c : C, Rabs (snd c) <= Cmod c) by (intros c; pose proof (Rmax_Cmod c); pose proof (Rmax_r (Rabs (fst c)) (Rabs (snd c))); lra).
  split; apply is_derive_Reals; intros eps He; destruct (K eps He) as [d Hd]; exists d; intros h Hh0 Hh;
    specialize (Hd h Hh0 Hh); eapply Rle_lt_trans; [|exact Hd| |exact Hd].
  - eapply Rle_trans; [|apply Hfst]. right. f_equal.
    generalize (F (w + RtoC (t + h) * u)%C), (F (w + RtoC t * u)%C). intros p q. destruct p, q, u, l. cbn. field. exact Hh0.
  - eapply Rle_trans; [|apply Hsnd]. right. f_equal.
    generalize (F (w + RtoC (t + h) * u)%C), (F (w + RtoC t * u)%C). intros p q. destruct p, q, u, l. cbn. field. exact Hh0.
Qed.
Lemma ray_mvt (F dF : C -> C) (u : C) (B : R) :
  (forall w, Cderive F w (dF w)) -> (forall t, 0 <= t <= 1 -> Cmod (u * dF (RtoC t * u))%C <= B) ->
  forall t, 0 <= t <= 1 -> Cmod (F (RtoC t * u) - F 0)%C <= 2 * B.
Proof.
  intros Hd HB t Ht.
  assert (E0 : forall s, (0 + RtoC s * u)%C = (RtoC s * u)%C) by (intros; ring).
  assert (B0 : 0 <= B) by (eapply Rle_trans; [apply Cmod_ge_0|apply (HB 0); lra]).
  pose proof (mvt (fun s => fst (F (0 + RtoC s * u)%C)) (fun s => fst (u * dF (RtoC s * u))%C) B t) as M1.
  pose proof (mvt (fun s => snd (F (0 + RtoC s * u)%C)) (fun s => snd (u * dF (RtoC s * u))%C) B t) as M2.
  assert (Hfst : forall c : C, Rabs (fst c) <= Cmod c) by (intros c; pose proof (Rmax_Cmod c); pose proof (Rmax_l (Rabs (fst c)) (Rabs (snd c))); lra).
  assert (Hsnd : forall c : C, Rabs (snd c) <= Cmod c) by (intros c; pose proof (Rmax_Cmod c); pose proof (Rmax_r (Rabs (fst c)) (Rabs (snd c))); lra).
  cbv beta in M1, M2.
  assert (N1 : Rabs (fst (F (0 + RtoC t * u)%C) - fst (F (0 + RtoC 0 * u)%C)) <= B * t).
  { apply M1; [lra| |].
    - intros s. pose proof (ray_derive F u 0 _ s (Hd _)) as Q. rewrite (E0 s) in Q. apply Q.
    - intros s Hs. eapply Rle_trans; [apply Hfst|apply HB; lra]. }
  assert (N2 : Rabs (snd (F (0 + RtoC t * u)%C) - snd (F (0 + RtoC 0 * u)%C)) <= B * t).
  { apply M2; [lra| |].
    - intros s. pose proof (ray_derive F u 0 _ s (Hd _)) as Q. rewrite (E0 s) in Q. apply Q.
    - intros s Hs. eapply Rle_trans; [apply Hsnd|apply HB; lra]. }
  rewrite E0 in N1, N2. replace (0 + RtoC 0 * u)%C with (RtoC 0) in N1, N2 by ring.
  eapply Rle_trans; [apply Cmod_le_abs|].
  generalize dependent (F (RtoC t * u)%C). generalize (F (RtoC 0)). intros p q N1 N2. destruct p, q. cbn in *.
  replace (r1 + - r)%R with (r1 - r) by ring. replace (r2 + - r0)%R with (r2 - r0) by ring. nra.
Qed.

(** ** F_n = z^(n+1) j_n = z^n psi_n without divisions *)
Fixpoint Fpair (z : C) (n : nat) : C * C :=
  match n with
  | O => (Csin z, Csin z - z * Ccos z)%C
  | S m => let (a, b) := Fpair z m in (b, Cn (2 * m + 3) * b - z * z * a)%C
  end.
Definition Ff n z := fst (Fpair z n).
Lemma Fpair_S z n : Fpair z (S n) = (snd (Fpair z n), Cn (2 * n + 3) * snd (Fpair z n) - z * z * fst (Fpair z n))%C.
Proof. cbn [Fpair]. now destruct (Fpair z n). Qed.
Lemma Ff_SS n z : Ff (S (S n)) z = (Cn (2 * n + 3) * Ff (S n) z - z * z * Ff n z)%C.
Proof. unfold Ff. rewrite Fpair_S. cbn [fst]. rewrite Fpair_S. reflexivity. Qed.
Lemma Ff_0 n : Ff n 0 = 0%C.
Proof.
  assert (S0 : Csin 0 = 0%C) by (unfold Csin; apply C_eq; cbn; rewrite ?Ropp_0, ?sin_0, ?exp_0; unfold Rdiv; ring).
  assert (Ff n 0 = 0%C /\ Ff (S n) 0 = 0%C) as [H _]; [|exact H].
  induction n as [|n [A B]].
  - split; unfold Ff; cbn [Fpair fst]; rewrite ?S0; ring.
  - split; [exact B|]. rewrite Ff_SS, A, B. ring.
Qed.
Lemma Ff_derive n : forall z, Cderive (Ff (S n)) z (z * Ff n z)%C /\ Cderive (Ff (S (S n))) z (z * Ff (S n) z)%C.
Proof.
  induction n as [|n IH]; intros z.
  - assert (A : forall z, Cderive (Ff 1) z (z * Ff 0 z)%C).
    { clear z. intros z. unfold Ff. cbn [Fpair fst].
      eapply Cderive_val; [|apply Cderive_minus; [apply Cderive_sin|apply Cderive_mult; [apply Cderive_id|apply Cderive_cos]]].
      cbv beta. match goal with |- ?a = ?b => change (@eq C a b) end. ring. }
    split; [apply A|].
    apply (Cderive_ext (fun z => Cn 3 * Ff 1 z - z * z * Ff 0 z)%C); [intros; symmetry; apply Ff_SS|].
    eapply Cderive_val; [|apply Cderive_minus; [apply Cderive_scal, A|apply Cderive_mult; [apply Cderive_mult; apply Cderive_id|apply Cderive_sin]]].
    unfold Ff. cbn [Fpair fst]. cbv beta. match goal with |- ?a = ?b => change (@eq C a b) end.
    replace (INR 3) with (1 + 1 + 1) by (cbn; ring). rewrite !RtoC_plus. ring.
  - split; [apply IH|].
    apply (Cderive_ext (fun z => Cn (2 * S n + 3) * Ff (S (S n)) z - z * z * Ff (S n) z)%C); [intros; symmetry; apply Ff_SS|].
    eapply Cderive_val; [|apply Cderive_minus; [apply Cderive_scal, IH|apply Cderive_mult; [apply Cderive_mult; apply Cderive_id|apply IH]]].
    cbv beta. match goal with |- ?a = ?b => change (@eq C a b) end. rewrite !(Ff_SS n). nrm. ring.
Qed.
(* |F_n(t z)| <= (2|z|^2)^n M for 0 <= t <= 1 *)
Lemma Ff_bound (z : C) (M : R) : 0 <= M -> (forall t, 0 <= t <= 1 -> Cmod (Csin (RtoC t * z)%C) <= M) ->
  forall n t, 0 <= t <= 1 -> Cmod (Ff n (RtoC t * z)%C) <= (2 * (Cmod z * Cmod z)) ^ n * M.
Proof.
  intros HM H0 n. induction n as [|n IH]; intros t Ht.
  - unfold Ff. cbn [Fpair fst pow]. rewrite Rmult_1_l. now apply H0.
  - pose proof (ray_mvt (Ff (S n)) (fun w => w * Ff n w)%C z ((Cmod z * Cmod z) * ((2 * (Cmod z * Cmod z)) ^ n * M))) as R.
    rewrite <- (Cmod_opp (Ff (S n) _)), <- Cmod_opp. replace (- - Ff (S n) (RtoC t * z))%C with (Ff (S n) (RtoC t * z) - Ff (S n) 0)%C by (rewrite Ff_0; ring).
    eapply Rle_trans; [apply R; [intros w; apply Ff_derive| |exact Ht]|cbn [pow]; right; ring].
    intros s Hs. rewrite !Cmod_mult, Cmod_R, (Rabs_pos_eq s) by lra.
    pose proof (Cmod_ge_0 z). pose proof (IH s Hs) as B. pose proof (Cmod_ge_0 (Ff n (RtoC s * z)%C)).
    apply Rle_trans with (Cmod z * Cmod z * Cmod (Ff n (RtoC s * z)%C)).
    + assert (0 <= Cmod z * Cmod z) by nra. assert (0 <= Cmod z * Cmod z * Cmod (Ff n (RtoC s * z)%C)) by nra. nra.
    + assert (0 <= Cmod z * Cmod z) by nra. apply Rmult_le_compat_l; assumption.
Qed.
Lemma Ff_psi (z : C) n : z <> 0%C -> Ff n z = (Cpow_n z n * true_psi n z)%C.
Proof.
  intros Hz. assert (Ff n z = (Cpow_n z n * true_psi n z)%C /\ Ff (S n) z = (Cpow_n z (S n) * true_psi (S n) z)%C) as [H _]; [|exact H].
  induction n as [|n [A B]].
  - unfold Ff, true_psi, true_j. cbn [Fpair fst three_term snd Cpow_n]. split; field; exact Hz.
  - split; [exact B|]. rewrite Ff_SS, A, B, true_psi_rec. cbn [Cpow_n]. field. exact Hz.
Qed.

(** ** growth of non-minimal solutions *)
Lemma Cpow_n_mod (z : C) n : Cmod (Cpow_n z n) = Cmod z ^ n.
Proof. induction n as [|n IH]; cbn [Cpow_n pow]; [apply Cmod_1|now rewrite Cmod_mult, IH]. Qed.
Lemma psi_geometric (z : C) : z <> 0%C -> exists M, 0 < M /\ forall n, Cmod (true_psi n z) <= (2 * Cmod z) ^ n * M.
Proof.
  intros Hz. assert (Hm : 0 < Cmod z) by now apply Cmod_gt_0.
  assert (exists M, 0 < M /\ forall t, 0 <= t <= 1 -> Cmod (Csin (RtoC t * z)%C) <= M) as (M & HM & Hs).
  { exists (2 * exp (Cmod z)). split; [pose proof (exp_pos (Cmod z)); lra|]. intros t Ht.
    eapply Rle_trans; [apply Cmod_le_abs|].
    set (w := (RtoC t * z)%C). assert (Hw : Rabs (snd w) <= Cmod z).
    { unfold w. destruct z as [a b]. cbn [snd Cmult RtoC fst]. pose proof (Rmax_Cmod (a, b)) as Q. cbn [fst snd] in Q.
      pose proof (Rmax_r (Rabs a) (Rabs b)). replace (t * b + 0 * a) with (t * b) by ring. rewrite Rabs_mult, (Rabs_pos_eq t) by lra.
      pose proof (Rabs_pos b). nra. }
    assert (forall x, Rabs x <= Cmod z -> exp x <= exp (Cmod z)) as Ex.
    { intros x Hx. destruct (Req_dec x (Cmod z)) as [->|]; [lra|]. left. apply exp_increasing. pose proof (Rle_abs x). lra. }
    pose proof (Ex _ Hw). pose proof (Ex (- snd w)) as E2. rewrite Rabs_Ropp in E2. specialize (E2 Hw).
    pose proof (exp_pos (snd w)). pose proof (exp_pos (- snd w)).
    unfold Csin. cbn [fst snd]. rewrite !Rabs_mult.
    assert (Rabs (sin (fst w)) <= 1) by (apply Rabs_le; pose proof (SIN_bound (fst w)); lra).
    assert (Rabs (cos (fst w)) <= 1) by (apply Rabs_le; pose proof (COS_bound (fst w)); lra).
    assert (Rabs ((exp (snd w) + exp (- snd w)) / 2) <= exp (Cmod z)) by (apply Rabs_le; lra).
    assert (Rabs ((exp (snd w) - exp (- snd w)) / 2) <= exp (Cmod z)) by (apply Rabs_le; lra).
    pose proof (Rabs_pos (sin (fst w))). pose proof (Rabs_pos (cos (fst w))). pose proof (exp_pos (Cmod z)).
    pose proof (Rabs_pos ((exp (snd w) + exp (- snd w)) / 2)). pose proof (Rabs_pos ((exp (snd w) - exp (- snd w)) / 2)).
    nra. }
  exists M. split; [exact HM|]. intros n. pose proof (Ff_bound z M (Rlt_le _ _ HM) Hs n 1 ltac:(lra)) as B.
  rewrite Cmult_1_l in B. rewrite Ff_psi, Cmod_mult, Cpow_n_mod in B by exact Hz.
  assert (P : 0 < Cmod z ^ n) by now apply pow_lt.
  apply (Rmult_le_reg_l _ _ _ P). eapply Rle_trans; [exact B|]. right.
  rewrite !Rpow_mult_distr. ring.
Qed.

Section Growth.
  Variables (z : C) (f : nat -> C).
  Hypothesis Hz : z <> 0%C.
  Hypothesis Hrec : forall n, f (S (S n)) = (Cn (2 * n + 3) / z * f (S n) - f n)%C.
  Let m := Cmod z.
  Lemma m_pos : 0 < m. Proof. now apply Cmod_gt_0. Qed.
  Lemma up_step n : Cmod (f n) <= Cmod (f (S n)) -> (INR (2 * n + 3) / m - 1) * Cmod (f (S n)) <= Cmod (f (S (S n))).
  Proof.
    intros H. rewrite Hrec. pose proof (Cmod_triangle (Cn (2 * n + 3) / z * f (S n) - f n)%C (f n)) as T.
    replace (Cn (2 * n + 3) / z * f (S n) - f n + f n)%C with (Cn (2 * n + 3) / z * f (S n))%C in T by ring.
    rewrite Cmod_mult, Cmod_div, Cmod_R, Rabs_pos_eq in T by (auto using pos_INR). fold m in T.
    pose proof (Cmod_ge_0 (f (S n))). lra.
  Qed.
  Lemma down_step n : Cmod (f (S (S n))) <= Cmod (f (S n)) -> (INR (2 * n + 3) / m - 1) * Cmod (f (S n)) <= Cmod (f n).
  Proof.
    intros H. assert (E : f n = (Cn (2 * n + 3) / z * f (S n) - f (S (S n)))%C) by (rewrite Hrec; ring).
    rewrite E. pose proof (Cmod_triangle (Cn (2 * n + 3) / z * f (S n) - f (S (S n)))%C (f (S (S n)))) as T.
    replace (Cn (2 * n + 3) / z * f (S n) - f (S (S n)) + f (S (S n)))%C with (Cn (2 * n + 3) / z * f (S n))%C in T by ring.
    rewrite Cmod_mult, Cmod_div, Cmod_R, Rabs_pos_eq in T by (auto using pos_INR). fold m in T.
    pose proof (Cmod_ge_0 (f (S n))). lra.
  Qed.
  Lemma coef_ge n c : (c + 1) * m <= INR (2 * n + 3) -> c <= INR (2 * n + 3) / m - 1.
  Proof.
    intros H. pose proof m_pos. assert (c + 1 <= INR (2 * n + 3) / m); [|lra].
    apply (Rmult_le_reg_r m); [assumption|]. unfold Rdiv. rewrite Rmult_assoc, Rinv_l by lra. lra.
  Qed.
  (* once the sequence increases beyond the turning point |z| it keeps increasing *)
  Lemma up_all n : m <= INR n -> Cmod (f n) < Cmod (f (S n)) -> forall k, Cmod (f (n + k)) < Cmod (f (S (n + k))).
  Proof.
    intros Hn H k. induction k as [|k IH]; [now rewrite Nat.add_0_r|].
    replace (n + S k)%nat with (S (n + k)) by lia. eapply Rlt_le_trans; [|apply up_step; lra].
    assert (INR n <= INR (n + k)) by (apply le_INR; lia).
    pose proof m_pos. pose proof (Cmod_ge_0 (f (n + k))).
    assert (Hc : 1 + / m <= INR (2 * (n + k) + 3) / m - 1).
    { apply coef_ge. rewrite plus_INR, mult_INR. change (INR 2) with 2. replace (INR 3) with 3 by (cbn; ring).
      replace ((1 + / m + 1) * m) with (2 * m + 1) by (field; lra). lra. }
    assert (0 < / m) by now apply Rinv_0_lt_compat.
    apply Rlt_le_trans with ((1 + / m) * Cmod (f (S (n + k)))); [|apply Rmult_le_compat_r; lra].
    assert (0 < / m * Cmod (f (S (n + k)))) by (apply Rmult_lt_0_compat; lra). lra.
  Qed.
  Lemma up_geom n c : 0 <= c -> (c + 1) * m <= INR n -> m <= INR n -> Cmod (f n) < Cmod (f (S n)) ->
    forall k, c ^ k * Cmod (f (S n)) <= Cmod (f (S (n + k))).
  Proof.
    intros Hc Hcn Hn H k. induction k as [|k IH]; [rewrite Nat.add_0_r; cbn [pow]; lra|].
    replace (n + S k)%nat with (S (n + k)) by lia. pose proof (up_all n Hn H k) as U.
    eapply Rle_trans; [|apply up_step; lra]. pose proof (pos_INR k).
    assert (INR n <= INR (n + k)) by (apply le_INR; lia).
    assert (c <= INR (2 * (n + k) + 3) / m - 1).
    { apply coef_ge. rewrite plus_INR, mult_INR. change (INR 2) with 2. replace (INR 3) with 3 by (cbn; ring). pose proof (pos_INR (n + k)). lra. }
    cbn [pow]. pose proof (Cmod_ge_0 (f (S (n + k)))). rewrite Rmult_assoc.
    apply Rle_trans with (c * Cmod (f (S (n + k)))); [apply Rmult_le_compat_l; lra|apply Rmult_le_compat_r; lra].
  Qed.
  (* a geometrically bounded solution never increases beyond the turning point *)
  Lemma minimal q M : 0 < q -> 0 < M -> (forall n, Cmod (f n) <= q ^ n * M) ->
    forall n, m <= INR n -> Cmod (f (S n)) <= Cmod (f n).
  Proof.
    intros Hq HM HB n Hn. apply Rnot_lt_le. intros H. pose proof m_pos as Hm.
    destruct (archimed_cor1 (/ ((2 * q + 1) * m + 1))) as (K & HK & HKp).
    { apply Rinv_0_lt_compat. nra. }
    assert (HK' : (2 * q + 1) * m <= INR K).
    { assert (0 < INR K) by now apply lt_0_INR. assert (0 < (2 * q + 1) * m + 1) by nra.
      apply Rnot_lt_le. intros HH. assert (INR K < (2 * q + 1) * m + 1) by lra.
      apply Rinv_lt_contravar in H2; [lra|nra]. }
    set (N := (n + K)%nat).
    assert (HN : m <= INR N) by (eapply Rle_trans; [exact Hn|apply le_INR; unfold N; lia]).
    assert (HNK : (2 * q + 1) * m <= INR N) by (eapply Rle_trans; [exact HK'|apply le_INR; unfold N; lia]).
    pose proof (up_all n Hn H K) as U. fold N in U.
    pose proof (up_geom N (2 * q) ltac:(lra) HNK HN U) as G.
    set (c := Cmod (f (S N))) in *. assert (Hc : 0 < c) by (pose proof (Cmod_ge_0 (f N)); lra).
    set (A := q ^ S N * M). assert (HA : 0 < A) by (apply Rmult_lt_0_compat; [now apply pow_lt|exact HM]).
    assert (F : forall k, 2 ^ k * c <= A).
    { intros k. pose proof (G k) as G1. pose proof (HB (S (N + k))) as B1. replace (S (N + k)) with (S N + k)%nat in B1 at 2 by lia.
      rewrite pow_add in B1. rewrite Rpow_mult_distr in G1. assert (0 < q ^ k) by now apply pow_lt.
      apply (Rmult_le_reg_l (q ^ k)); [assumption|]. unfold A. lra. }
    destruct (Pow_x_infinity 2 ltac:(rewrite Rabs_pos_eq; lra) (A / c + 1)) as [k Hk].
    specialize (Hk k ltac:(lia)). rewrite Rabs_pos_eq in Hk by (apply pow_le; lra).
    specialize (F k). assert (A / c + 1 <= 2 ^ k) by lra.
    assert ((A / c + 1) * c <= A) by (eapply Rle_trans; [apply Rmult_le_compat_r; [lra|exact H0]|exact F]).
    replace ((A / c + 1) * c) with (A + c) in H1 by (field; lra). lra.
  Qed.
  Lemma all_zero n : f n = 0%C -> f (S n) = 0%C -> f 0%nat = 0%C /\ f 1%nat = 0%C.
  Proof.
    induction n as [|n IH]; intros A B; [now split|]. apply IH; [|exact A].
    assert (E : f n = (Cn (2 * n + 3) / z * f (S n) - f (S (S n)))%C) by (rewrite Hrec; ring).
    rewrite E, A, B. ring.
  Qed.
End Growth.

Theorem psi_minimal (z : C) n : z <> 0%C -> Cmod z <= INR n -> Cmod (true_psi (S n) z) <= Cmod (true_psi n z).
Proof.
  intros Hz Hn. destruct (psi_geometric z Hz) as (M & HM & HB).
  apply (minimal z (fun k => true_psi k z) Hz (fun k => true_psi_rec k z) (2 * Cmod z) M); try assumption.
  pose proof (proj1 (Cmod_gt_0 z) Hz). lra.
Qed.
Theorem psi_nonzero (z : C) n : z <> 0%C -> Cmod z <= INR n -> true_psi n z <> 0%C.
Proof.
  intros Hz Hn E. pose proof (psi_minimal z n Hz Hn) as H. rewrite E, Cmod_0 in H.
  assert (E1 : true_psi (S n) z = 0%C) by (apply Cmod_eq_0; pose proof (Cmod_ge_0 (true_psi (S n) z)); lra).
  destruct (all_zero z (fun k => true_psi k z) (fun k => true_psi_rec k z) n E E1) as [A B].
  unfold true_psi, true_j in A, B. cbn [three_term fst snd] in A, B.
  assert (S0 : Csin z = 0%C) by (rewrite <- A; field; exact Hz).
  assert (C0 : Ccos z = 0%C) by (replace (Ccos z) with (- (z * (Csin z / (z * z) - Ccos z / z)) + Csin z / z)%C by (field; exact Hz); rewrite B, S0; unfold Cdiv; ring).
  pose proof (Csin2_Ccos2 z) as T. rewrite S0, C0 in T. apply (RtoC_neq 1 R1_neq_R0). rewrite <- T. now rewrite Cmult_0_l, Cplus_0_l.
Qed.
