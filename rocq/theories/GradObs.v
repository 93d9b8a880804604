(** Square roots, wavenumbers, cross sections and angular amplitudes on dual numbers (C83). *)
From Coq Require Import Reals ZArith Lra Lia List Bool Arith.
From Coquelicot Require Import Coquelicot.
From Verif Require Import Ops ROps Spec CTrig CLemmas ModelSpecial ModelMie ModelGrad GradSpec GradOps GradPena GradStack StackConsequences.
Import ListNotations.
Open Scope R_scope.
Arguments Cmod x%C_scope.
Arguments off z%C_scope.

Lemma Cmod2 (z : C) : Cmod z * Cmod z = fst z * fst z + snd z * snd z.
Proof. unfold Cmod. rewrite sqrt_sqrt; [ring|nra]. Qed.
Lemma csqrt_alt (z : C) : 0 < Cmod z + fst z ->
  @csqrt R ROps z = (sqrt ((Cmod z + fst z) / (1 + 1)), snd z / ((1 + 1) * sqrt ((Cmod z + fst z) / (1 + 1)))).
Proof.
  intros Hp. unfold csqrt. toC. unfold rsub, rtwo. cbn [rsqrt rdiv radd ropp rone rltb rzero ROps].
  set (a := sqrt ((Cmod z + fst z) / (1 + 1))). set (b := sqrt ((Cmod z + - fst z) / (1 + 1))).
  assert (Ha : 0 < a) by (apply sqrt_lt_R0; lra).
  pose proof (Cmod2 z) as M. pose proof (Cmod_ge_0 z) as M0.
  assert (Hb : 0 <= (Cmod z + - fst z) / (1 + 1)) by nra.
  assert (Ea : a * a = (Cmod z + fst z) / (1 + 1)) by (apply sqrt_sqrt; lra).
  assert (Eb : b * b = (Cmod z + - fst z) / (1 + 1)) by (apply sqrt_sqrt; lra).
  assert (Hb0 : 0 <= b) by apply sqrt_pos.
  assert (Eab : (2 * a * b) * (2 * a * b) = snd z * snd z) by (replace ((2 * a * b) * (2 * a * b)) with (4 * (a * a) * (b * b)) by ring; rewrite Ea, Eb; nra).
  f_equal. unfold Rltb. destruct (Rlt_dec (snd z) 0) as [L|L].
  - assert (2 * a * b = - snd z) by (assert (0 <= 2 * a * b) by nra; nra). replace (snd z) with (- (2 * a * b)) by lra. field. lra.
  - assert (2 * a * b = snd z) by (assert (0 <= 2 * a * b) by nra; nra). replace (snd z) with (2 * a * b) by lra. field. lra.
Qed.
Lemma off_cut_pos (z : C) : off_cut z -> 0 < Cmod z + fst z.
Proof.
  intros H. pose proof (Cmod_ge_0 z) as M0. pose proof (Cmod2 z) as M. destruct H as [H|H]; [lra|].
  assert (0 < snd z * snd z) by nra. destruct (Rle_lt_dec (Cmod z + fst z) 0); [nra|lra].
Qed.

Section Obs.
  Variable t0 : R.
  Notation car := (carries t0).
  Notation cc := (ccarries t0).

  Lemma car_unique f d d' : car f d -> car f d' -> d = d'.
  Proof.
    intros [H1 H2] [H3 H4]. destruct d as [a b], d' as [a' b']; cbn in *. f_equal; [congruence|].
    rewrite <- (is_derive_unique _ _ _ H2), <- (is_derive_unique _ _ _ H4). reflexivity.
  Qed.
  Lemma cc_unique f d d' : cc f d -> cc f d' -> d = d'.
  Proof.
    intros [H1 H2] [H3 H4]. pose proof (car_unique _ _ _ H1 H3). pose proof (car_unique _ _ _ H2 H4). destruct d, d'; cbn in *; congruence.
  Qed.
  Lemma car_abs f d : cc f d -> f t0 <> RtoC 0 -> car (fun t => Cmod (f t)) (@cabs dual DOps d).
  Proof.
    intros [H1 H2] Hn. pose proof (norm2_neq _ Hn). unfold cabs, Cmod.
    apply (car_sqrt t0 (fun t => fst (f t) ^ 2 + snd (f t) ^ 2)); [|nra].
    apply (car_add t0 (fun t => fst (f t) ^ 2) (fun t => snd (f t) ^ 2)); now apply car_sqr.
  Qed.
  Lemma cc_sqrt_ex f d : cc f d -> off_cut (f t0) -> exists s, cc (fun t => @csqrt R ROps (f t)) s.
  Proof.
    intros H Ho. pose proof (off_cut_pos _ Ho) as Hp. pose proof H as [H1 H2].
    assert (Hn : f t0 <> RtoC 0). { intros E. rewrite E in Ho. destruct Ho as [Ho|Ho]; cbn in Ho; lra. }
    pose proof (car_abs f d H Hn) as Hm. pose proof (car_add t0 _ _ _ _ Hm H1) as Hs.
    pose proof (car_div t0 _ _ _ _ Hs (car_two t0) ltac:(lra)) as Hh.
    pose proof (car_sqrt t0 _ _ Hh ltac:(cbv beta; lra)) as Ha.
    assert (Ha0 : 0 < sqrt ((Cmod (f t0) + fst (f t0)) / (1 + 1))) by (apply sqrt_lt_R0; lra).
    pose proof (car_div t0 _ _ _ _ H2 (car_mul t0 _ _ _ _ (car_two t0) Ha) ltac:(cbv beta; nra)) as Hb.
    eexists (_, _). apply (cc_loc t0 (fun t => (sqrt ((Cmod (f t) + fst (f t)) / (1 + 1)), snd (f t) / ((1 + 1) * sqrt ((Cmod (f t) + fst (f t)) / (1 + 1)))))).
    - pose proof (car_cont t0 _ _ Hs _ (open_gt 0 _ Hp)) as HL. eapply filter_imp; [|exact HL]. intros t Ht. cbv beta in *.
      symmetry. apply csqrt_alt. exact Ht.
    - split; cbn [fst snd]; eassumption.
  Qed.
  Lemma cc_sqrt f d : cc f d -> off_cut (f t0) -> cc (fun t => @csqrt R ROps (f t)) (dsqrt d).
  Proof.
    intros H Ho. destruct (cc_sqrt_ex f d H Ho) as [s Hs].
    assert (Hn : f t0 <> RtoC 0). { intros E. rewrite E in Ho. destruct Ho as [Ho|Ho]; cbn in Ho; lra. }
    replace (dsqrt d) with s; [exact Hs|].
    assert (E : @cmul dual DOps s s = d).
    { apply (cc_unique f); [|exact H]. eapply cc_ext; [|exact (cc_mul t0 _ _ _ _ Hs Hs)]. intros t. cbv beta. apply csqrt_sqr. }
    pose proof (cc_val t0 _ _ Hs) as V. pose proof (cc_val t0 _ _ H) as Vd. cbv beta in V.
    unfold dsqrt. rewrite <- Vd. set (q := @csqrt R ROps (f t0)) in *.
    assert (Hq : q <> RtoC 0) by (apply csqrt_neq0; exact Hn).
    assert (Et : (dtan d = RtoC 2 * q * dtan s)%C).
    { rewrite <- E, V. unfold dtan, dval. apply CLemmas.C_eq; cbn; ring. }
    assert (Es : (dtan d / (RtoC 2 * q) = dtan s)%C).
    { rewrite Et. field. split; [exact Hq|]. apply RtoC_neq. lra. }
    rewrite Es, V. destruct s as [[? ?] [? ?]]. reflexivity.
  Qed.
  Lemma cl_layer_of k0 env re dk denv dre : car k0 dk -> cc env denv -> carries_shell t0 re dre -> off_cut (env t0) -> off_cut (snd (re t0)) ->
    carries_layer t0 (fun t => @layer_of R ROps (k0 t) (env t) (re t)) (grad_layer dk denv dre).
  Proof.
    intros Hk He [H1 H2] Oe Or. pose proof (cc_sqrt _ _ He Oe) as Hn. pose proof (cc_sqrt _ _ H2 Or) as Hr.
    assert (Hn0 : env t0 <> RtoC 0). { intros E. rewrite E in Oe. destruct Oe as [Oe|Oe]; cbn in Oe; lra. }
    split; cbn [grad_layer layer_of fst snd].
    - apply cc_div; [exact Hr|exact Hn|]. apply csqrt_neq0. exact Hn0.
    - apply cc_mul; [|now apply cc_ofr]. apply cc_mul; [now apply cc_ofr|exact Hn].
  Qed.
  Lemma grad_pena_ok n_max n_add (k0 : R -> R) (env : R -> C) (core : R -> (R * C)%type) (shells : list (R -> (R * C)%type)) dk denv dcore dshells (n : nat) : (1 <= n)%nat ->
    car k0 dk -> cc env denv -> carries_shell t0 core dcore -> Forall2 (carries_shell t0) shells dshells ->
    off_cut (env t0) -> off_cut (snd (core t0)) -> List.Forall (fun s => off_cut (snd (s t0))) shells ->
    let layer := fun (re : R -> (R * C)%type) (t : R) => @layer_of R ROps (k0 t) (env t) (re t) in
    smooth_stack n_max n_add (layer core t0) (map (fun s => layer s t0) shells) n ->
    carries_layer t0 (fun t => @pena_ab R ROps n_max n_add (layer core t) (map (fun s => layer s t) shells) n)
      (grad_pena n_max n_add dk denv dcore dshells n).
  Proof.
    intros Hn Hk He Hc HF Oe Oc Os layer Hs.
    assert (HF' : Forall2 (carries_layer t0) (map layer shells) (map (grad_layer dk denv) dshells)).
    { clear Hs. induction HF as [|s ds shells dshells H1 _ IH]; cbn [map]; constructor.
      - inversion Os; subst. apply cl_layer_of; assumption.
      - inversion Os; subst. apply IH; assumption. }
    pose proof (cl_ab t0 n_max n_add (layer core) (map layer shells) (grad_layer dk denv dcore) (map (grad_layer dk denv) dshells) n Hn
      (cl_layer_of k0 env core dk denv dcore Hk He Hc Oe Oc) HF') as A.
    rewrite map_map in A. specialize (A Hs).
    destruct A as [A B]. split; (eapply cc_ext; [|eassumption]); intros t; cbv beta; rewrite map_map; reflexivity.
  Qed.
  (** ** observables *)
  Lemma cc_csum (l : list nat) (F : R -> nat -> C) (G : nat -> cplx dual) : (forall n, In n l -> cc (fun t => F t n) (G n)) ->
    cc (fun t => @csum R ROps (map (F t) l)) (@csum dual DOps (map G l)).
  Proof.
    intros H. unfold csum. assert (A : forall acc dacc, cc acc dacc -> cc (fun t => fold_left (@cadd R ROps) (map (F t) l) (acc t)) (fold_left (@cadd dual DOps) (map G l) dacc)).
    { induction l as [|n l IH]; intros acc dacc Ha; [exact Ha|]. cbn [map fold_left].
      apply (IH (fun m Hm => H m (or_intror Hm)) (fun t => cadd (acc t) (F t n))). apply cc_add; [exact Ha|]. apply H. now left. }
    apply (A (fun _ => RtoC 0)). apply cc_zero.
  Qed.
  Lemma car_abs2 f d : cc f d -> car (fun t => @rsqr R ROps (Cmod (f t))) (@rsqr dual DOps (@cabs dual DOps d)).
  Proof.
    intros H. pose proof H as [H1 H2].
    assert (Hq : car (fun t => fst (f t) ^ 2 + snd (f t) ^ 2) (@radd dual DOps (@rsqr dual DOps (fst d)) (@rsqr dual DOps (snd d)))).
    { apply (car_add t0 (fun t => fst (f t) ^ 2) (fun t => snd (f t) ^ 2)); now apply car_sqr. }
    assert (E : forall t, fst (f t) ^ 2 + snd (f t) ^ 2 = @rsqr R ROps (Cmod (f t))).
    { intros t. unfold rsqr. cbn [rmul rone ROps]. rewrite Rmult_1_r, Cmod2. ring. }
    destruct (Ceq_dec (f t0) (RtoC 0)) as [Z|Z].
    - apply (car_ext t0 _ _ _ E). eapply car_id_eq; [exact Hq|].
      destruct d as [[a a'] [b b']]. destruct H1 as [A1 _]. destruct H2 as [A2 _]. rewrite Z in A1, A2. cbn in A1, A2. subst a b.
      unfold rsqr, cabs, rsqr. cbn. f_equal; rewrite ?Rmult_0_l, ?Rmult_0_r, ?Rplus_0_l; rewrite ?sqrt_0; ring_simplify; try reflexivity.
    - apply (car_ext t0 (fun t => Cmod (f t) ^ 2)); [intros t; unfold rsqr; cbn; ring|]. apply car_sqr. now apply car_abs.
  Qed.
  Lemma cc_ofn' n : car (fun _ => @rofn R ROps n) (@rofn dual DOps n).
  Proof. unfold rofn. cbn. apply car_const. Qed.

  Section XS.
    Variables (n_max : nat) (k : R -> C) (r : R -> R) (a b : R -> nat -> C).
    Variables (dk : cplx dual) (dr : dual) (da db : nat -> cplx dual).
    Hypothesis Hk : cc k dk.
    Hypothesis Hk0 : k t0 <> RtoC 0.
    Hypothesis Hr : car r dr.
    Hypothesis Hr0 : r t0 <> 0.
    Hypothesis Ha : forall n, (1 <= n <= n_max)%nat -> cc (fun t => a t n) (da n).
    Hypothesis Hb : forall n, (1 <= n <= n_max)%nat -> cc (fun t => b t n) (db n).
    Lemma cc_coef ty n : (1 <= n <= n_max)%nat -> cc (fun t => @coef R (a t) (b t) ty n) (@coef dual da db ty n).
    Proof. intros Hn. unfold coef. destruct ty; auto. Qed.
    Lemma cc_pref : cc (fun t => @prefactor R ROps (k t)) (@prefactor dual DOps dk).
    Proof.
      unfold prefactor. apply (cc_div t0 (fun _ => @cofr R ROps (rmul rtwo rpi))).
      - apply (cc_ofr t0 (fun _ => (1 + 1) * PI)). apply (car_mul t0 (fun _ => 1 + 1)); [apply car_two|apply car_const].
      - now apply cc_csqr.
      - intros E. apply Hk0. destruct (Ceq_dec (k t0) (RtoC 0)) as [Z|Z]; [exact Z|]. exfalso. exact (Cmult_neq_0 _ _ Z Z E).
    Qed.
    Lemma cc_w n : cc (fun t => @cmul R ROps (prefactor (k t)) (cofr (rofn (2 * n + 1)))) (@cmul dual DOps (prefactor dk) (cofr (rofn (2 * n + 1)))).
    Proof. apply cc_mul; [apply cc_pref|]. apply (cc_ofr t0 (fun _ => rofn (2 * n + 1))). apply cc_ofn'. Qed.
    Lemma cc_ext_mp ty n : (1 <= n <= n_max)%nat -> cc (fun t => @cs_ext_mp R ROps (k t) (a t) (b t) ty n) (@cs_ext_mp dual DOps dk da db ty n).
    Proof. intros Hn. unfold cs_ext_mp. apply cc_mul; [apply cc_w|]. apply cc_ofr. apply (cc_re t0 _ _ (cc_coef ty n Hn)). Qed.
    Lemma cc_sca_mp ty n : (1 <= n <= n_max)%nat -> cc (fun t => @cs_sca_mp R ROps (k t) (a t) (b t) ty n) (@cs_sca_mp dual DOps dk da db ty n).
    Proof. intros Hn. unfold cs_sca_mp. apply cc_mul; [apply cc_w|]. apply cc_ofr. apply car_abs2. apply (cc_coef ty n Hn). Qed.
    Lemma cc_abs_mp ty n : (1 <= n <= n_max)%nat -> cc (fun t => @cs_abs_mp R ROps (k t) (a t) (b t) ty n) (@cs_abs_mp dual DOps dk da db ty n).
    Proof. intros Hn. unfold cs_abs_mp. apply cc_sub; [now apply cc_ext_mp|now apply cc_sca_mp]. Qed.
    Lemma car_sum01 (F : R -> bool -> nat -> C) (G : bool -> nat -> cplx dual) : (forall ty n, (1 <= n <= n_max)%nat -> cc (fun t => F t ty n) (G ty n)) ->
      car (fun t => @sum01 R ROps n_max (F t)) (@sum01 dual DOps n_max G).
    Proof.
      intros H. unfold sum01.
      assert (S : forall ty, cc (fun t => @csum R ROps (map (F t ty) (orders n_max))) (@csum dual DOps (map (G ty) (orders n_max)))).
      { intros ty. apply cc_csum. intros n Hn. apply in_seq in Hn. apply H. lia. }
      unfold types, csum at 1 3. cbn [map fold_left].
      exact (cc_re t0 _ _ (cc_add t0 _ _ _ _ (cc_add t0 _ _ _ _ (cc_zero t0) (S false)) (S true))).
    Qed.
    Lemma car_geo : car (fun t => @cs_geo R ROps (r t)) (@cs_geo dual DOps dr).
    Proof. unfold cs_geo. apply (car_mul t0 (fun _ => PI)); [apply car_const|]. apply (car_ext t0 (fun t => r t ^ 2)); [intros t; unfold rsqr; cbn; ring|now apply car_sqr]. Qed.
    Lemma geo_neq : @cs_geo R ROps (r t0) <> 0.
    Proof. unfold cs_geo, rsqr. cbn. pose proof PI_RGT_0. rewrite Rmult_1_r. apply Rmult_integral_contrapositive_currified; [lra|]. now apply Rmult_integral_contrapositive_currified. Qed.
    Lemma car_q : car (fun t => @q_ext R ROps n_max (k t) (r t) (a t) (b t)) (@q_ext dual DOps n_max dk dr da db) /\
      car (fun t => @q_sca R ROps n_max (k t) (r t) (a t) (b t)) (@q_sca dual DOps n_max dk dr da db) /\
      car (fun t => @q_abs R ROps n_max (k t) (r t) (a t) (b t)) (@q_abs dual DOps n_max dk dr da db).
    Proof.
      unfold q_ext, q_sca, q_abs, cs_ext, cs_sca, cs_abs. split; [|split]; (apply car_div; [apply car_sum01; intros ty n Hn|apply car_geo|apply geo_neq]).
      - now apply cc_ext_mp. - now apply cc_sca_mp. - now apply cc_abs_mp.
    Qed.
  End XS.

  Section Ang.
    Variables (n_max : nat) (a b : R -> nat -> C) (th : R -> R).
    Variables (da db : nat -> cplx dual) (dth : dual).
    Hypothesis Hth : car th dth.
    Hypothesis Ha : forall n, (1 <= n <= n_max)%nat -> cc (fun t => a t n) (da n).
    Hypothesis Hb : forall n, (1 <= n <= n_max)%nat -> cc (fun t => b t n) (db n).
    Lemma car_mu : car (fun t => @mu R ROps (th t)) (@mu dual DOps dth). Proof. now apply car_cos. Qed.
    Lemma pi_pair_S {T} {RO : RealOps T} (x : T) m : pi_pair x (S m) =
      (snd (pi_pair x m), rdiv (rsub (rmul (rmul (rofn (2 * S m + 1)) x) (snd (pi_pair x m))) (rmul (rofn (S m + 1)) (fst (pi_pair x m)))) (rofn (S m))).
    Proof. cbn [pi_pair]. destruct (pi_pair x m) as [p q]. reflexivity. Qed.
    Lemma car_pi (x : R -> R) dx n : car x dx -> car (fun t => fst (@pi_pair R ROps (x t) n)) (fst (@pi_pair dual DOps dx n)) /\
      car (fun t => snd (@pi_pair R ROps (x t) n)) (snd (@pi_pair dual DOps dx n)).
    Proof.
      intros Hx. induction n as [|n [I1 I2]]; [split; apply car_const|].
      rewrite pi_pair_S. cbn [fst snd]. split; (eapply car_ext; [intros t; rewrite pi_pair_S; reflexivity|]); cbn [fst snd]; [exact I2|].
      apply (car_div t0 (fun t => @rsub R ROps (rmul (rmul (rofn (2 * S n + 1)) (x t)) (snd (pi_pair (x t) n))) (rmul (rofn (S n + 1)) (fst (pi_pair (x t) n)))) (fun _ => rofn (S n))).
      - apply car_sub; apply car_mul; try assumption; [|apply cc_ofn']. apply (car_mul t0 (fun _ => rofn (2 * S n + 1))); [apply cc_ofn'|exact Hx].
      - apply cc_ofn'.
      - rewrite rofn_R. apply not_0_INR. lia.
    Qed.
    Lemma car_tau (x : R -> R) dx n : car x dx -> car (fun t => @tau_n R ROps (x t) n) (@tau_n dual DOps dx n).
    Proof.
      intros Hx. destruct n as [|n]; [apply car_const|]. unfold tau_n. apply car_sub.
      - apply car_mul; [|apply (car_pi x dx (S n) Hx)]. apply (car_mul t0 (fun _ => rofn (S n))); [apply cc_ofn'|exact Hx].
      - apply (car_mul t0 (fun _ => rofn (S n + 1))); [apply cc_ofn'|apply (car_pi x dx n Hx)].
    Qed.
    Lemma cc_angw n : (1 <= n)%nat -> cc (fun _ => @ang_w R ROps n) (@ang_w dual DOps n).
    Proof.
      intros Hn. apply (cc_ofr t0 (fun _ => @rdiv R ROps (rofn (2 * n + 1)) (rofn (n * (n + 1))))). apply (car_div t0 (fun _ => rofn (2 * n + 1)) (fun _ => rofn (n * (n + 1)))); try apply cc_ofn'.
      rewrite rofn_R. apply not_0_INR. nia.
    Qed.
    Lemma cc_S : cc (fun t => @S1 R ROps n_max (a t) (b t) (th t)) (@S1 dual DOps n_max da db dth) /\
      cc (fun t => @S2 R ROps n_max (a t) (b t) (th t)) (@S2 dual DOps n_max da db dth).
    Proof.
      split; apply cc_csum; intros n Hn; apply in_seq in Hn; (apply (cc_mul t0 (fun _ => @ang_w R ROps n)); [apply cc_angw; lia|]);
        apply cc_add; (apply cc_mul; [(apply Ha || apply Hb); lia|]); apply cc_ofr;
        first [apply (proj1 (car_pi _ _ n car_mu)) | apply (car_tau _ _ n car_mu)].
    Qed.
    Lemma car_int : car (fun t => @i_per R ROps n_max (a t) (b t) (th t)) (@i_per dual DOps n_max da db dth) /\
      car (fun t => @i_par R ROps n_max (a t) (b t) (th t)) (@i_par dual DOps n_max da db dth) /\
      car (fun t => @i_unpol R ROps n_max (a t) (b t) (th t)) (@i_unpol dual DOps n_max da db dth).
    Proof.
      destruct cc_S as [H1 H2]. pose proof (car_abs2 _ _ H1) as A1. pose proof (car_abs2 _ _ H2) as A2.
      split; [exact A1|split; [exact A2|]]. unfold i_unpol. apply (car_div t0 _ (fun _ => 1 + 1)); [now apply car_add|apply car_two|lra].
    Qed.
  End Ang.
End Obs.
