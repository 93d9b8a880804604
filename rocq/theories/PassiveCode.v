(** The code's coefficients of a passive particle, as the recurrence depth grows. *)
From Coq Require Import Reals ZArith Lra Lia Bool List Arith.
From Coquelicot Require Import Coquelicot.
From Verif Require Import Ops ROps Spec StackSpec CLemmas CTrig BesselSpec ConvergeSpec ModelSpecial ModelMie FarFieldProofs PenaProofs StackProofs BesselLimits StackConverge
  ModelNear NearSpec MaxwellSpec NearLimitSpec NearLimit PassiveSpec PassiveStack.
Import ListNotations.
Open Scope C_scope.

Theorem passive_limit n_max n l0 rest : (1 <= n)%nat -> passive_stack (l0 :: rest) -> regular_stack (@eps30 R ROps) l0 rest n ->
  exists a b : C, tends (fun n_add => fst (@pena_ab R ROps n_max n_add l0 rest n)) a /\ tends (fun n_add => snd (@pena_ab R ROps n_max n_add l0 rest n)) b /\
    ((Cmod a)² <= fst a)%R /\ ((Cmod b)² <= fst b)%R.
Proof.
  intros Hn Hp Hs. destruct (passive_well_posed n l0 rest Hn Hp) as (As & HS & _). pose proof (passive_bounds n l0 rest As Hn Hp HS) as [B1 B2]. cbv zeta in B1, B2.
  destruct HS as (K1 & (K2 & K2') & (K3 & K3') & K4). set (ab := exact_ab n l0 rest).
  assert (G : forall tm, fst (pair_of tm (nth (S (length rest)) As amp0)) = sel tm ab).
  { intros tm. destruct (interfaces_of tm n rest l0 As K1 (K4 tm)) as (ABs & G1 & G2).
    assert (Sv : solves tm (true_rf n) (true_rf n) l0 rest (pair_of tm (nth 0 As amp0)) ABs (fst (pair_of tm (nth (S (length rest)) As amp0))) (RtoC 1)).
    { split; [destruct tm; assumption|]. split; [exact G1|]. destruct (pair_of tm (nth (S (length rest)) As amp0)) as [p q] eqn:Ep.
      replace q with (RtoC 1) in G2; [exact G2|]. destruct tm; cbn in Ep; injection Ep as _ <-; symmetry; assumption. }
    apply (exact_unique n Hn tm l0 rest) in Sv; [|exact Hs]. rewrite Sv. fold ab. ring. }
  destruct (stack_tends n_max n Hn l0 rest Hs) as [Ta Tb]. exists (fst ab), (snd ab). split; [exact Ta|]. split; [exact Tb|].
  pose proof (G true) as Gt. pose proof (G false) as Ge. cbn [pair_of fst sel] in Gt, Ge. rewrite <- Gt, <- Ge. split; assumption.
Qed.

Open Scope R_scope.
(* Re a - |a|^2 is continuous *)
Lemma gap_tends (u : nat -> C) (a : C) : tends u a -> forall eps, 0 < eps -> exists M, forall N, (M <= N)%nat ->
  fst a - (Cmod a)² - eps < fst (u N) - (Cmod (u N))².
Proof.
  intros H eps He. pose proof (Cmod_ge_0 a) as A0. set (K := 2 * Cmod a + 2). assert (HK : 0 < K) by (unfold K; lra).
  assert (Hd : 0 < Rmin 1 (eps / K)) by (apply Rmin_glb_lt; [lra|apply Rdiv_lt_0_compat; lra]). destruct (H _ Hd) as [M HM]. exists M. intros N HN. specialize (HM N HN).
  assert (D1 : Cmod (u N - a)%C < 1) by (eapply Rlt_le_trans; [exact HM|apply Rmin_l]). assert (D2 : Cmod (u N - a)%C < eps / K) by (eapply Rlt_le_trans; [exact HM|apply Rmin_r]).
  set (d := (u N - a)%C) in *. pose proof (Cmod_ge_0 d) as D0. assert (E : u N = (a + d)%C) by (unfold d; ring). rewrite E.
  pose proof (Cmod_triangle a d) as T. pose proof (Cmod_ge_0 (a + d)%C) as S0.
  assert (F : - Cmod d <= fst d) by (pose proof (PlaneExp.fst_le d) as Q; apply Rabs_le_between in Q; lra).
  replace (fst (a + d)%C) with (fst a + fst d) by reflexivity. unfold Rsqr.
  assert (Q : Cmod (a + d)%C * Cmod (a + d)%C <= (Cmod a + Cmod d) * (Cmod a + Cmod d)) by (apply Rmult_le_compat; lra).
  assert (W : K * Cmod d < eps) by (apply (Rmult_lt_compat_l K) in D2; [|lra]; replace (K * (eps / K)) with eps in D2 by (field; lra); exact D2).
  unfold K in W. nra.
Qed.
Theorem passive_absorption n_max n l0 rest (k : R) t : (1 <= n)%nat -> k <> 0 -> passive_stack (l0 :: rest) -> regular_stack (@eps30 R ROps) l0 rest n ->
  forall eps, 0 < eps -> exists M, forall n_add, (M <= n_add)%nat ->
    - eps < @cs_abs_multipole R ROps (RtoC k) (fun j => fst (@pena_ab R ROps n_max n_add l0 rest j)) (fun j => snd (@pena_ab R ROps n_max n_add l0 rest j)) t n.
Proof.
  intros Hn Hk Hp Hs eps He. destruct (passive_limit n_max n l0 rest Hn Hp Hs) as (a & b & Ta & Tb & Pa & Pb).
  set (c := 2 * PI / (k * k) * (2 * INR n + 1)). assert (Hc : 0 < c). { unfold c. pose proof PI_RGT_0. pose proof (pos_INR n). apply Rmult_lt_0_compat; [apply Rdiv_lt_0_compat; [lra|nra]|lra]. }
  assert (Ec : 0 < eps / c) by (apply Rdiv_lt_0_compat; lra).
  assert (X : exists M, forall n_add, (M <= n_add)%nat -> - (eps / c) < fst (coefR (fun j => fst (@pena_ab R ROps n_max n_add l0 rest j)) (fun j => snd (@pena_ab R ROps n_max n_add l0 rest j)) t n)
     - (Cmod (coefR (fun j => fst (@pena_ab R ROps n_max n_add l0 rest j)) (fun j => snd (@pena_ab R ROps n_max n_add l0 rest j)) t n))²).
  { destruct t; cbn [coef]; [destruct (gap_tends _ _ Tb _ Ec) as [M HM]|destruct (gap_tends _ _ Ta _ Ec) as [M HM]]; exists M; intros N HN; specialize (HM N HN); cbv beta in HM; lra. }
  destruct X as [M HM]. exists M. intros N HN. specialize (HM N HN).
  pose proof (mp_balance (RtoC k) (fun j => fst (@pena_ab R ROps n_max N l0 rest j)) (fun j => snd (@pena_ab R ROps n_max N l0 rest j)) t n) as Q.
  rewrite cs_ext_mp_real, cs_sca_mp_real in Q by exact Hk. fold c in Q. set (f := coefR _ _ t n) in *.
  apply (Rmult_lt_compat_l c) in HM; [|exact Hc]. replace (c * - (eps / c)) with (- eps) in HM by (field; lra). lra.
Qed.
