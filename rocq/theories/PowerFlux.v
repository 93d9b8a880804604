(** Power carried by the near-field expansions through a sphere. *)
From Coq Require Import Reals ZArith Lra Lia Bool List Arith.
From Coquelicot Require Import Coquelicot.
From Verif Require Import Ops ROps Spec StackSpec CLemmas CTrig ModelSpecial ModelMie AngularProofs FarFieldProofs AngularIntegral BesselSpec BesselTrue ConvergeSpec
  ExampleStack TorchConverge ModelNear NearSpec MaxwellSpec NearExact FarZone PowerSpec.
Import ListNotations.
Open Scope R_scope.

Lemma sum1_mul f g N : sum1 f N * sum1 g N = sum1 (fun n => sum1 (fun m => f n * g m) N) N.
Proof. rewrite Rmult_comm, <- (sum1_scal (sum1 g N)). apply sum1_ext. intros n _. rewrite sum1_scal. ring. Qed.
Lemma dot_csum f g N : dot (csum1 f N) (csum1 g N) = sum1 (fun n => sum1 (fun m => dot (f n) (g m)) N) N.
Proof.
  unfold dot. rewrite !fst_csum1, !snd_csum1, !sum1_mul, <- sum1_plus. apply sum1_ext. intros n _. now rewrite <- sum1_plus.
Qed.
Lemma azimuth A B : is_RInt (fun ph => A * (cos ph * cos ph) + B * (sin ph * sin ph)) 0 (2 * PI) (PI * (A + B)).
Proof.
  replace (PI * (A + B)) with ((fun x => A * (x + sin x * cos x) / 2 + B * (x - sin x * cos x) / 2) (2 * PI) - (fun x => A * (x + sin x * cos x) / 2 + B * (x - sin x * cos x) / 2) 0)
    by (cbv beta; rewrite sin_2PI, sin_0; field).
  apply (is_RInt_derive (fun x => A * (x + sin x * cos x) / 2 + B * (x - sin x * cos x) / 2)).
  - intros x _. auto_derive; [trivial|]. pose proof (AngularIntegral.sc2 x) as Q. match goal with |- ?a = ?b => change (@eq R a b) end.
    transitivity ((A - B) * (1 - sin x * sin x + cos x * cos x) / 2 + B); [field|]. rewrite Q. lra.
  - intros x _. apply (ex_derive_continuous (V := R_NormedModule)). auto_derive. trivial.
Qed.
Section Gen.
  Variables (N : nat) (p q s t : nat -> C).
  Notation P n th := (RtoC (PP n th)). Notation T n th := (RtoC (PT n th)).
  Definition X1 th := csum1 (fun n => T n th * p n - P n th * q n)%C N.
  Definition Y1 th := csum1 (fun n => P n th * s n - T n th * t n)%C N.
  Definition X2 th := csum1 (fun n => P n th * p n - T n th * q n)%C N.
  Definition Y2 th := csum1 (fun n => T n th * s n - P n th * t n)%C N.
  Lemma flux_int : is_RInt (fun th => (dot (X1 th) (Y1 th) + dot (X2 th) (Y2 th)) * sin th) 0 PI
    (sum1 (fun n => - (2 * (INR n * (INR n + 1))² / (2 * INR n + 1)) * (dot (p n) (t n) + dot (q n) (s n))) N).
  Proof.
    apply (is_RInt_ext (fun th => sum1 (fun n => sum1 (fun m =>
        (- (dot (p n) (t m) + dot (q n) (s m))) * ((PP n th * PP m th + PT n th * PT m th) * sin th)
      + (dot (p n) (s m) + dot (q n) (t m)) * ((PP n th * PT m th + PT n th * PP m th) * sin th)) N) N)).
    { intros th _. unfold X1, X2, Y1, Y2. rewrite !dot_csum, <- sum1_plus, Rmult_comm, <- sum1_scal. apply sum1_ext. intros n _.
      rewrite <- sum1_plus, <- sum1_scal. apply sum1_ext. intros m _. unfold dot. cbn [fst snd Cmult Cminus Cplus Copp RtoC]. match goal with |- @eq _ ?a ?b => change (@eq R a b) end. ring. }
    replace (sum1 (fun n => - (2 * (INR n * (INR n + 1))² / (2 * INR n + 1)) * (dot (p n) (t n) + dot (q n) (s n))) N)
      with (sum1 (fun n => sum1 (fun m => (- (dot (p n) (t m) + dot (q n) (s m))) * II n m + (dot (p n) (s m) + dot (q n) (t m)) * 0) N) N).
    - apply is_RInt_sum1. intros n _. apply is_RInt_sum1. intros m _. exact (is_lin _ _ _ _ _ _ (II_is n m) (cross_int n m)).
    - apply sum1_ext. intros n Hn.
      rewrite (sum1_ext _ (fun m => if Nat.eq_dec n m then - (2 * (INR n * (INR n + 1))² / (2 * INR n + 1)) * (dot (p n) (t m) + dot (q n) (s m)) else 0)).
      + rewrite (sum1_delta (fun m => - (2 * (INR n * (INR n + 1))² / (2 * INR n + 1)) * (dot (p n) (t m) + dot (q n) (s m)))) by exact Hn. reflexivity.
      + intros m _. rewrite II_val. destruct (Nat.eq_dec n m); ring.
  Qed.
End Gen.
Open Scope C_scope.
Section Field.
  Variables (k0 mr : R) (E0 : C) (out : bool) (A : nat -> @amps R) (N : nat) (r : R).
  Hypotheses (Hk0 : (0 < k0)%R) (Hm : (0 < mr)%R) (Hr : (0 < r)%R).
  Notation m := (RtoC mr).
  Notation x := (k0 * mr * r)%R.
  Notation rho := (RtoC (k0 * mr * r)).
  Lemma x_pos : (0 < x)%R. Proof. repeat apply Rmult_lt_0_compat; assumption. Qed.
  Lemma rho_nz : rho <> RtoC 0. Proof. intros Q. injection Q. pose proof x_pos. lra. Qed.
  Definition fU n : C := if out then na (A n) * true_zeta n rho else na (A n) * true_zeta n rho - nd (A n) * true_psi n rho.
  Definition fdU n : C := if out then na (A n) * true_dzeta n rho else na (A n) * true_dzeta n rho - nd (A n) * true_dpsi n rho.
  Definition fV n : C := if out then nb (A n) * true_zeta n rho else nb (A n) * true_zeta n rho - nc (A n) * true_psi n rho.
  Definition fdV n : C := if out then nb (A n) * true_dzeta n rho else nb (A n) * true_dzeta n rho - nc (A n) * true_dpsi n rho.
  Notation F n := (@pw_factor R ROps n E0).
  Definition gp n : C := F n * (Ci * fdU n). Definition gq n : C := F n * fV n.
  Definition gs n : C := F n * (Ci * fdV n). Definition gt n : C := F n * fU n.
  Lemma region_parts n th ph :
    let E := @E_region R ROps E0 out (A n) (rad_vsh n false rho th ph) (rad_vsh n true rho th ph) n in
    let H := @H_region R ROps E0 m out (A n) (rad_vsh n false rho th ph) (rad_vsh n true rho th ph) n in
    let P := RtoC (PP n th) in let T := RtoC (PT n th) in
    v2 E = RtoC (cos ph) / rho * (T * gp n - P * gq n) /\ v3 E = - RtoC (sin ph) / rho * (P * gp n - T * gq n) /\
    v2 H = m * RtoC (sin ph) / rho * (T * gs n - P * gt n) /\ v3 H = m * RtoC (cos ph) / rho * (P * gs n - T * gt n).
  Proof.
    pose proof rho_nz as Q. cbv zeta. unfold gp, gq, gs, gt, fU, fdU, fV, fdV, PP, PT, E_region, H_region, rad_vsh, vsh_of, vscale, vsub, vadd, v1, v2, v3.
    cbn [fst snd M_o N_e M_e N_o rsin rcos ROps].
    generalize (true_zeta n rho) (true_dzeta n rho) (true_psi n rho) (true_dpsi n rho) (F n) (na (A n)) (nb (A n)) (nc (A n)) (nd (A n)). intros z dz y dy f a b c d.
    generalize dependent rho. intros q Q.
    toC. generalize (RtoC (INR n)) (RtoC (sin th)) (RtoC (cos ph)) (RtoC (sin ph)). intros u s c1 s1.
    destruct out; cbn [fst snd]; toC; repeat split; match goal with |- ?e = ?g => change (@eq C e g) end; field; exact Q.
  Qed.
  Notation X1' := (X1 N gp gq). Notation Y1' := (Y1 N gs gt). Notation X2' := (X2 N gp gq). Notation Y2' := (Y2 N gs gt).
  Lemma csum_pull (f : nat -> C) (g : nat -> C) c : (forall n, f n = c * g n) -> csum_l (map f (orders N)) = c * csum1 g N.
  Proof.
    intros H. rewrite (map_ext f (fun n => c * g n)) by exact H. rewrite csum_scal. f_equal. exact (csum_seq g N).
  Qed.
  Lemma arg_eq s : RtoC k0 * m * RtoC s = RtoC (k0 * mr * s). Proof. now rewrite !RtoC_mult. Qed.
  Lemma field_parts th ph : let E := true_E k0 m E0 out A N r th ph in let H := true_H k0 m E0 out A N r th ph in
    c_th E = RtoC (cos ph) / rho * X1' th /\ c_ph E = - RtoC (sin ph) / rho * X2' th /\
    c_th H = m * RtoC (sin ph) / rho * Y2' th /\ c_ph H = m * RtoC (cos ph) / rho * Y1' th.
  Proof.
    cbv zeta. unfold true_E, true_H. rewrite arg_eq. unfold rad_E, rad_H.
    change (@c_th) with (@v2 R). change (@c_ph) with (@v3 R).
    rewrite !(proj1 (proj2 (vsum_parts _ _))), !(proj2 (proj2 (vsum_parts _ _))).
    split; [|split; [|split]]; unfold X1, X2, Y1, Y2; apply csum_pull; intros n; destruct (region_parts n th ph) as (B1 & B2 & B3 & B4); [exact B1|exact B2|exact B3|exact B4].
  Qed.
  Lemma poynting_val th ph : poynting_r (true_E k0 m E0 out A N r th ph) (true_H k0 m E0 out A N r th ph) =
    (mr / (x * x) * dot (X1' th) (Y1' th) * (cos ph * cos ph) + mr / (x * x) * dot (X2' th) (Y2' th) * (sin ph * sin ph))%R.
  Proof.
    unfold poynting_r. destruct (field_parts th ph) as (-> & -> & -> & ->). generalize (X1' th) (X2' th) (Y1' th) (Y2' th). intros [a1 a2] [b1 b2] [c1 c2] [d1 d2].
    pose proof x_pos as Hx. generalize dependent x. intros y Hy. unfold Cdiv. rewrite <- RtoC_inv by lra. unfold dot. cbn. field. lra.
  Qed.
  Open Scope R_scope.
  Lemma dot_scale (f u v : C) : dot (f * u)%C (f * v)%C = (Cmod f)² * dot u v.
  Proof. unfold Rsqr. rewrite Cmod_sqr. unfold dot. cbn. ring. Qed.
  Lemma F_mod n : (1 <= n)%nat -> Cmod (F n) = Cmod E0 * wR n.
  Proof.
    intros Hn. pose proof (pw_ang n E0 Hn) as Q. rewrite ang_w_R in Q by exact Hn. apply (f_equal Cmod) in Q. rewrite !Cmod_mult, Cmod_R in Q.
    assert (W : 0 < wR n) by (unfold wR; assert (0 < INR n) by (apply lt_0_INR; lia); apply Rdiv_lt_0_compat; nra).
    rewrite (Rabs_pos_eq (wR n)) in Q by lra. rewrite <- Q. assert (Z : Cmod (Cpow_n (- Ci)%C n) = 1); [|rewrite Z; ring].
    clear. induction n as [|n IH]; [apply Cmod_1|]. cbn [Cpow_n]. rewrite Cmod_mult, IH, Cmod_opp. unfold Cmod, Ci. cbn. replace (0 * (0 * 1) + 1 * (1 * 1)) with 1 by ring. rewrite sqrt_1. ring.
  Qed.
  Definition net (a d : C) : R := (Cmod a)² - (if out then 0 else dot a d).
  Lemma net_val (a d : C) n : (1 <= n)%nat ->
    dot (Ci * (if out then a * true_dzeta n rho else a * true_dzeta n rho - d * true_dpsi n rho))%C (if out then a * true_zeta n rho else a * true_zeta n rho - d * true_psi n rho)%C = - net a d.
  Proof.
    intros Hn. unfold net. rewrite zeta_split, dzeta_split. pose proof (true_wronskian n rho Hn rho_nz) as W. pose proof (realc_true_psi n x) as R1. pose proof (realc_true_dpsi n x) as R2. pose proof (realc_tchi n x) as R3. pose proof (realc_tdchi n x) as R4.
    rewrite (realc_eq _ R1), (realc_eq _ R2), (realc_eq _ R3), (realc_eq _ R4) in W |- *. clear R1 R2 R3 R4.
    revert W. generalize (fst (true_psi n rho)) (fst (true_dpsi n rho)) (fst (tchi n rho)) (fst (tdchi n rho)). intros p p' c c' W.
    rewrite <- !RtoC_mult, <- RtoC_minus in W. injection W as W. unfold Rsqr. rewrite Cmod_sqr. destruct a as [a1 a2], d as [d1 d2]. unfold dot.
    destruct out; cbn; [transitivity (- (a1 * a1 + a2 * a2) * (p * c' - p' * c))|transitivity ((- (a1 * a1 + a2 * a2) + (a1 * d1 + a2 * d2)) * (p * c' - p' * c))]; [ring|rewrite W; ring|ring|rewrite W; ring].
  Qed.
  Lemma dot_sym u v : dot u v = dot v u. Proof. unfold dot. ring. Qed.
  Theorem power_val : sphere_power (true_E k0 m E0 out A N) (true_H k0 m E0 out A N) r
    (mr * (Cmod E0)² * (2 * PI / (k0 * mr * (k0 * mr))) * sum1 (fun n => (2 * INR n + 1) * (net (na (A n)) (nd (A n)) + net (nb (A n)) (nc (A n)))) N).
  Proof.
    exists (fun th => PI * (mr / (x * x) * dot (X1' th) (Y1' th) + mr / (x * x) * dot (X2' th) (Y2' th))). split.
    - intros th. eapply is_RInt_ext; [intros ph _; symmetry; apply poynting_val|]. apply azimuth.
    - pose proof x_pos as Hx.
      pose proof (is_RInt_scal (V := R_NormedModule) _ 0 PI (r * r * PI * (mr / (x * x))) _ (flux_int N gp gq gs gt)) as I.
      apply (is_RInt_ext _ (fun th => r * r * sin th * (PI * (mr / (x * x) * dot (X1' th) (Y1' th) + mr / (x * x) * dot (X2' th) (Y2' th))))) in I.
      + match type of I with is_RInt _ _ _ ?v => replace v with (mr * (Cmod E0)² * (2 * PI / (k0 * mr * (k0 * mr))) * sum1 (fun n => (2 * INR n + 1) * (net (na (A n)) (nd (A n)) + net (nb (A n)) (nc (A n)))) N) in I; [exact I|] end.
        change (@eq R (mr * (Cmod E0)² * (2 * PI / (k0 * mr * (k0 * mr))) * sum1 (fun n => (2 * INR n + 1) * (net (na (A n)) (nd (A n)) + net (nb (A n)) (nc (A n)))) N)
          (r * r * PI * (mr / (x * x)) * sum1 (fun n => - (2 * (INR n * (INR n + 1))² / (2 * INR n + 1)) * (dot (gp n) (gt n) + dot (gq n) (gs n))) N)).
        rewrite <- !sum1_scal. apply sum1_ext. intros n Hn. unfold gp, gt, gq, gs. rewrite (dot_sym (F n * fV n)%C), !dot_scale. unfold fdU, fU, fdV, fV. rewrite !net_val by lia. rewrite F_mod by lia.
        unfold wR, Rsqr. assert (0 < INR n) by (apply lt_0_INR; lia). generalize (net (na (A n)) (nd (A n))) (net (nb (A n)) (nc (A n))). intros u v. field. repeat split; lra.
      + intros th _. unfold scal. cbn. unfold mult. cbn. match goal with |- ?a = ?b => change (@eq R a b) end. ring.
  Qed.
End Field.
Open Scope R_scope.
Theorem scattered_power k0 mr E0 (A : nat -> @amps R) N r : 0 < k0 -> 0 < mr -> 0 < r ->
  sphere_power (true_E k0 (RtoC mr) E0 true A N) (true_H k0 (RtoC mr) E0 true A N) r
    (mr * (Cmod E0)² * @cs_sca R ROps N (RtoC (k0 * mr)) (fun n => na (A n)) (fun n => nb (A n))).
Proof.
  intros H1 H2 H3. pose proof (power_val k0 mr E0 true A N r H1 H2 H3) as I. 
  match type of I with sphere_power _ _ _ ?v => match goal with |- sphere_power _ _ _ ?u => replace u with v; [exact I|] end end.
  rewrite cs_sca_sum, <- sum1_plus, Rmult_assoc, <- sum1_scal. f_equal. apply sum1_ext. intros n Hn. rewrite !cs_sca_mp_real by nra. cbn [coef]. unfold net. field. nra.
Qed.
Theorem absorbed_power k0 mr E0 (A : nat -> @amps R) N r : 0 < k0 -> 0 < mr -> 0 < r -> (forall n, nc (A n) = RtoC 1 /\ nd (A n) = RtoC 1) ->
  sphere_power (true_E k0 (RtoC mr) E0 false A N) (true_H k0 (RtoC mr) E0 false A N) r
    (- (mr * (Cmod E0)² * @cs_abs R ROps N (RtoC (k0 * mr)) (fun n => na (A n)) (fun n => nb (A n)))).
Proof.
  intros H1 H2 H3 HA. pose proof (power_val k0 mr E0 false A N r H1 H2 H3) as I. 
  match type of I with sphere_power _ _ _ ?v => match goal with |- sphere_power _ _ _ ?u => replace u with v; [exact I|] end end.
  rewrite cs_abs_sum, <- sum1_plus, Rmult_assoc, <- sum1_scal, Ropp_mult_distr_r. f_equal. 
  match goal with |- ?a = - ?b => replace (- b) with (-1 * b) by ring end. rewrite <- sum1_scal. apply sum1_ext. intros n Hn.
  destruct (HA n) as [-> ->].
  assert (B : forall ty, @cs_abs_multipole R ROps (RtoC (k0 * mr)) (fun n => na (A n)) (fun n => nb (A n)) ty n
    = 2 * PI / (k0 * mr * (k0 * mr)) * (2 * INR n + 1) * (fst (coefR (fun n => na (A n)) (fun n => nb (A n)) ty n) - (Cmod (coefR (fun n => na (A n)) (fun n => nb (A n)) ty n))²)).
  { intros ty. pose proof (mp_balance (RtoC (k0 * mr)) (fun n => na (A n)) (fun n => nb (A n)) ty n) as Q. rewrite cs_ext_mp_real, cs_sca_mp_real in Q by nra. lra. }
  rewrite !B. cbn [coef]. unfold net, dot. cbn. field. nra.
Qed.
