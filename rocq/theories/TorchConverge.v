(** The torch core-shell coefficients converge to the exact ones as the recurrence depth grows. *)
From Coq Require Import Reals ZArith Lra Lia Bool List Arith.
From Coquelicot Require Import Coquelicot.
From Verif Require Import Ops ROps Spec StackSpec CLemmas CTrig ModelSpecial ModelMie BesselProofs
  BesselSpec BesselTrue ConvergeSpec BesselLimits StackConverge TorchSpec TorchProofs ExampleStack TorchLossless BesselFinal.
Open Scope C_scope.
Arguments Cmod x%C_scope.

Ltac tnd := repeat match goal with
  | |- tends (fun k => _ + _) _ => apply tends_plus
  | |- tends (fun k => _ - _) _ => apply tends_minus
  | |- tends (fun k => _ * _) _ => apply tends_mult
  | |- tends (fun k => - _) _ => apply tends_opp
  | H : ?g |- ?g => exact H
  | |- tends (fun k => ?c) ?d => exact (tends_const c)
  end.

Section Cont.
  Variables (rk : nat -> @radial R) (r : @radial R).
  Definition rtends : Prop :=
    (tends (fun k => m1 (rk k)) (m1 r) /\ tends (fun k => m2 (rk k)) (m2 r)) /\
    (tends (fun k => psi_y (rk k)) (psi_y r) /\ tends (fun k => dpsi_y (rk k)) (dpsi_y r) /\
     tends (fun k => xi_y (rk k)) (xi_y r) /\ tends (fun k => dxi_y (rk k)) (dxi_y r)) /\
    (tends (fun k => psi_m1x (rk k)) (psi_m1x r) /\ tends (fun k => dpsi_m1x (rk k)) (dpsi_m1x r)) /\
    (tends (fun k => psi_m2x (rk k)) (psi_m2x r) /\ tends (fun k => dpsi_m2x (rk k)) (dpsi_m2x r) /\
     tends (fun k => chi_m2x (rk k)) (chi_m2x r) /\ tends (fun k => dchi_m2x (rk k)) (dchi_m2x r)) /\
    (tends (fun k => psi_m2y (rk k)) (psi_m2y r) /\ tends (fun k => dpsi_m2y (rk k)) (dpsi_m2y r) /\
     tends (fun k => chi_m2y (rk k)) (chi_m2y r) /\ tends (fun k => dchi_m2y (rk k)) (dchi_m2y r)).
  Hypothesis H : rtends.
  Hypothesis Ha : det_a r <> 0.
  Hypothesis Hb : det_b r <> 0.
  Ltac go := destruct H as ((?&?)&(?&?&?&?)&(?&?)&(?&?&?&?)&(?&?&?&?)).
  Lemma t_Xa : tends (fun k => Xa (rk k)) (Xa r). Proof. go. unfold Xa. tnd. Qed.
  Lemma t_Ya : tends (fun k => Ya (rk k)) (Ya r). Proof. go. unfold Ya. tnd. Qed.
  Lemma t_Xb : tends (fun k => Xb (rk k)) (Xb r). Proof. go. unfold Xb. tnd. Qed.
  Lemma t_Yb : tends (fun k => Yb (rk k)) (Yb r). Proof. go. unfold Yb. tnd. Qed.
  Lemma t_da : tends (fun k => det_a (rk k)) (det_a r).
  Proof. pose proof t_Xa. pose proof t_Ya. go. unfold det_a. tnd. Qed.
  Lemma t_db : tends (fun k => det_b (rk k)) (det_b r).
  Proof. pose proof t_Xb. pose proof t_Yb. go. unfold det_b. tnd. Qed.
  Lemma ev_da : ev (fun k => det_a (rk k) <> 0).
  Proof. eapply ev_mono; [|apply (tends_away _ _ 0 t_da); now apply Cmod_gt_0]. cbv beta. intros k. apply Cmod_gt_0. Qed.
  Lemma ev_db : ev (fun k => det_b (rk k) <> 0).
  Proof. eapply ev_mono; [|apply (tends_away _ _ 0 t_db); now apply Cmod_gt_0]. cbv beta. intros k. apply Cmod_gt_0. Qed.
  Ltac coef cl evd td := rewrite cl by assumption;
    eapply tends_ev; [eapply ev_mono; [|exact evd]; cbv beta; intros k Hk; symmetry; exact (cl _ Hk)|];
    pose proof t_Xa; pose proof t_Xb; pose proof t_Ya; pose proof t_Yb; pose proof td; go;
    apply tends_div; [assumption| |assumption]; tnd.
  Lemma coef_tends :
    let ck k := @miecoef_core R ROps (rk k) in let c := @miecoef_core R ROps r in
    (tends (fun k => an (ck k)) (an c) /\ tends (fun k => gn (ck k)) (gn c) /\ tends (fun k => wn (ck k)) (wn c) /\ tends (fun k => dn (ck k)) (dn c)) /\
    (tends (fun k => bn (ck k)) (bn c) /\ tends (fun k => fn (ck k)) (fn c) /\ tends (fun k => vn (ck k)) (vn c) /\ tends (fun k => cn (ck k)) (cn c)).
  Proof.
    cbv zeta. split; (split; [|split; [|split]]).
    - coef an_closed ev_da t_da.
    - coef gn_closed ev_da t_da.
    - coef wn_closed ev_da t_da.
    - coef dn_closed ev_da t_da.
    - coef bn_closed ev_db t_db.
    - coef fn_closed ev_db t_db.
    - coef vn_closed ev_db t_db.
    - coef cn_closed ev_db t_db.
  Qed.
End Cont.

(* arguments at which the torch Bessel routines are meaningful *)
Definition miller_arg (z : C) : Prop := (@rtenth R ROps 10 <= Cmod z)%R /\ Csin z <> RtoC 0.

Section One.
  Variables (n_max n : nat) (z : C).
  Hypothesis Hn : (1 <= n)%nat.
  Hypothesis Hz : miller_arg z.
  Let J k := @sph_jn_via_rec R ROps n_max k z.
  Let Y := @sph_yn R ROps z.
  Lemma o_nz : z <> 0. Proof. apply (Cmod_pos_neq e10); [apply rtenth_pos|apply Hz]. Qed.
  Lemma t_j i : tends (fun k => J k i) (true_j i z). Proof. apply miller_limit; apply Hz. Qed.
  Lemma y_true i : Y i = true_y i z. Proof. apply sph_yn_true, Hz. Qed.
  Lemma fder_eq (f : nat -> C) : @f_der_at R ROps z f n = f (n - 1)%nat - RtoC (INR (n + 1)) / z * f n.
  Proof. clear -Hn. destruct n as [|m]; [lia|]. cbn [f_der_at]. rewrite Nat.sub_succ, Nat.sub_0_r. toC. reflexivity. Qed.
  Lemma dpsi_alg (f : nat -> C) : f n + z * @f_der_at R ROps z f n = z * f (n - 1)%nat - RtoC (INR n) / z * (z * f n).
  Proof. rewrite fder_eq, plus_INR, RtoC_plus. change (INR 1) with 1%R. cfield. apply o_nz. Qed.
  Lemma t_psi : tends (fun k => z * J k n) (true_psi n z).
  Proof. unfold true_psi. apply tends_mult; [apply tends_const|apply t_j]. Qed.
  Lemma t_dpsi : tends (fun k => J k n + z * @f_der_at R ROps z (J k) n) (true_dpsi n z).
  Proof.
    apply (tends_ev (fun k => z * J k (n - 1)%nat - RtoC (INR n) / z * (z * J k n))).
    - exists 0%nat. intros k _. symmetry. exact (dpsi_alg (J k)).
    - pose proof (t_j n). pose proof (t_j (n - 1)). unfold true_dpsi, true_psi. tnd.
  Qed.
  Lemma e_zeta_psi : true_zeta n z - true_psi n z = Ci * (z * Y n).
  Proof. rewrite y_true. unfold true_zeta, true_psi. ring. Qed.
  Lemma t_xi : tends (fun k => z * (J k n + Ci * Y n)) (true_zeta n z).
  Proof. rewrite y_true. unfold true_zeta. pose proof (t_j n). tnd. Qed.
  Lemma t_dxi : tends (fun k => (J k n + Ci * Y n) + z * (@f_der_at R ROps z (J k) n + Ci * @f_der_at R ROps z Y n)) (true_dzeta n z).
  Proof.
    apply (tends_ev (fun k => (z * J k (n - 1)%nat - RtoC (INR n) / z * (z * J k n)) + Ci * (z * Y (n - 1)%nat - RtoC (INR n) / z * (z * Y n)))).
    - exists 0%nat. intros k _. symmetry.
      transitivity ((J k n + z * @f_der_at R ROps z (J k) n) + Ci * (Y n + z * @f_der_at R ROps z Y n)); [cring|].
      now rewrite (dpsi_alg (J k)), (dpsi_alg Y).
    - pose proof (t_j n). pose proof (t_j (n - 1)). unfold true_dzeta, true_zeta.
      apply (tends_val _ (z * true_j (n - 1) z - RtoC (INR n) / z * (z * true_j n z) + Ci * (z * true_y (n - 1) z - RtoC (INR n) / z * (z * true_y n z)))); [unfold Cdiv; ring|].
      rewrite !y_true. tnd.
  Qed.
  Lemma t_chi : - z * Y n = Ci * (true_zeta n z - true_psi n z).
  Proof. rewrite e_zeta_psi. transitivity ((Ci * Ci) * (z * Y n)); [rewrite Ci_sqr|]; cring. Qed.
  Lemma t_dchi : - Y n - z * @f_der_at R ROps z Y n = Ci * (true_dzeta n z - true_dpsi n z).
  Proof.
    transitivity (- (Y n + z * @f_der_at R ROps z Y n)); [cring|]. rewrite (dpsi_alg Y), !y_true.
    unfold true_dzeta, true_dpsi, true_zeta, true_psi.
    transitivity ((Ci * Ci) * (z * true_y (n - 1) z - RtoC (INR n) / z * (z * true_y n z))); [rewrite Ci_sqr; ring|unfold Cdiv; ring].
  Qed.
End One.

Theorem torch_limit n_max n (x y mc ms : C) : (1 <= n)%nat ->
  miller_arg y -> miller_arg (mc * x) -> miller_arg (ms * x) -> miller_arg (ms * y) ->
  let r := radial_from (true_rf n) (true_rf n) mc ms x y in
  det_a r <> RtoC 0 -> det_b r <> RtoC 0 ->
  let ck k := @miecoef_torch R ROps n_max (fun _ => k) x y mc ms n in
  exists a b c d f g v w : C,
    (tends (fun k => an (ck k)) a /\ tends (fun k => gn (ck k)) g /\ tends (fun k => wn (ck k)) w /\ tends (fun k => dn (ck k)) d) /\
    (tends (fun k => bn (ck k)) b /\ tends (fun k => fn (ck k)) f /\ tends (fun k => vn (ck k)) v /\ tends (fun k => cn (ck k)) c) /\
    tm_system r a g w d /\ te_system r b f v c /\
    (forall a' g' w' d', tm_system r a' g' w' d' -> a' = a /\ g' = g /\ w' = w /\ d' = d) /\
    (forall b' f' v' c', te_system r b' f' v' c' -> b' = b /\ f' = f /\ v' = v /\ c' = c).
Proof.
  intros Hn Hy H1x H2x H2y r Ha Hb ck.
  assert (T : rtends (fun k => @radial_of R ROps (fun z => @sph_jn_via_rec R ROps n_max k z) (@sph_yn R ROps) x y mc ms n) r).
  { unfold rtends, r, radial_from. cbn [radial_of m1 m2 psi_y dpsi_y xi_y dxi_y psi_m1x dpsi_m1x psi_m2x dpsi_m2x chi_m2x dchi_m2x psi_m2y dpsi_m2y chi_m2y dchi_m2y true_rf rf_psi rf_zeta rf_dpsi rf_dzeta h1_of]. toC.
    repeat split.
    all: try exact (tends_const _).
    all: try (apply t_psi; assumption). all: try (apply t_dpsi; assumption).
    all: try (apply t_xi; assumption). all: try (apply t_dxi; assumption).
    all: try (rewrite <- (t_chi n) by assumption; exact (tends_const _)).
    all: try (rewrite <- (t_dchi n) by assumption; exact (tends_const _)). }
  destruct (coef_tends _ r T Ha Hb) as [TA TB].
  set (c := @miecoef_core R ROps r) in *.
  exists (an c), (bn c), (cn c), (dn c), (fn c), (gn c), (vn c), (wn c).
  split; [exact TA|]. split; [exact TB|]. split; [exact (tm_solves r Ha)|]. split; [exact (te_solves r Hb)|].
  split; [intros; now apply tm_unique|intros; now apply te_unique].
Qed.

(** ** for real arguments the exact determinants never vanish *)
Lemma realc_tt (f0 f1 z : C) n : realc f0 -> realc f1 -> realc z ->
  realc (fst (three_term f0 f1 z n)) /\ realc (snd (three_term f0 f1 z n)).
Proof.
  intros H0 H1 Hz. induction n as [|n [A B]]; [now split|]. cbn [three_term]. destruct (three_term f0 f1 z n) as [a b]. cbn [fst snd] in *.
  split; [exact B|]. apply realc_minus; [|exact A]. apply realc_mult; [|exact B]. apply realc_div; [apply realc_R|exact Hz].
Qed.
Ltac rlc := repeat match goal with
  | |- realc (RtoC _) => apply realc_R
  | |- realc (_ - _) => apply realc_minus
  | |- realc (_ * _) => apply realc_mult
  | |- realc (_ / _) => apply realc_div
  | |- realc (- _) => apply realc_opp
  | |- realc (Csin _) => apply realc_sin
  | |- realc (Ccos _) => apply realc_cos
  end.
Lemma realc_true_j n (t : R) : realc (true_j n (RtoC t)).
Proof. unfold true_j. apply realc_tt; rlc. Qed.
Lemma realc_true_y n (t : R) : realc (true_y n (RtoC t)).
Proof. unfold true_y. apply realc_tt; rlc. Qed.
Lemma realc_true_psi n (t : R) : realc (true_psi n (RtoC t)).
Proof. unfold true_psi. rlc. apply realc_true_j. Qed.
Lemma realc_true_dpsi n (t : R) : realc (true_dpsi n (RtoC t)).
Proof. unfold true_dpsi. rlc; apply realc_true_psi. Qed.
(* zeta = psi + i chi with chi real *)
Definition tchi n (z : C) := z * true_y n z.
Definition tdchi n (z : C) := tchi (n - 1) z - RtoC (INR n) / z * tchi n z.
Lemma realc_tchi n (t : R) : realc (tchi n (RtoC t)).
Proof. unfold tchi. rlc. apply realc_true_y. Qed.
Lemma realc_tdchi n (t : R) : realc (tdchi n (RtoC t)).
Proof. unfold tdchi. rlc; apply realc_tchi. Qed.
Lemma zeta_split n z : true_zeta n z = true_psi n z + Ci * tchi n z.
Proof. unfold true_zeta, true_psi, tchi. ring. Qed.
Lemma dzeta_split n z : true_dzeta n z = true_dpsi n z + Ci * tdchi n z.
Proof. unfold true_dzeta, true_dpsi, tdchi. rewrite !zeta_split. unfold Cdiv. ring. Qed.
Lemma true_wronskian n (z : C) : (1 <= n)%nat -> z <> 0 -> true_psi n z * tdchi n z - true_dpsi n z * tchi n z = 1.
Proof.
  intros Hn Hz. pose proof (true_casoratian z (n - 1) Hz) as E. replace (S (n - 1)) with n in E by lia. rewrite !zeta_split in E.
  unfold tdchi, true_dpsi. transitivity (Ci * (true_psi (n - 1) z * (true_psi n z + Ci * tchi n z) - true_psi n z * (true_psi (n - 1) z + Ci * tchi (n - 1) z))).
  - transitivity (- (Ci * Ci) * (true_psi n z * tchi (n - 1) z - true_psi (n - 1) z * tchi n z)); [rewrite Ci_sqr; unfold Cdiv; ring|ring].
  - rewrite E. transitivity (- (Ci * Ci)); [ring|rewrite Ci_sqr; ring].
Qed.
Lemma re_split (a b : C) : realc a -> realc b -> fst (a + Ci * b) = fst a /\ RtoC (snd (a + Ci * b)) = b.
Proof. intros Ha Hb. rewrite (realc_eq a Ha), (realc_eq b Hb). split; [|f_equal]; cbn; ring. Qed.
Lemma chi_form n z : Ci * (true_zeta n z - true_psi n z) = - tchi n z.
Proof. rewrite zeta_split. transitivity ((Ci * Ci) * tchi n z); [ring|rewrite Ci_sqr; ring]. Qed.
Lemma dchi_form n z : Ci * (true_dzeta n z - true_dpsi n z) = - tdchi n z.
Proof. rewrite dzeta_split. transitivity ((Ci * Ci) * tdchi n z); [ring|rewrite Ci_sqr; ring]. Qed.

Theorem exact_nonsingular n (x y mc ms : R) : (1 <= n)%nat -> x <> 0%R -> y <> 0%R -> mc <> 0%R -> ms <> 0%R ->
  let r := radial_from (true_rf n) (true_rf n) (RtoC mc) (RtoC ms) (RtoC x) (RtoC y) in
  det_a r <> RtoC 0 /\ det_b r <> RtoC 0.
Proof.
  intros Hn Hx Hy Hmc Hms r.
  assert (Hrr : real_radial r).
  { unfold r, radial_from. constructor; cbn [m1 m2 psi_y dpsi_y xi_y dxi_y psi_m1x dpsi_m1x psi_m2x dpsi_m2x chi_m2x dchi_m2x psi_m2y dpsi_m2y chi_m2y dchi_m2y true_rf rf_psi rf_zeta rf_dpsi rf_dzeta];
    rewrite <- ?RtoC_mult, ?chi_form, ?dchi_form, ?zeta_split, ?dzeta_split; try (apply realc_R); try apply realc_opp;
    try apply realc_true_psi; try apply realc_true_dpsi; try apply realc_tchi; try apply realc_tdchi;
    try (apply re_split; [apply realc_true_psi || apply realc_true_dpsi|apply realc_tchi || apply realc_tdchi]). }
  assert (W : forall t : R, t <> 0%R -> true_psi n (RtoC t) * tdchi n (RtoC t) - true_dpsi n (RtoC t) * tchi n (RtoC t) <> 0).
  { intros t Ht. rewrite true_wronskian by (exact Hn || now apply RtoC_neq). apply RtoC_neq. lra. }
  assert (Wc : forall t : R, t <> 0%R -> true_psi n (RtoC t) * (Ci * (true_dzeta n (RtoC t) - true_dpsi n (RtoC t))) - true_dpsi n (RtoC t) * (Ci * (true_zeta n (RtoC t) - true_psi n (RtoC t))) <> 0).
  { intros t Ht. rewrite chi_form, dchi_form. intros E. apply (W t Ht). replace (RtoC 0) with (- RtoC 0) by ring. rewrite <- E. ring. }
  assert (Wy : RtoC (fst (xi_y r)) * RtoC (snd (dxi_y r)) - RtoC (fst (dxi_y r)) * RtoC (snd (xi_y r)) <> RtoC 0).
  { cbn [r radial_from xi_y dxi_y true_rf rf_zeta rf_dzeta]. rewrite zeta_split, dzeta_split.
    destruct (re_split (true_psi n (RtoC y)) (tchi n (RtoC y)) (realc_true_psi n y) (realc_tchi n y)) as [-> ->].
    destruct (re_split (true_dpsi n (RtoC y)) (tdchi n (RtoC y)) (realc_true_dpsi n y) (realc_tdchi n y)) as [-> ->].
    rewrite <- (realc_eq _ (realc_true_psi n y)), <- (realc_eq _ (realc_true_dpsi n y)). exact (W y Hy). }
  assert (W2y : psi_m2y r * dchi_m2y r - dpsi_m2y r * chi_m2y r <> RtoC 0).
  { cbn [r radial_from psi_m2y dchi_m2y dpsi_m2y chi_m2y true_rf rf_psi rf_zeta rf_dpsi rf_dzeta]. rewrite <- RtoC_mult.
    apply Wc. now apply Rmult_integral_contrapositive_currified. }
  assert (W2x : psi_m2x r * dchi_m2x r - dpsi_m2x r * chi_m2x r <> RtoC 0).
  { cbn [r radial_from psi_m2x dchi_m2x dpsi_m2x chi_m2x true_rf rf_psi rf_zeta rf_dpsi rf_dzeta]. rewrite <- RtoC_mult.
    apply Wc. now apply Rmult_integral_contrapositive_currified. }
  assert (W1x : psi_m1x r <> RtoC 0 \/ dpsi_m1x r <> RtoC 0).
  { cbn [r radial_from psi_m1x dpsi_m1x true_rf rf_psi rf_dpsi]. rewrite <- RtoC_mult.
    pose proof (W (mc * x)%R ltac:(now apply Rmult_integral_contrapositive_currified)) as K.
    destruct (Ceq_dec (true_psi n (RtoC (mc * x))) 0) as [E|E]; [|now left]. right. intros E2. apply K. rewrite E, E2. ring. }
  assert (Hm1 : m1 r <> RtoC 0) by (cbn; now apply RtoC_neq).
  assert (Hm2 : m2 r <> RtoC 0) by (cbn; now apply RtoC_neq).
  split; [now apply det_a_nz|now apply det_b_nz].
Qed.
