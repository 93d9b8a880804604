(** Limits of the near fields, and their interface conditions. *)
From Coq Require Import Reals Lra Lia List Arith Bool.
From Coquelicot Require Import Coquelicot.
From Verif Require Import Ops ROps Spec StackSpec CLemmas CTrig BesselSpec ConvergeSpec ModelSpecial ModelMie PenaProofs QuietSpec StackProofs
  BesselLimits StackConverge BesselFinal ModelNear NearSpec NearProofs NearField MaxwellSpec NearLimitSpec NearLimit.
Import ListNotations.
Open Scope C_scope.

(** ** interface conditions for arbitrary radial functions *)
Section Jump.
  Variables (E0 n_env x : C) (th ph : R) (n : nat) (rf : radfun).
  Definition vsh_rf (m : C) (kind3 : bool) : @vsh_t R :=
    let rho := m * x in
    @vsh_of R ROps th ph n rho ((if kind3 then rf_zeta rf rho else rf_psi rf rho) / rho) ((if kind3 then rf_dzeta rf rho else rf_dpsi rf rho) / rho).
  Definition Erf (m : C) (A : @amps R) : @vec3 R := @E_region R ROps E0 false A (vsh_rf m false) (vsh_rf m true) n.
  Definition Hrf (m : C) (A : @amps R) : @vec3 R := @H_region R ROps E0 (m * n_env) false A (vsh_rf m false) (vsh_rf m true) n.
  Notation F tm m A := (Fld rf (pair_of tm A) (m * x)).
  Notation G tm m A := (dFld rf (pair_of tm A) (m * x)).
  Notation sp := (RtoC (sin ph)). Notation cp := (RtoC (cos ph)). Notation st := (RtoC (sin th)).
  Notation p := (RtoC (@pi_n R ROps (cos th) n)). Notation t := (RtoC (@tau_n R ROps (cos th) n)).
  Notation En := (@pw_factor R ROps n E0).
  Notation nn := (RtoC (INR n) * (RtoC (INR n) + RtoC 1)).
  Lemma inv_prod (m y : C) : m <> RtoC 0 -> y <> RtoC 0 -> / (m * y) = / m * / y.
  Proof. intros Hm Hy. field. split; assumption. Qed.
  Lemma Erf_parts (m : C) (A : @amps R) : m <> RtoC 0 -> x <> RtoC 0 ->
    @eq C (v1 (Erf m A)) (- (En * Ci * cp * nn * st * p * F true m A * (/ m * / x) * (/ m * / x))) /\
    @eq C (v2 (Erf m A)) (En * cp * (p * (F false m A / m) - Ci * t * (G true m A / m)) / x) /\
    @eq C (v3 (Erf m A)) (- (En * sp * (t * (F false m A / m) - Ci * p * (G true m A / m)) / x)).
  Proof.
    intros Hm Hx. unfold Erf, E_region, vsh_rf, vsh_of, vscale, vsub, vadd, v1, v2, v3, Fld, dFld, pair_of, Cdiv. rewrite inv_prod by assumption. cbn [fst snd M_o N_e rsin rcos ROps].
    generalize (rf_dzeta rf (m * x)) (rf_dpsi rf (m * x)) (rf_zeta rf (m * x)) (rf_psi rf (m * x)) En (@pi_n R ROps (cos th) n) (@tau_n R ROps (cos th) n).
    intros d3 d1 ze ps e pp tt. destruct A as [a b c d]. cbn [na nb nc nd].
    change (@cdiv R ROps) with (fun u v : C => u * / v). cbv beta. rewrite inv_prod by assumption. toC.
    generalize (/ m) (/ x). intros mi xi. repeat split; ring.
  Qed.
  Lemma Hrf_parts (m : C) (A : @amps R) : m <> RtoC 0 -> x <> RtoC 0 ->
    @eq C (v1 (Hrf m A)) (- (m * n_env * En * Ci * sp * nn * st * p * F false m A * (/ m * / x) * (/ m * / x))) /\
    @eq C (v2 (Hrf m A)) (m * n_env * En * sp * (p * F true m A - Ci * t * G false m A) * (/ m * / x)) /\
    @eq C (v3 (Hrf m A)) (m * n_env * En * cp * (t * F true m A - Ci * p * G false m A) * (/ m * / x)).
  Proof.
    intros Hm Hx. unfold Hrf, H_region, vsh_rf, vsh_of, vscale, vsub, vadd, v1, v2, v3, Fld, dFld, pair_of, Cdiv. rewrite inv_prod by assumption. cbn [fst snd M_e N_o rsin rcos ROps].
    generalize (rf_dzeta rf (m * x)) (rf_dpsi rf (m * x)) (rf_zeta rf (m * x)) (rf_psi rf (m * x)) En (@pi_n R ROps (cos th) n) (@tau_n R ROps (cos th) n).
    intros d3 d1 ze ps e pp tt. destruct A as [a b c d]. cbn [na nb nc nd].
    change (@cdiv R ROps) with (fun u v : C => u * / v). cbv beta. rewrite inv_prod by assumption. toC.
    generalize (/ m) (/ x). intros mi xi. repeat split; ring.
  Qed.
  Lemma sc1 (m K f : C) : m <> RtoC 0 -> x <> RtoC 0 -> m * m * - (K * f * (/ m * / x) * (/ m * / x)) = - (K * f * (/ x * / x)).
  Proof. intros Hm Hx. field. split; assumption. Qed.
  Lemma sc2 (m N e i s' n1 s1 p1 f : C) : m <> RtoC 0 -> x <> RtoC 0 -> - (m * N * e * i * s' * n1 * s1 * p1 * f * (/ m * / x) * (/ m * / x)) = - (N * e * i * s' * n1 * s1 * p1 * (f / m) * (/ x * / x)).
  Proof. intros Hm Hx. field. split; assumption. Qed.
  Lemma sc3 (m N e s' f : C) : m <> RtoC 0 -> x <> RtoC 0 -> m * N * e * s' * f * (/ m * / x) = N * e * s' * f * / x.
  Proof. intros Hm Hx. field. split; assumption. Qed.
  Lemma jump_rf (m m' : C) (A A' : @amps R) : m <> RtoC 0 -> m' <> RtoC 0 -> x <> RtoC 0 ->
    (forall tm, interface_ok tm x rf m (pair_of tm A) rf m' (pair_of tm A')) ->
    (@eq C (v2 (Erf m A)) (v2 (Erf m' A')) /\ @eq C (v3 (Erf m A)) (v3 (Erf m' A')) /\
     @eq C (v2 (Hrf m A)) (v2 (Hrf m' A')) /\ @eq C (v3 (Hrf m A)) (v3 (Hrf m' A'))) /\
    (@eq C (m * m * v1 (Erf m A)) (m' * m' * v1 (Erf m' A')) /\ @eq C (v1 (Hrf m A)) (v1 (Hrf m' A'))).
  Proof.
    intros Hm Hm' Hx Hok. destruct (Erf_parts m A Hm Hx) as (e1 & e2 & e3). destruct (Hrf_parts m A Hm Hx) as (h1 & h2 & h3).
    destruct (Erf_parts m' A' Hm' Hx) as (e1' & e2' & e3'). destruct (Hrf_parts m' A' Hm' Hx) as (h1' & h2' & h3').
    pose proof (Hok true) as [T1 T2]. pose proof (Hok false) as [T3 T4]. clear Hok.
    revert e1 e2 e3 h1 h2 h3 e1' e2' e3' h1' h2' h3' T1 T2 T3 T4.
    generalize (F true m A) (F true m' A') (F false m A) (F false m' A') (G true m A) (G true m' A') (G false m A) (G false m' A').
    generalize (v1 (Erf m A)) (v2 (Erf m A)) (v3 (Erf m A)) (v1 (Hrf m A)) (v2 (Hrf m A)) (v3 (Hrf m A)).
    generalize (v1 (Erf m' A')) (v2 (Erf m' A')) (v3 (Erf m' A')) (v1 (Hrf m' A')) (v2 (Hrf m' A')) (v3 (Hrf m' A')).
    generalize En (@pi_n R ROps (cos th) n) (@tau_n R ROps (cos th) n). change (cplx R) with C.
    intros e pp tt E1' E2' E3' H1' H2' H3' E1 E2 E3 H1 H2 H3 f f' g g' u u' w w' e1 e2 e3 h1 h2 h3 e1' e2' e3' h1' h2' h3' T1 T2 T3 T4.
    rewrite e1, e2, e3, h1, h2, h3, e1', e2', e3', h1', h2', h3'. rewrite !sc1, !sc2, !sc3 by assumption. rewrite T1, T2, T3, T4. repeat split; reflexivity.
  Qed.
End Jump.

(* sums over the orders: sum of the parts of the terms *)
Definition csum_l (l : list C) : C := fold_left Cplus l (RtoC 0).
Lemma vsum_parts (f : nat -> @vec3 R) l : v1 (@vsum R ROps (map f l)) = csum_l (map (fun n => v1 (f n)) l) /\
  v2 (@vsum R ROps (map f l)) = csum_l (map (fun n => v2 (f n)) l) /\ v3 (@vsum R ROps (map f l)) = csum_l (map (fun n => v3 (f n)) l).
Proof.
  unfold vsum, csum_l.
  assert (G : forall a : @vec3 R, v1 (fold_left (@vadd R ROps) (map f l) a) = fold_left Cplus (map (fun n => v1 (f n)) l) (v1 a) /\
    v2 (fold_left (@vadd R ROps) (map f l) a) = fold_left Cplus (map (fun n => v2 (f n)) l) (v2 a) /\ v3 (fold_left (@vadd R ROps) (map f l) a) = fold_left Cplus (map (fun n => v3 (f n)) l) (v3 a)).
  { induction l as [|n l IH]; intros a; [repeat split|]. cbn [map fold_left]. apply IH. }
  apply (G (@vzero R ROps)).
Qed.
Lemma csum_scal (c : C) (f : nat -> C) l : csum_l (map (fun n => c * f n) l) = c * csum_l (map f l).
Proof.
  unfold csum_l. assert (G : forall a, fold_left Cplus (map (fun n => c * f n) l) (c * a) = c * fold_left Cplus (map f l) a).
  { induction l as [|n l IH]; intros a; [reflexivity|]. cbn [map fold_left]. rewrite <- IH. f_equal. ring. }
  rewrite <- G. f_equal. ring.
Qed.
(** every order of a solution, and their sums, match at every interface *)
Theorem limit_interfaces (E0 n_env : C) th ph N l0 rest (As : nat -> list (@amps R)) i : (i <= length rest)%nat ->
  (forall j, (j <= S (length rest))%nat -> index_at (l0 :: rest) j <> RtoC 0) -> size_at (l0 :: rest) i <> RtoC 0 ->
  (forall n, (1 <= n <= N)%nat -> near_solution n l0 rest (As n)) ->
  let m j := index_at (l0 :: rest) j in let x := size_at (l0 :: rest) i in
  let E j := rad_E E0 false (fun n => nth j (As n) amp0) N (m j * x) th ph in
  let H j := rad_H (m j * n_env) E0 false (fun n => nth j (As n) amp0) N (m j * x) th ph in
  (c_th (E i) = c_th (E (S i)) /\ c_ph (E i) = c_ph (E (S i)) /\ c_th (H i) = c_th (H (S i)) /\ c_ph (H i) = c_ph (H (S i))) /\
  (m i * m i * c_r (E i) = m (S i) * m (S i) * c_r (E (S i)) /\ c_r (H i) = c_r (H (S i))).
Proof.
  intros Hi Hm Hx Hsol m x E H.
  assert (J : forall n, In n (orders N) ->
    let A j := nth j (As n) amp0 in
    (@eq C (v2 (Erf E0 x th ph n (true_rf n) (m i) (A i))) (v2 (Erf E0 x th ph n (true_rf n) (m (S i)) (A (S i)))) /\ @eq C (v3 (Erf E0 x th ph n (true_rf n) (m i) (A i))) (v3 (Erf E0 x th ph n (true_rf n) (m (S i)) (A (S i)))) /\
     @eq C (v2 (Hrf E0 n_env x th ph n (true_rf n) (m i) (A i))) (v2 (Hrf E0 n_env x th ph n (true_rf n) (m (S i)) (A (S i)))) /\ @eq C (v3 (Hrf E0 n_env x th ph n (true_rf n) (m i) (A i))) (v3 (Hrf E0 n_env x th ph n (true_rf n) (m (S i)) (A (S i))))) /\
    (@eq C (m i * m i * v1 (Erf E0 x th ph n (true_rf n) (m i) (A i))) (m (S i) * m (S i) * v1 (Erf E0 x th ph n (true_rf n) (m (S i)) (A (S i)))) /\ @eq C (v1 (Hrf E0 n_env x th ph n (true_rf n) (m i) (A i))) (v1 (Hrf E0 n_env x th ph n (true_rf n) (m (S i)) (A (S i)))))).
  { intros n Hin A. unfold orders in Hin. apply in_seq in Hin. destruct (Hsol n ltac:(lia)) as (_ & _ & _ & Hok).
    apply jump_rf; [apply Hm; lia|apply Hm; lia|exact Hx|]. intros tm. exact (Hok tm i Hi). }
  unfold E, H, rad_E, rad_H.
  assert (X : forall f g : nat -> C, (forall n, In n (orders N) -> f n = g n) -> csum_l (map f (orders N)) = csum_l (map g (orders N))).
  { intros f g K. f_equal. apply map_ext_in. exact K. }
  change c_r with (@v1 R). change c_th with (@v2 R). change c_ph with (@v3 R).
  rewrite !(proj1 (vsum_parts _ _)), !(proj1 (proj2 (vsum_parts _ _))), !(proj2 (proj2 (vsum_parts _ _))).
  rewrite <- !csum_scal.
  split; [split; [|split; [|split]]|split]; apply X; intros n Hin; apply (J n Hin).
Qed.

(** ** limits of the fields *)
Lemma tv_scale (c : nat -> C) (d : C) u v : tends c d -> tends_vec u v -> tends_vec (fun k => @vscale R ROps (c k) (u k)) (@vscale R ROps d v).
Proof. intros Hc (H1 & H2 & H3). repeat split; cbn [vscale v1 v2 v3 fst snd]; now apply tends_mult. Qed.
Lemma tv_add u v u' v' : tends_vec u v -> tends_vec u' v' -> tends_vec (fun k => @vadd R ROps (u k) (u' k)) (@vadd R ROps v v').
Proof. intros (H1 & H2 & H3) (K1 & K2 & K3). repeat split; cbn [vadd v1 v2 v3 fst snd]; now apply tends_plus. Qed.
Lemma tv_sub u v u' v' : tends_vec u v -> tends_vec u' v' -> tends_vec (fun k => @vsub R ROps (u k) (u' k)) (@vsub R ROps v v').
Proof. intros (H1 & H2 & H3) (K1 & K2 & K3). repeat split; cbn [vsub v1 v2 v3 fst snd]; now apply tends_minus. Qed.
Lemma tv_const v : tends_vec (fun _ => v) v. Proof. repeat split; apply tends_const. Qed.
Lemma tv_sum (u : nat -> nat -> @vec3 R) (v : nat -> @vec3 R) l : (forall n, In n l -> tends_vec (fun k => u k n) (v n)) ->
  tends_vec (fun k => @vsum R ROps (map (u k) l)) (@vsum R ROps (map v l)).
Proof.
  unfold vsum. assert (G : forall a b, (forall n, In n l -> tends_vec (fun k => u k n) (v n)) -> tends_vec a b ->
    tends_vec (fun k => fold_left (@vadd R ROps) (map (u k) l) (a k)) (fold_left (@vadd R ROps) (map v l) b)).
  { induction l as [|n l IH]; intros a b H Hab; [exact Hab|]. cbn [map fold_left]. apply (IH (fun k => @vadd R ROps (a k) (u k n)) (@vadd R ROps b (v n))).
    - intros j Hj. apply H. now right.
    - apply tv_add; [exact Hab|]. apply H. now left. }
  intros H. exact (G (fun _ => vzero) vzero H (tv_const _)).
Qed.
Lemma tv_xyz th ph u v : tends_vec u v -> tends_vec (fun k => @field_to_xyz R ROps th ph (u k)) (@field_to_xyz R ROps th ph v).
Proof.
  intros (H1 & H2 & H3). repeat split; cbn [field_to_xyz v1 v2 v3 fst snd];
    exact (tends_plus _ _ _ _ (tends_plus _ _ _ _ (tends_mult _ _ _ _ H1 (tends_const _)) (tends_mult _ _ _ _ H2 (tends_const _))) (tends_mult _ _ _ _ H3 (tends_const _))).
Qed.
Lemma tv_ext (u u' : nat -> @vec3 R) v : (forall k, u k = u' k) -> tends_vec u' v -> tends_vec u v.
Proof. intros E (H1 & H2 & H3). repeat split; (eapply tends_ev; [exists 0%nat; intros N _; rewrite E; reflexivity|assumption]). Qed.
Definition tends_vsh (u : nat -> @vsh_t R) (V : @vsh_t R) : Prop :=
  tends_vec (fun k => M_o (u k)) (M_o V) /\ tends_vec (fun k => M_e (u k)) (M_e V) /\ tends_vec (fun k => N_o (u k)) (N_o V) /\ tends_vec (fun k => N_e (u k)) (N_e V).
Lemma vsh_tends th ph n (rho : C) (zk dk : nat -> C) (z d : C) : rho <> RtoC 0 -> tends zk z -> tends dk d ->
  tends_vsh (fun k => @vsh_of R ROps th ph n rho (zk k) (dk k)) (@vsh_of R ROps th ph n rho z d).
Proof.
  intros Hr Hz Hd. pose proof (tends_div _ _ _ _ Hr Hz (tends_const rho)) as Hq.
  pose proof (fun c : C => tends_mult _ _ _ _ (tends_const c) Hz) as Z1. pose proof (fun c : C => tends_mult _ _ _ _ (tends_const c) Hd) as D1.
  pose proof (fun c : C => tends_mult _ _ _ _ (tends_const c) Hq) as Q1.
  pose proof (tends_const (RtoC 0)) as T0.
  repeat split; cbn [vsh_of M_o M_e N_o N_e v1 v2 v3 fst snd]; first [exact T0|apply Z1|apply D1|apply Q1|apply tends_opp, Z1|apply tends_opp, D1].
Qed.
Lemma pena_vsh_tends n_max k0 (m : C) r th ph n kind3 : (1 <= n)%nat -> regular_arg e30 (@rho_at R ROps k0 m r) n ->
  tends_vsh (fun k => @vsh_pena R ROps n_max k k0 m r th ph kind3 n) (rad_vsh n kind3 (@rho_at R ROps k0 m r) th ph).
Proof.
  intros Hn Hr. set (rho := @rho_at R ROps k0 m r) in *. pose proof (a_nz _ _ Hr) as Hz. unfold vsh_pena, rad_vsh. fold rho.
  pose proof (a_psi_t n_max _ n Hr n (le_n _)) as Tp. pose proof (a_zeta_t n_max _ n Hr n (le_n _)) as Tz.
  pose proof (a_D1 n_max _ n Hr n) as T1. pose proof (a_D3 n_max _ n Hr n (le_n _)) as T3.
  pose proof (tends_div _ _ _ _ Hz Tp (tends_const rho)) as Tp'. pose proof (tends_div _ _ _ _ Hz Tz (tends_const rho)) as Tz'.
  destruct kind3; apply vsh_tends; try assumption.
  - eapply tends_val; [|exact (tends_mult _ _ _ _ T3 Tz')]. rewrite (a_dzeta _ _ Hr Hn). unfold Cdiv. ring.
  - eapply tends_val; [|exact (tends_mult _ _ _ _ T1 Tp')]. rewrite (a_dpsi _ _ Hr Hn). unfold Cdiv. ring.
Qed.
Lemma region_tends (E0 m : C) out (Ak : nat -> @amps R) A (V1k V3k : nat -> @vsh_t R) V1 V3 n : tends_amps Ak A -> tends_vsh V1k V1 -> tends_vsh V3k V3 ->
  tends_vec (fun k => @E_region R ROps E0 out (Ak k) (V1k k) (V3k k) n) (@E_region R ROps E0 out A V1 V3 n) /\
  tends_vec (fun k => @H_region R ROps E0 m out (Ak k) (V1k k) (V3k k) n) (@H_region R ROps E0 m out A V1 V3 n).
Proof.
  intros (Ta & Tb & Tc & Td) (Mo & Me & No & Ne) (Mo' & Me' & No' & Ne').
  pose proof (fun u l (H : tends u l) => tends_mult _ _ _ _ (tends_const Ci) H) as TI.
  unfold E_region, H_region. destruct out; split; (apply tv_scale; [apply tends_const|]).
  - exact (tv_sub _ _ _ _ (tv_scale _ _ _ _ (TI _ _ Ta) Ne') (tv_scale _ _ _ _ Tb Mo')).
  - exact (tv_add _ _ _ _ (tv_scale _ _ _ _ (TI _ _ Tb) No') (tv_scale _ _ _ _ Ta Me')).
  - exact (tv_sub _ _ _ _ (tv_add _ _ _ _ (tv_sub _ _ _ _ (tv_scale _ _ _ _ Tc Mo) (tv_scale _ _ _ _ (TI _ _ Td) Ne)) (tv_scale _ _ _ _ (TI _ _ Ta) Ne')) (tv_scale _ _ _ _ Tb Mo')).
  - exact (tv_sub _ _ _ _ (tv_sub _ _ _ _ (tv_add _ _ _ _ (tv_scale _ _ _ _ Td Me) (tv_scale _ _ _ _ (TI _ _ Tc) No)) (tv_scale _ _ _ _ (TI _ _ Tb) No')) (tv_scale _ _ _ _ Ta Me')).
Qed.
