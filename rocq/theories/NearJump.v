(** Interface conditions of the order-n near fields. *)
From Coq Require Import Reals Lra Lia List Arith Bool.
From Coquelicot Require Import Coquelicot.
From Verif Require Import Ops ROps Spec StackSpec CLemmas CTrig ModelSpecial ModelMie QuietSpec ModelNear NearSpec NearProofs.
Import ListNotations.
Open Scope C_scope.
Section Jump.
  Variables (n_max n_add : nat) (E0 n_env x : C) (th ph : R) (n : nat).
  (* vsh_pena at the radial argument m x, without the 1e-8 shift *)
  Definition vsh_exact (m : C) (kind3 : bool) : @vsh_t R :=
    let rho := m * x in
    let f := if kind3 then @pzeta R ROps n_max n_add rho n else @ppsi R ROps n_max n_add rho n in
    let D := if kind3 then @pD3 R ROps n_max n_add rho n else @pD1 R ROps n_max n_add rho n in
    @vsh_of R ROps th ph n rho (f / rho) (D * (f / rho)).
  Definition E_at (m : C) (A : @amps R) : @vec3 R := @E_region R ROps E0 false A (vsh_exact m false) (vsh_exact m true) n.
  Definition H_at (m : C) (A : @amps R) : @vec3 R := @H_region R ROps E0 (m * n_env) false A (vsh_exact m false) (vsh_exact m true) n.
  Notation rf := (rf_in n_max n_add n).
  Notation F tm m A := (Fld rf (pair_of tm A) (m * x)).
  Notation G tm m A := (dFld rf (pair_of tm A) (m * x)).
  Notation sp := (RtoC (sin ph)). Notation cp := (RtoC (cos ph)). Notation st := (RtoC (sin th)).
  Notation p := (RtoC (@pi_n R ROps (cos th) n)). Notation t := (RtoC (@tau_n R ROps (cos th) n)).
  Notation En := (@pw_factor R ROps n E0).
  Notation nn := (RtoC (INR n) * (RtoC (INR n) + RtoC 1)).
  Lemma inv_prod (m y : C) : m <> RtoC 0 -> y <> RtoC 0 -> / (m * y) = / m * / y.
  Proof. intros Hm Hy. field. split; assumption. Qed.
  Lemma E_parts (m : C) (A : @amps R) : m <> RtoC 0 -> x <> RtoC 0 ->
    @eq C (v1 (E_at m A)) (- (En * Ci * cp * nn * st * p * F true m A * (/ m * / x) * (/ m * / x))) /\
    @eq C (v2 (E_at m A)) (En * cp * (p * (F false m A / m) - Ci * t * (G true m A / m)) / x) /\
    @eq C (v3 (E_at m A)) (- (En * sp * (t * (F false m A / m) - Ci * p * (G true m A / m)) / x)).
  Proof.
    intros Hm Hx. unfold E_at, E_region, vsh_exact, vsh_of, vscale, vsub, vadd, v1, v2, v3, rf_in, Fld, dFld, pair_of, Cdiv. rewrite inv_prod by assumption. cbn [fst snd M_o N_e rf_psi rf_zeta rf_dpsi rf_dzeta rsin rcos ROps].
    generalize (@pD3 R ROps n_max n_add (m * x) n) (@pD1 R ROps n_max n_add (m * x) n) (@pzeta R ROps n_max n_add (m * x) n) (@ppsi R ROps n_max n_add (m * x) n) En (@pi_n R ROps (cos th) n) (@tau_n R ROps (cos th) n).
    intros d3 d1 ze ps e pp tt. destruct A as [a b c d]. cbn [na nb nc nd].
    change (@cdiv R ROps) with (fun u v : C => u * / v). cbv beta. rewrite inv_prod by assumption. toC.
    generalize (/ m) (/ x). intros mi xi. repeat split; ring.
  Qed.
  Lemma H_parts (m : C) (A : @amps R) : m <> RtoC 0 -> x <> RtoC 0 ->
    @eq C (v1 (H_at m A)) (- (m * n_env * En * Ci * sp * nn * st * p * F false m A * (/ m * / x) * (/ m * / x))) /\
    @eq C (v2 (H_at m A)) (m * n_env * En * sp * (p * F true m A - Ci * t * G false m A) * (/ m * / x)) /\
    @eq C (v3 (H_at m A)) (m * n_env * En * cp * (t * F true m A - Ci * p * G false m A) * (/ m * / x)).
  Proof.
    intros Hm Hx. unfold H_at, H_region, vsh_exact, vsh_of, vscale, vsub, vadd, v1, v2, v3, rf_in, Fld, dFld, pair_of, Cdiv. rewrite inv_prod by assumption. cbn [fst snd M_e N_o rf_psi rf_zeta rf_dpsi rf_dzeta rsin rcos ROps].
    generalize (@pD3 R ROps n_max n_add (m * x) n) (@pD1 R ROps n_max n_add (m * x) n) (@pzeta R ROps n_max n_add (m * x) n) (@ppsi R ROps n_max n_add (m * x) n) En (@pi_n R ROps (cos th) n) (@tau_n R ROps (cos th) n).
    intros d3 d1 ze ps e pp tt. destruct A as [a b c d]. cbn [na nb nc nd].
    change (@cdiv R ROps) with (fun u v : C => u * / v). cbv beta. rewrite inv_prod by assumption. toC.
    generalize (/ m) (/ x). intros mi xi. repeat split; ring.
  Qed.
  Lemma scale1 (m K f : C) : m <> RtoC 0 -> x <> RtoC 0 -> m * m * - (K * f * (/ m * / x) * (/ m * / x)) = - (K * f * (/ x * / x)).
  Proof. intros Hm Hx. field. split; assumption. Qed.
  Lemma scale2 (m N e i s' n1 s1 p1 f : C) : m <> RtoC 0 -> x <> RtoC 0 -> - (m * N * e * i * s' * n1 * s1 * p1 * f * (/ m * / x) * (/ m * / x)) = - (N * e * i * s' * n1 * s1 * p1 * (f / m) * (/ x * / x)).
  Proof. intros Hm Hx. field. split; assumption. Qed.
  Lemma scale3 (m N e s' f : C) : m <> RtoC 0 -> x <> RtoC 0 -> m * N * e * s' * f * (/ m * / x) = N * e * s' * f * / x.
  Proof. intros Hm Hx. field. split; assumption. Qed.
  Lemma jump (m m' : C) (A A' : @amps R) : m <> RtoC 0 -> m' <> RtoC 0 -> x <> RtoC 0 ->
    (forall tm, interface_ok tm x rf m (pair_of tm A) rf m' (pair_of tm A')) ->
    (@eq C (v2 (E_at m A)) (v2 (E_at m' A')) /\ @eq C (v3 (E_at m A)) (v3 (E_at m' A')) /\
     @eq C (v2 (H_at m A)) (v2 (H_at m' A')) /\ @eq C (v3 (H_at m A)) (v3 (H_at m' A'))) /\
    (@eq C (m * m * v1 (E_at m A)) (m' * m' * v1 (E_at m' A')) /\ @eq C (v1 (H_at m A)) (v1 (H_at m' A'))).
  Proof.
    intros Hm Hm' Hx Hok. destruct (E_parts m A Hm Hx) as (e1 & e2 & e3). destruct (H_parts m A Hm Hx) as (h1 & h2 & h3).
    destruct (E_parts m' A' Hm' Hx) as (e1' & e2' & e3'). destruct (H_parts m' A' Hm' Hx) as (h1' & h2' & h3').
    pose proof (Hok true) as [T1 T2]. pose proof (Hok false) as [T3 T4]. clear Hok.
    revert e1 e2 e3 h1 h2 h3 e1' e2' e3' h1' h2' h3' T1 T2 T3 T4.
    generalize (F true m A) (F true m' A') (F false m A) (F false m' A') (G true m A) (G true m' A') (G false m A) (G false m' A').
    generalize (v1 (E_at m A)) (v2 (E_at m A)) (v3 (E_at m A)) (v1 (H_at m A)) (v2 (H_at m A)) (v3 (H_at m A)).
    generalize (v1 (E_at m' A')) (v2 (E_at m' A')) (v3 (E_at m' A')) (v1 (H_at m' A')) (v2 (H_at m' A')) (v3 (H_at m' A')).
    generalize En (@pi_n R ROps (cos th) n) (@tau_n R ROps (cos th) n). change (cplx R) with C.
    intros e pp tt E1' E2' E3' H1' H2' H3' E1 E2 E3 H1 H2 H3 f f' g g' u u' w w' e1 e2 e3 h1 h2 h3 e1' e2' e3' h1' h2' h3' T1 T2 T3 T4.
    rewrite e1, e2, e3, h1, h2, h3, e1', e2', e3', h1', h2', h3'. rewrite !scale1, !scale2, !scale3 by assumption. rewrite T1, T2, T3, T4. repeat split; reflexivity.
  Qed.
End Jump.
Lemma near_maxwell n_max n_add (E0 n_env : C) th ph n l rest (ext : @amps R) i : (i <= length rest)%nat ->
  (forall j, (j <= length rest)%nat -> index_at (l :: rest) j <> RtoC 0) -> size_at (l :: rest) i <> RtoC 0 -> quiet_near n_max n_add (l :: rest) n ->
  let As := @near_raw R ROps n_max n_add l rest ext n in let x := size_at (l :: rest) i in
  let E j := E_at n_max n_add E0 x th ph n (index_at (l :: rest) j) (nth j As amp0) in
  let H j := H_at n_max n_add E0 n_env x th ph n (index_at (l :: rest) j) (nth j As amp0) in
  let eps j := index_at (l :: rest) j * index_at (l :: rest) j in
  (@eq C (v2 (E i)) (v2 (E (S i))) /\ @eq C (v3 (E i)) (v3 (E (S i))) /\ @eq C (v2 (H i)) (v2 (H (S i))) /\ @eq C (v3 (H i)) (v3 (H (S i)))) /\
  (@eq C (eps i * v1 (E i)) (eps (S i) * v1 (E (S i))) /\ @eq C (v1 (H i)) (v1 (H (S i)))).
Proof.
  intros Hi Hm Hx Hq As x E H eps.
  refine (jump n_max n_add E0 n_env x th ph n (index_at (l :: rest) i) (index_at (l :: rest) (S i)) (nth i As amp0) (nth (S i) As amp0) _ _ _ _).
  - apply Hm. exact Hi.
  - destruct (Nat.eq_dec i (length rest)) as [->|Hn]; [|apply Hm; lia]. unfold index_at. rewrite nth_overflow by (cbn; lia). apply RtoC_neq. lra.
  - exact Hx.
  - intros tm. exact (near_continuous n_max n_add rest l ext n Hm Hq i Hi tm).
Qed.
