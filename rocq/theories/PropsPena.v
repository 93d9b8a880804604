(** Properties C09-C14, C16: Pena/Yang recurrences and layered-sphere coefficients. *)
From Coq Require Import Reals ZArith Lra Lia List.
From Coquelicot Require Import Coquelicot.
From Verif Require Import Ops ROps Spec StackSpec CLemmas CTrig ModelSpecial ModelMie PenaProofs QuietSpec
  StackProofs StackConsequences ExampleStack.
Import ListNotations.
Open Scope C_scope.

(** C09: the four sequences returned by pena_D1_n, pena_D3_n and pena_psi_zeta_n
    are mutually consistent, for every depth n_add. *)
Theorem C09_consistency : forall (n_max n_add : nat) (z : C) (n : nat),
  (1 <= n <= n_max + n_add)%nat -> quiet_arg n_max n_add z n ->
  let D1 := @pD1 R ROps n_max n_add z in let D3 := @pD3 R ROps n_max n_add z in
  let psi := @ppsi R ROps n_max n_add z in let zeta := @pzeta R ROps n_max n_add z in
  psi 0%nat = Csin z /\ zeta 0%nat = Csin z - Ci * Ccos z /\
  psi n * (D1 n + RtoC (INR n) / z) = psi (n - 1)%nat /\
  (D3 n - D1 n) * (psi n * zeta n) = Ci /\
  ((2 <= n)%nat -> zeta n * (D3 n + RtoC (INR n) / z) = zeta (n - 1)%nat).
Proof. exact consistency_all. Qed.
Print Assumptions C09_consistency.
Example C09_instance : quiet_arg 1 15 (RtoC (3/4)) 1 /\ (1 <= 1 <= 1 + 15)%nat.
Proof. destruct at_curr as (d & _ & _ & H & _). split; [exact H|lia]. Qed.

(** C10: Q_n is the ratio of radial functions. *)
Theorem C10_interface_ratio : forall (n_max n_add : nat) (z1 z2 x1 x2 : C) (n : nat),
  (1 <= n <= n_max + n_add)%nat ->
  quiet_arg n_max n_add z1 n -> quiet_arg n_max n_add z2 n -> quiet_ratio n_max n_add z1 z2 x2 n ->
  x1 * z2 = x2 * z1 ->
  let psi z := @ppsi R ROps n_max n_add z n in let zeta z := @pzeta R ROps n_max n_add z n in
  @pQ R ROps n_max n_add z1 z2 x1 x2 n = (psi z1 * zeta z2) / (zeta z1 * psi z2) /\
  zeta z1 * psi z2 <> RtoC 0.
Proof. exact ratio_all. Qed.
Print Assumptions C10_interface_ratio.
Example C10_instance : quiet_arg 1 15 (RtoC (3/8)) 1 /\ quiet_arg 1 15 (RtoC (3/4)) 1 /\
  quiet_ratio 1 15 (RtoC (3/8)) (RtoC (3/4)) (RtoC (1/2)) 1 /\
  RtoC (1/4) * RtoC (3/4) = RtoC (1/2) * RtoC (3/8).
Proof.
  destruct at_prev as (d & _ & _ & H & _). destruct at_curr as (e & _ & _ & H' & _).
  split; [exact H|]. split; [exact H'|]. split; [exact ex_ratio_quiet|].
  rewrite <- !RtoC_mult. f_equal. lra.
Qed.

(** C11: the coefficients solve the boundary-value problem of the layered sphere,
    for any number of layers, both polarisations ([tm = true]: a_n, false: b_n). *)
Theorem C11_boundary_conditions : forall (n_max n_add : nat) (tm : bool) (l0 : C * C) (rest : list (C * C)) (n : nat),
  (1 <= n <= n_max + n_add)%nat ->
  quiet_stack n_max n_add l0 rest n ->
  (n = 1%nat -> @pD1 R ROps n_max n_add (snd (last rest l0)) 0 <> Ci) ->
  exists AB0 amps, solves tm (rf_in n_max n_add n) (rf_out n_max n_add n) l0 rest AB0 amps
    ((if tm then fst else snd) (@pena_ab R ROps n_max n_add l0 rest n)) 1.
Proof. exact boundary_exists. Qed.
Print Assumptions C11_boundary_conditions.
(** C11: and they are the only ones that do. *)
Theorem C11_only_solution : forall (n_max n_add : nat) (tm : bool) (l0 : C * C) (rest : list (C * C)) (n : nat)
    (AB0 : C * C) (amps : list (C * C)) (scattered incident : C),
  (1 <= n <= n_max + n_add)%nat ->
  quiet_stack n_max n_add l0 rest n ->
  solves tm (rf_in n_max n_add n) (rf_out n_max n_add n) l0 rest AB0 amps scattered incident ->
  scattered = (if tm then fst else snd) (@pena_ab R ROps n_max n_add l0 rest n) * incident.
Proof. exact boundary_unique. Qed.
Print Assumptions C11_only_solution.
(** the order-1 side condition holds for every real outer size parameter *)
Theorem C11_real_size_ok : forall (n_max n_add : nat) (x : R) (n : nat),
  @pD1 R ROps n_max n_add (RtoC x) n <> Ci.
Proof. exact D1_real_neq_i. Qed.
Print Assumptions C11_real_size_ok.
(* two different materials: core m = 2, x = 1/4, shell m = 3/2, x = 1/2 *)
Example C11_instance : quiet_stack 1 15 ex_core [ex_shell] 1 /\
  (1%nat = 1%nat -> @pD1 R ROps 1 15 (snd (last [ex_shell] ex_core)) 0 <> Ci) /\ fst ex_core <> fst ex_shell.
Proof.
  split; [exact ex_quiet|]. split; [intros _; apply D1_real_neq_i|].
  cbn. intros H. apply RtoC_inj' in H. lra.
Qed.

(** C12 *)
Theorem C12_homogeneous : forall (n_max n_add : nat) (m x : C) (n : nat),
  (1 <= n <= n_max + n_add)%nat -> quiet_stack n_max n_add (m, x) [] n ->
  let D := @pD1 R ROps n_max n_add (m * x) n in
  let psi := @ppsi R ROps n_max n_add x in let zeta := @pzeta R ROps n_max n_add x in
  let ta := D / m + RtoC (INR n) / x in let tb := m * D + RtoC (INR n) / x in
  @pena_ab R ROps n_max n_add (m, x) [] n =
    ((ta * psi n - psi (n - 1)%nat) / (ta * zeta n - zeta (n - 1)%nat),
     (tb * psi n - psi (n - 1)%nat) / (tb * zeta n - zeta (n - 1)%nat)).
Proof. exact homogeneous_formula. Qed.
Print Assumptions C12_homogeneous.
Theorem C12_textbook_quotient : forall (n_max n_add : nat) (m x : C) (n : nat),
  (1 <= n <= n_max + n_add)%nat -> quiet_stack n_max n_add (m, x) [] n ->
  let rfi := rf_in n_max n_add n in let rfo := rf_out n_max n_add n in
  let pm := rf_psi rfi (m * x) in let dpm := rf_dpsi rfi (m * x) in
  let p := rf_psi rfo x in let dp := rf_dpsi rfo x in
  let z := rf_zeta rfo x in let dz := rf_dzeta rfo x in
  @pena_ab R ROps n_max n_add (m, x) [] n =
    ((m * pm * dp - p * dpm) / (m * pm * dz - z * dpm),
     (pm * dp - m * p * dpm) / (pm * dz - m * z * dpm)).
Proof. exact homogeneous_textbook. Qed.
Print Assumptions C12_textbook_quotient.
Example C12_instance : quiet_stack 1 15 (RtoC (3/2), RtoC (1/2)) [] 1.
Proof. exact ex_homog_quiet. Qed.

(** C13: a fictitious interface at y, in the core or in any shell. *)
Theorem C13_split_shell : forall (n_max n_add : nat) (l0 : C * C) (pre : list (C * C)) (m x y : C) (post : list (C * C)) (n : nat),
  (1 <= n <= n_max + n_add)%nat ->
  quiet_stack n_max n_add l0 (pre ++ (m, x) :: post) n ->
  quiet_stack n_max n_add l0 (pre ++ (m, y) :: (m, x) :: post) n ->
  (n = 1%nat -> @pD1 R ROps n_max n_add (snd (last (pre ++ (m, x) :: post) l0)) 0 <> Ci) ->
  @pena_ab R ROps n_max n_add l0 (pre ++ (m, y) :: (m, x) :: post) n =
  @pena_ab R ROps n_max n_add l0 (pre ++ (m, x) :: post) n.
Proof. exact split_shell. Qed.
Print Assumptions C13_split_shell.
Theorem C13_split_core : forall (n_max n_add : nat) (m x y : C) (rest : list (C * C)) (n : nat),
  (1 <= n <= n_max + n_add)%nat ->
  quiet_stack n_max n_add (m, x) rest n ->
  quiet_stack n_max n_add (m, y) ((m, x) :: rest) n ->
  (n = 1%nat -> @pD1 R ROps n_max n_add (snd (last rest (m, x))) 0 <> Ci) ->
  @pena_ab R ROps n_max n_add (m, y) ((m, x) :: rest) n = @pena_ab R ROps n_max n_add (m, x) rest n.
Proof. exact split_core. Qed.
Print Assumptions C13_split_core.
Example C13_instance : quiet_stack 1 15 (RtoC (3/2), RtoC (1/2)) [] 1 /\
  quiet_stack 1 15 (RtoC (3/2), RtoC (1/4)) [(RtoC (3/2), RtoC (1/2))] 1.
Proof. exact (conj ex_homog_quiet ex_split_quiet). Qed.

(** C14 *)
Theorem C14_index_matched : forall (n_max : nat) (k0 : R) (eps_env : C) (core : R * C) (shells : list (R * C)) (n : nat),
  (1 <= n <= n_max)%nat -> eps_env <> RtoC 0 ->
  snd core = eps_env -> (forall s, In s shells -> snd s = eps_env) ->
  quiet_stack n_max 15 (@layer_of R ROps k0 eps_env core) (map (@layer_of R ROps k0 eps_env) shells) n ->
  @mie_pena R ROps n_max k0 eps_env core shells n = (RtoC 0, RtoC 0).
Proof. exact matched_mie. Qed.
Print Assumptions C14_index_matched.
Theorem C14_zero_observables : forall (n_max : nat) (k : C) (a b : nat -> C) (th : R),
  (forall n, (1 <= n <= n_max)%nat -> a n = RtoC 0 /\ b n = RtoC 0) ->
  @cs_ext R ROps n_max k a b = 0%R /\ @cs_sca R ROps n_max k a b = 0%R /\ @cs_abs R ROps n_max k a b = 0%R /\
  @S1 R ROps n_max a b th = RtoC 0 /\ @S2 R ROps n_max a b th = RtoC 0.
Proof. exact zero_observables. Qed.
Print Assumptions C14_zero_observables.
Example C14_instance : quiet_stack 1 15 (@layer_of R ROps (1/2)%R (RtoC 1) (1%R, RtoC 1)) [] 1.
Proof. rewrite ex_layer_of. exact ex_matched_quiet. Qed.

(** C16 *)
Theorem C16_relative_indices : forall (c : R) (n_max : nat) (k0 : R) (eps_env : C) (core : R * C) (shells : list (R * C)) (n : nat),
  (0 < c)%R -> eps_env <> RtoC 0 ->
  @mie_pena R ROps n_max (k0 / c)%R (RtoC (c * c) * eps_env) (fst core, RtoC (c * c) * snd core)
      (map (fun re => (fst re, RtoC (c * c) * snd re)) shells) n
  = @mie_pena R ROps n_max k0 eps_env core shells n.
Proof. exact mie_relative. Qed.
Print Assumptions C16_relative_indices.
