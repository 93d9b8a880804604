(** Properties C77, C78: the near fields against Maxwell's equations. *)
From Coq Require Import Reals ZArith Lra Lia List Arith.
From Coquelicot Require Import Coquelicot.
From Verif Require Import Ops ROps Spec StackSpec CLemmas CTrig BesselSpec ConvergeSpec ModelSpecial ModelMie ModelNear NearSpec
  MaxwellSpec MaxwellFields NearLimitSpec NearLimit NearExact NearFieldLimit ExampleTrue ExampleMaxwell.
Import ListNotations.
Open Scope C_scope.

(** C77: with the true Riccati-Bessel functions at rho = k0 m r, the E and H expansions of every region
    (inside and scattered), for any amplitudes and truncation, satisfy the Maxwell equations of that region. *)
Theorem C77_maxwell_equations : forall (k0 : R) (m E0 : C) (out : bool) (A : nat -> @amps R) (N : nat) (r th ph : R),
  k0 <> 0%R -> m <> RtoC 0 -> (0 < r)%R -> sin th <> 0%R ->
  maxwell k0 m (true_E k0 m E0 out A N) (true_H k0 m E0 out A N) r th ph.
Proof. exact fields_maxwell. Qed.
Print Assumptions C77_maxwell_equations.
Example C77_instance : (2 : R) <> 0%R /\ (1, 1)%R <> RtoC 0 /\ (0 < 1)%R /\ sin (PI / 2) <> 0%R.
Proof. rewrite sin_PI2. repeat split; try lra. intros H. injection H. lra. Qed.

(** C78: the boundary-value problem has exactly one solution and the code's amplitudes tend to it. *)
Theorem C78_amplitudes_converge : forall (n_max n : nat) (l0 : C * C) (rest : list (C * C)), (1 <= n)%nat ->
  regular_stack (@eps30 R ROps) l0 rest n -> regular_near (@eps30 R ROps) (l0 :: rest) n ->
  exists As, near_solution n l0 rest As /\ (forall As', near_solution n l0 rest As' -> As' = As) /\
    forall i, tends_amps (fun n_add => nth i (@near_amps R ROps n_max n_add l0 rest n) amp0) (nth i As amp0).
Proof. exact near_limit. Qed.
Print Assumptions C78_amplitudes_converge.
(** C78: the Cartesian fields tend to the exact expansions of the point's region at rho = k0 m r + 1e-8. *)
Theorem C78_fields_converge : forall (n_max : nat) (k0 : R) (eps_env : C) (core : R * C) (shells : list (R * C)) (E0 : C) (P : @point R),
  increasing (@radii R core shells) ->
  let l0 := @layer_of R ROps k0 eps_env core in let rest := map (@layer_of R ROps k0 eps_env) shells in
  let li := below (@radii R core shells) (pt_r P) in
  let m := @n_medium R ROps eps_env core shells li in let rho := @rho_at R ROps k0 m (pt_r P) in
  (forall n, (1 <= n <= n_max)%nat -> regular_stack (@eps30 R ROps) l0 rest n /\ regular_near (@eps30 R ROps) (l0 :: rest) n /\ regular_arg (@eps30 R ROps) rho n) ->
  exists As : nat -> list (@amps R), (forall n, (1 <= n <= n_max)%nat -> near_solution n l0 rest (As n)) /\
    let out := Nat.eqb li (length (@radii R core shells)) in let A n := nth li (As n) amp0 in
    let cart := @field_to_xyz R ROps (pt_theta P) (pt_phi P) in
    tends_vec (fun n_add => @E_s R ROps n_max n_add k0 eps_env core shells E0 P) (cart (rad_E E0 out A n_max rho (pt_theta P) (pt_phi P))) /\
    tends_vec (fun n_add => @H_s R ROps n_max n_add k0 eps_env core shells E0 P) (cart (rad_H m E0 out A n_max rho (pt_theta P) (pt_phi P))).
Proof. exact field_limit. Qed.
Print Assumptions C78_fields_converge.
(** C78: the exact expansions, summed over the orders, match at every interface. *)
Theorem C78_exact_interfaces : forall (E0 n_env : C) (th ph : R) (N : nat) (l0 : C * C) (rest : list (C * C)) (As : nat -> list (@amps R)) (i : nat),
  (i <= length rest)%nat -> (forall j, (j <= S (length rest))%nat -> index_at (l0 :: rest) j <> RtoC 0) -> size_at (l0 :: rest) i <> RtoC 0 ->
  (forall n, (1 <= n <= N)%nat -> near_solution n l0 rest (As n)) ->
  let m j := index_at (l0 :: rest) j in let x := size_at (l0 :: rest) i in
  let E j := rad_E E0 false (fun n => nth j (As n) amp0) N (m j * x) th ph in
  let H j := rad_H (m j * n_env) E0 false (fun n => nth j (As n) amp0) N (m j * x) th ph in
  (c_th (E i) = c_th (E (S i)) /\ c_ph (E i) = c_ph (E (S i)) /\ c_th (H i) = c_th (H (S i)) /\ c_ph (H i) = c_ph (H (S i))) /\
  (m i * m i * c_r (E i) = m (S i) * m (S i) * c_r (E (S i)) /\ c_r (H i) = c_r (H (S i))).
Proof. exact limit_interfaces. Qed.
Print Assumptions C78_exact_interfaces.
(** C78: outside, the total expansion is the scattered expansion of the code plus the expansion with a = b = 0, c = d = 1. *)
Theorem C78_exterior_split : forall (m E0 : C) (A : nat -> @amps R) (N : nat) (rho : C) (th ph : R), (forall n, nc (A n) = RtoC 1 /\ nd (A n) = RtoC 1) ->
  rad_E E0 false A N rho th ph = @vadd R ROps (rad_E E0 true A N rho th ph) (rad_E E0 false (fun _ => incident_amps) N rho th ph) /\
  rad_H m E0 false A N rho th ph = @vadd R ROps (rad_H m E0 true A N rho th ph) (rad_H m E0 false (fun _ => incident_amps) N rho th ph).
Proof. exact exterior_total. Qed.
Print Assumptions C78_exterior_split.
Example C78_instance : regular_stack (@eps30 R ROps) (RtoC 3, RtoC (1/4)) [(RtoC (3/2), RtoC (1/2))] 1 /\
  regular_near (@eps30 R ROps) [(RtoC 3, RtoC (1/4)); (RtoC (3/2), RtoC (1/2))] 1.
Proof. split; [exact layered_regular|exact layered_near]. Qed.
Example C78_instance_fields : let P := mx_point (4/5) in
  increasing (@radii R mx_core [mx_shell]) /\ below (@radii R mx_core [mx_shell]) (pt_r P) = 2%nat /\
  let l0 := @layer_of R ROps 1 (RtoC 1) mx_core in let rest := map (@layer_of R ROps 1 (RtoC 1)) [mx_shell] in
  let rho := @rho_at R ROps 1 (@n_medium R ROps (RtoC 1) mx_core [mx_shell] (below (@radii R mx_core [mx_shell]) (pt_r P))) (pt_r P) in
  forall n, (1 <= n <= 1)%nat -> regular_stack (@eps30 R ROps) l0 rest n /\ regular_near (@eps30 R ROps) (l0 :: rest) n /\ regular_arg (@eps30 R ROps) rho n.
Proof. destruct (mx_regular (4/5) (or_introl eq_refl)) as (A & B & D). split; [exact A|]. split; [|exact D]. etransitivity; [exact B|]. destruct (Rlt_dec (1 / 2) (4 / 5)); [reflexivity|lra]. Qed.
Example C78_instance_in_shell : let P := mx_point (2/5) in below (@radii R mx_core [mx_shell]) (pt_r P) = 1%nat /\
  let l0 := @layer_of R ROps 1 (RtoC 1) mx_core in let rest := map (@layer_of R ROps 1 (RtoC 1)) [mx_shell] in
  let rho := @rho_at R ROps 1 (@n_medium R ROps (RtoC 1) mx_core [mx_shell] (below (@radii R mx_core [mx_shell]) (pt_r P))) (pt_r P) in
  forall n, (1 <= n <= 1)%nat -> regular_stack (@eps30 R ROps) l0 rest n /\ regular_near (@eps30 R ROps) (l0 :: rest) n /\ regular_arg (@eps30 R ROps) rho n.
Proof. destruct (mx_regular (2/5) (or_intror eq_refl)) as (A & B & D). split; [|exact D]. etransitivity; [exact B|]. destruct (Rlt_dec (1 / 2) (2 / 5)); [lra|reflexivity]. Qed.
