(** Property C90: the limits of the near-field series solve the scattering problem. *)
From Coq Require Import Reals ZArith Lra Lia List Arith.
From Coquelicot Require Import Coquelicot.
From Verif Require Import Ops ROps Spec StackSpec CTrig BesselSpec ConvergeSpec ModelSpecial ModelMie ModelNear NearSpec NearLimitSpec MaxwellSpec PassiveSpec PassiveStack SeriesSpec MaxwellLimitSpec ExampleMaxwell SeriesNearCode SeriesScatter SeriesScatterCode.
Import ListNotations.
Open Scope R_scope.

(** C90: in every region of a passive sphere, any fields which are the limits of the expansions of the code with exact radial functions
    and amplitudes satisfy the Maxwell equations of that region, not only their partial sums. *)
Theorem C90_limit_maxwell : forall (l0 : C * C) (rest : list (C * C)) (As : nat -> list (@amps R)) (k0 n_env : R) (E0 : C),
  passive_stack (l0 :: rest) -> no_lossless_metal (l0 :: rest) -> all_orders l0 rest As -> 0 < k0 -> 0 < n_env ->
  forall (i : nat) (E H : sph_field), (i <= S (length rest))%nat -> let m := (index_at (l0 :: rest) i * RtoC n_env)%C in
  (forall r, open_region (l0 :: rest) i (k0 * n_env * r) -> series_limit k0 m E0 false (fun n => nth i (As n) amp0) E H r) ->
  forall r th ph, open_region (l0 :: rest) i (k0 * n_env * r) -> sin th <> 0 -> maxwell k0 m E H r th ph.
Proof. exact limit_maxwell. Qed.
Print Assumptions C90_limit_maxwell.
(** C90: the same for the scattered field outside. *)
Theorem C90_scattered_maxwell : forall (l0 : C * C) (rest : list (C * C)) (As : nat -> list (@amps R)) (k0 n_env : R) (E0 : C),
  passive_stack (l0 :: rest) -> no_lossless_metal (l0 :: rest) -> all_orders l0 rest As -> 0 < k0 -> 0 < n_env -> let out := S (length rest) in
  forall E H : sph_field, (forall r, open_region (l0 :: rest) out (k0 * n_env * r) -> series_limit k0 (RtoC n_env) E0 true (fun n => nth out (As n) amp0) E H r) ->
  forall r th ph, open_region (l0 :: rest) out (k0 * n_env * r) -> sin th <> 0 -> maxwell k0 (RtoC n_env) E H r th ph.
Proof. exact scattered_maxwell. Qed.
Print Assumptions C90_scattered_maxwell.
(** C90: the limits exist in all the regions and together solve the scattering problem: Maxwell's equations in every region, the boundary
    conditions at every interface, and outside the plane wave plus a scattered field which is itself a solution. *)
Theorem C90_scattering_problem : forall (l0 : C * C) (rest : list (C * C)) (As : nat -> list (@amps R)) (k0 n_env : R) (E0 : C),
  passive_stack (l0 :: rest) -> no_lossless_metal (l0 :: rest) -> all_orders l0 rest As -> 0 < k0 -> 0 < n_env ->
  let layers := l0 :: rest in let out := S (length rest) in let m i := (index_at layers i * RtoC n_env)%C in let A i n := nth i (As n) amp0 in let kn := k0 * n_env in
  exists (E H : nat -> sph_field) (Es Hs : sph_field),
    (forall i r, (i <= out)%nat -> closed_region layers i (kn * r) -> series_limit k0 (m i) E0 false (A i) (E i) (H i) r) /\
    (forall r, closed_region layers out (kn * r) -> series_limit k0 (RtoC n_env) E0 true (A out) Es Hs r) /\
    (forall i r th ph, (i <= out)%nat -> open_region layers i (kn * r) -> sin th <> 0 -> maxwell k0 (m i) (E i) (H i) r th ph) /\
    (forall r th ph, open_region layers out (kn * r) -> sin th <> 0 -> maxwell k0 (RtoC n_env) Es Hs r th ph) /\
    (forall i a th ph, (i <= length rest)%nat -> kn * a = fst (size_at layers i) -> match_at (m i) (m (S i)) (E i a th ph) (H i a th ph) (E (S i) a th ph) (H (S i) a th ph)) /\
    (forall r th ph, closed_region layers out (kn * r) -> let cart := @field_to_xyz R ROps th ph in let wave := (E0 * Cexp (Ci * RtoC (kn * r * cos th)))%C in
      cart (E out r th ph) = @vadd R ROps (cart (Es r th ph)) (wave, RtoC 0, RtoC 0) /\ cart (H out r th ph) = @vadd R ROps (cart (Hs r th ph)) (RtoC 0, (RtoC n_env * wave)%C, RtoC 0)).
Proof. exact scattering_problem. Qed.
Print Assumptions C90_scattering_problem.
(** C90: end to end.  For every particle there are fields, total inside and scattered outside, which satisfy Maxwell's equations between all the
    interfaces, and at a point of a region of real index (so everywhere outside) the Cartesian fields returned by the code with n_max orders and deep
    enough recurrences are within K q^n_max + eps of them, at the radius r + 1e-8 / (k0 m): the offset 1e-8 the code adds to its radial argument. *)
Theorem C90_code_maxwell : forall (k0 : R) (eps_env : C) (core : R * C) (shells : list (R * C)) (E0 : C),
  let l0 := @layer_of R ROps k0 eps_env core in let rest := map (@layer_of R ROps k0 eps_env) shells in let rd := @radii R core shells in let med i := @n_medium R ROps eps_env core shells i in
  0 < k0 -> passive_stack (l0 :: rest) -> no_lossless_metal (l0 :: rest) -> increasing rd ->
  exists E H : nat -> sph_field,
    (forall i r th ph, (i <= length rd)%nat -> strictly_in rd i r -> sin th <> 0 -> maxwell k0 (med i) (E i) (H i) r th ph) /\
    forall r, 0 <= r -> let li := below rd r in let m := med li in snd m = 0 -> (forall a, In a rd -> @rtenth R ROps 8 < k0 * Cmod m * Rabs (r - a)) ->
    let r' := r + @rtenth R ROps 8 / (k0 * fst m) in strictly_in rd li r' /\
    forall q, 0 < q < 1 -> exists K, 0 < K /\ forall n_max,
    (forall n, (1 <= n <= n_max)%nat -> regular_stack (@eps30 R ROps) l0 rest n /\ regular_near (@eps30 R ROps) (l0 :: rest) n /\ regular_arg (@eps30 R ROps) (@rho_at R ROps k0 m r) n) ->
    forall th ph eps, 0 < eps -> exists N0, forall n_add, (N0 <= n_add)%nat -> let P := {| pt_r := r; pt_theta := th; pt_phi := ph |} in let cart := @field_to_xyz R ROps th ph in
    forall c : @vec3 R -> C, c = v1 \/ c = v2 \/ c = v3 ->
      Cmod (c (@E_s R ROps n_max n_add k0 eps_env core shells E0 P) - c (cart (E li r' th ph)))%C < K * q ^ n_max + eps /\
      Cmod (c (@H_s R ROps n_max n_add k0 eps_env core shells E0 P) - c (cart (H li r' th ph)))%C < K * q ^ n_max + eps.
Proof. exact code_maxwell. Qed.
Print Assumptions C90_code_maxwell.
(* the dielectric core-shell particle, with a point outside and a point in the shell *)
Example C90_instance_particle : let l0 := @layer_of R ROps 1 (RtoC 1) mx_core in let rest := map (@layer_of R ROps 1 (RtoC 1)) [mx_shell] in passive_stack (l0 :: rest) /\ no_lossless_metal (l0 :: rest).
Proof. exact mx_hyps. Qed.
Example C90_instance_points : forall r, r = 4/5 \/ r = 2/5 -> let rd := @radii R mx_core [mx_shell] in let m := @n_medium R ROps (RtoC 1) mx_core [mx_shell] (below rd r) in
  increasing rd /\ 0 <= r /\ snd m = 0 /\ (forall a, In a rd -> @rtenth R ROps 8 < 1 * Cmod m * Rabs (r - a)).
Proof. exact mx_points. Qed.
(* an absorbing core (m = 1.5 + 0.1 i) in an absorbing metallic shell (m = 0.2 + 3 i): amplitudes of all orders exist, and there are points in all three regions *)
Example C90_instance : let l0 := ((3/2, 1/10), RtoC 2) in let rest := [((1/5, 3), RtoC (5/2))] in
  passive_stack (l0 :: rest) /\ no_lossless_metal (l0 :: rest) /\ (exists As, all_orders l0 rest As) /\
  open_region (l0 :: rest) 0 (1 * (4/3) * 1) /\ open_region (l0 :: rest) 1 (1 * (4/3) * (7/4)) /\ open_region (l0 :: rest) 2 (1 * (4/3) * 3).
Proof.
  cbv zeta.
  assert (Hp : passive_stack [((3/2, 1/10), RtoC 2); ((1/5, 3), RtoC (5/2))]).
  { intros i Hi. destruct i as [|[|i]]; [| |cbn in Hi; lia]; unfold index_at, size_at; cbn; repeat split; try lra; try (intros E; injection E; lra); try (intros; exfalso; lia). }
  split; [exact Hp|]. split; [|split].
  - intros i Hi. destruct i as [|[|i]]; [| |cbn in Hi; lia]; unfold index_at; cbn; lra.
  - exists (fun n => map (gsol n ((3/2, 1/10), RtoC 2) [((1/5, 3), RtoC (5/2))]) (seq 0 3)). intros n Hn. exact (tab_solution n Hn ((3/2, 1/10), RtoC 2) [((1/5, 3), RtoC (5/2))] Hp).
  - unfold open_region, size_at. cbn. repeat split; try lra; intros; try lra; exfalso; lia.
Qed.
