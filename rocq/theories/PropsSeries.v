(** Property C86: convergence of the multipole series. *)
From Coq Require Import Reals ZArith Lra Lia List Arith.
From Coquelicot Require Import Coquelicot.
From Verif Require Import Ops ROps Spec StackSpec CTrig BesselSpec ConvergeSpec ModelSpecial ModelMie ModelNear NearSpec NearLimitSpec MaxwellSpec ExampleTrue ExampleMaxwell PassiveSpec PassiveStack SeriesSpec SeriesDecay SeriesFar SeriesCode SeriesNear SeriesNearCode.
Import ListNotations.
Open Scope R_scope.

(** C86: the magnetic coefficients b_n of any passive layered sphere decay faster than any geometric sequence. *)
Theorem C86_decay_magnetic : forall (l0 : C * C) (rest : list (C * C)) (q : R), passive_stack (l0 :: rest) -> 0 < q ->
  exists K, 0 < K /\ forall n As, (1 <= n)%nat -> near_solution n l0 rest As -> Cmod (nb (nth (S (length rest)) As amp0)) <= K * q ^ n.
Proof. exact decay_te. Qed.
Print Assumptions C86_decay_magnetic.
(** C86: so do the electric coefficients a_n, unless a lossless layer has a negative permittivity. *)
Theorem C86_decay_electric : forall (l0 : C * C) (rest : list (C * C)) (q : R), passive_stack (l0 :: rest) -> no_lossless_metal (l0 :: rest) -> 0 < q ->
  exists K, 0 < K /\ forall n As, (1 <= n)%nat -> near_solution n l0 rest As -> Cmod (na (nth (S (length rest)) As amp0)) <= K * q ^ n.
Proof. exact decay_tm. Qed.
Print Assumptions C86_decay_electric.
(** C86: hence the three cross sections converge as the number of orders grows, again faster than any geometric sequence. *)
Theorem C86_cross_sections : forall (l0 : C * C) (rest : list (C * C)) (As : nat -> list (@amps R)),
  passive_stack (l0 :: rest) -> no_lossless_metal (l0 :: rest) -> all_orders l0 rest As ->
  forall k : R, k <> 0 -> let a n := na (nth (S (length rest)) (As n) amp0) in let b n := nb (nth (S (length rest)) (As n) amp0) in
  exists Ce Cs, fast_to (fun N => @cs_ext R ROps N (RtoC k) a b) Ce /\ fast_to (fun N => @cs_sca R ROps N (RtoC k) a b) Cs /\
    fast_to (fun N => @cs_abs R ROps N (RtoC k) a b) (Ce - Cs) /\ 0 <= Cs <= Ce.
Proof. exact cross_sections_converge. Qed.
Print Assumptions C86_cross_sections.
(** C86: and so do the angular amplitudes, uniformly in the angle. *)
Theorem C86_amplitudes : forall (l0 : C * C) (rest : list (C * C)) (As : nat -> list (@amps R)),
  passive_stack (l0 :: rest) -> no_lossless_metal (l0 :: rest) -> all_orders l0 rest As ->
  let a n := na (nth (S (length rest)) (As n) amp0) in let b n := nb (nth (S (length rest)) (As n) amp0) in
  exists T1 T2 : R -> C, fast_all (fun th N => @S1 R ROps N a b th) T1 /\ fast_all (fun th N => @S2 R ROps N a b th) T2.
Proof. exact amplitudes_converge. Qed.
Print Assumptions C86_amplitudes.
(** C86: the code, run with n_max orders and deep enough recurrences, is within K q^n_max + eps of these limits. *)
Theorem C86_code_far_field : forall (l0 : C * C) (rest : list (C * C)) (As : nat -> list (@amps R)),
  passive_stack (l0 :: rest) -> no_lossless_metal (l0 :: rest) -> all_orders l0 rest As ->
  forall k : R, k <> 0 -> exists Ce Cs (T1 T2 : R -> C), 0 <= Cs <= Ce /\ Ce = 4 * PI / (k * k) * fst (T1 0) /\
  forall q, 0 < q < 1 -> exists K, 0 < K /\ forall n_max, (forall n, (1 <= n <= n_max)%nat -> regular_stack (@eps30 R ROps) l0 rest n) ->
  forall eps, 0 < eps -> exists M, forall n_add, (M <= n_add)%nat ->
    let ca n := fst (@pena_ab R ROps n_max n_add l0 rest n) in let cb n := snd (@pena_ab R ROps n_max n_add l0 rest n) in
    Rabs (@cs_ext R ROps n_max (RtoC k) ca cb - Ce) < K * q ^ n_max + eps /\ Rabs (@cs_sca R ROps n_max (RtoC k) ca cb - Cs) < K * q ^ n_max + eps /\
    Rabs (@cs_abs R ROps n_max (RtoC k) ca cb - (Ce - Cs)) < K * q ^ n_max + eps /\
    forall th, Cmod (@S1 R ROps n_max ca cb th - T1 th)%C < K * q ^ n_max + eps /\ Cmod (@S2 R ROps n_max ca cb th - T2 th)%C < K * q ^ n_max + eps.
Proof. exact code_far_field. Qed.
Print Assumptions C86_code_far_field.
(** C86: in every region the expansions of the total fields converge, uniformly in the direction, at every radial argument of the region. *)
Theorem C86_fields : forall (l0 : C * C) (rest : list (C * C)) (As : nat -> list (@amps R)),
  passive_stack (l0 :: rest) -> no_lossless_metal (l0 :: rest) -> all_orders l0 rest As ->
  forall (i : nat) (M E0 rho : C), (i <= S (length rest))%nat -> in_layer (l0 :: rest) i rho ->
  exists E H : R -> R -> cvec, fast_field (fun N th ph => rad_E E0 false (fun n => nth i (As n) amp0) N rho th ph) E /\
    fast_field (fun N th ph => rad_H M E0 false (fun n => nth i (As n) amp0) N rho th ph) H.
Proof. exact near_fields_converge. Qed.
Print Assumptions C86_fields.
(** C86: outside, so do the scattered fields, and the limit of the total field is their limit plus the incident plane wave. *)
Theorem C86_scattered_field : forall (l0 : C * C) (rest : list (C * C)) (As : nat -> list (@amps R)),
  passive_stack (l0 :: rest) -> no_lossless_metal (l0 :: rest) -> all_orders l0 rest As ->
  forall M E0 rho : C, in_layer (l0 :: rest) (S (length rest)) rho ->
  exists E H : R -> R -> cvec, fast_field (fun N th ph => rad_E E0 true (fun n => nth (S (length rest)) (As n) amp0) N rho th ph) E /\
    fast_field (fun N th ph => rad_H M E0 true (fun n => nth (S (length rest)) (As n) amp0) N rho th ph) H.
Proof. exact scattered_field_converges. Qed.
Print Assumptions C86_scattered_field.
Theorem C86_total_field : forall (l0 : C * C) (rest : list (C * C)) (As : nat -> list (@amps R)), passive_stack (l0 :: rest) -> all_orders l0 rest As ->
  forall (M E0 rho : C) (E H Es Hs : R -> R -> cvec), in_layer (l0 :: rest) (S (length rest)) rho -> let A n := nth (S (length rest)) (As n) amp0 in
  fast_field (fun N th ph => rad_E E0 false A N rho th ph) E -> fast_field (fun N th ph => rad_H M E0 false A N rho th ph) H ->
  fast_field (fun N th ph => rad_E E0 true A N rho th ph) Es -> fast_field (fun N th ph => rad_H M E0 true A N rho th ph) Hs ->
  forall th ph, let cart := @field_to_xyz R ROps th ph in let wave := (E0 * Cexp (Ci * rho * RtoC (cos th)))%C in
    cart (E th ph) = @vadd R ROps (cart (Es th ph)) (wave, RtoC 0, RtoC 0) /\ cart (H th ph) = @vadd R ROps (cart (Hs th ph)) (RtoC 0, (M * wave)%C, RtoC 0).
Proof. exact limit_total. Qed.
Print Assumptions C86_total_field.
(** C86: the limits on the two sides of an interface satisfy the boundary conditions. *)
Theorem C86_interfaces : forall (l0 : C * C) (rest : list (C * C)) (As : nat -> list (@amps R)), passive_stack (l0 :: rest) -> all_orders l0 rest As ->
  forall (i : nat) (n_env E0 : C) (E H E' H' : R -> R -> cvec), (i <= length rest)%nat ->
  let m := index_at (l0 :: rest) in let x := size_at (l0 :: rest) i in let A j n := nth j (As n) amp0 in
  fast_field (fun N th ph => rad_E E0 false (A i) N (m i * x)%C th ph) E -> fast_field (fun N th ph => rad_H (m i * n_env)%C E0 false (A i) N (m i * x)%C th ph) H ->
  fast_field (fun N th ph => rad_E E0 false (A (S i)) N (m (S i) * x)%C th ph) E' -> fast_field (fun N th ph => rad_H (m (S i) * n_env)%C E0 false (A (S i)) N (m (S i) * x)%C th ph) H' ->
  forall th ph, (c_th (E th ph) = c_th (E' th ph) /\ c_ph (E th ph) = c_ph (E' th ph) /\ c_th (H th ph) = c_th (H' th ph) /\ c_ph (H th ph) = c_ph (H' th ph)) /\
    ((m i * m i * c_r (E th ph))%C = (m (S i) * m (S i) * c_r (E' th ph))%C /\ c_r (H th ph) = c_r (H' th ph)).
Proof. exact limits_match. Qed.
Print Assumptions C86_interfaces.
(** C86: the Cartesian fields returned by the code, at a point farther than 1e-8 / (k0 |m|) from every interface, are within
    K q^n_max + eps of the limits at its argument k0 m r + 1e-8. *)
Theorem C86_code_fields : forall (k0 : R) (eps_env : C) (core : R * C) (shells : list (R * C)),
  let l0 := @layer_of R ROps k0 eps_env core in let rest := map (@layer_of R ROps k0 eps_env) shells in let rd := @radii R core shells in
  0 < k0 -> passive_stack (l0 :: rest) ->
  forall (E0 : C) (r : R) (As : nat -> list (@amps R)), no_lossless_metal (l0 :: rest) -> all_orders l0 rest As -> increasing rd -> 0 <= r ->
  let li := below rd r in let m := @n_medium R ROps eps_env core shells li in let rho := @rho_at R ROps k0 m r in let out := Nat.eqb li (length rd) in let A n := nth li (As n) amp0 in
  (forall a, In a rd -> @rtenth R ROps 8 < k0 * Cmod m * Rabs (r - a)) ->
  exists E H : R -> R -> cvec, fast_field (fun N th ph => rad_E E0 out A N rho th ph) E /\ fast_field (fun N th ph => rad_H m E0 out A N rho th ph) H /\
  forall q, 0 < q < 1 -> exists K, 0 < K /\ forall n_max,
  (forall n, (1 <= n <= n_max)%nat -> regular_stack (@eps30 R ROps) l0 rest n /\ regular_near (@eps30 R ROps) (l0 :: rest) n /\ regular_arg (@eps30 R ROps) rho n) ->
  forall th ph eps, 0 < eps -> exists N0, forall n_add, (N0 <= n_add)%nat -> let P := {| pt_r := r; pt_theta := th; pt_phi := ph |} in let cart := @field_to_xyz R ROps th ph in
  forall c : @vec3 R -> C, c = v1 \/ c = v2 \/ c = v3 ->
    Cmod (c (@E_s R ROps n_max n_add k0 eps_env core shells E0 P) - c (cart (E th ph)))%C < K * q ^ n_max + eps /\
    Cmod (c (@H_s R ROps n_max n_add k0 eps_env core shells E0 P) - c (cart (H th ph)))%C < K * q ^ n_max + eps.
Proof. exact code_fields. Qed.
Print Assumptions C86_code_fields.
(* every passive stack has amplitudes of all orders, and the arguments on both sides of its interfaces belong to the regions *)
Example C86_instance_regions : forall (l0 : C * C) (rest : list (C * C)), passive_stack (l0 :: rest) -> (exists As, all_orders l0 rest As) /\
  forall i, (i <= length rest)%nat -> let m := index_at (l0 :: rest) in let x := size_at (l0 :: rest) i in in_layer (l0 :: rest) i (m i * x)%C /\ in_layer (l0 :: rest) (S i) (m (S i) * x)%C.
Proof. intros l0 rest Hp. split; [now apply solutions_exist|]. intros i Hi. now apply boundary_in_layer. Qed.
(* a point outside and a point in the shell of the core-shell particle *)
Example C86_instance_points : forall r, r = 4/5 \/ r = 2/5 -> let rd := @radii R mx_core [mx_shell] in let m := @n_medium R ROps (RtoC 1) mx_core [mx_shell] (below rd r) in
  increasing rd /\ forall a, In a rd -> @rtenth R ROps 8 < 1 * Cmod m * Rabs (r - a).
Proof. exact mx_clear. Qed.
(* an absorbing core (m = 1.5 + 0.1 i) in an absorbing metallic shell (m = 0.2 + 3 i), with its amplitudes of all orders *)
Example C86_instance_absorbing : let l0 := ((3/2, 1/10), RtoC 2) in let rest := [((1/5, 3), RtoC (5/2))] in
  passive_stack (l0 :: rest) /\ no_lossless_metal (l0 :: rest) /\ exists As, all_orders l0 rest As.
Proof.
  cbv zeta.
  assert (Hp : passive_stack [((3/2, 1/10), RtoC 2); ((1/5, 3), RtoC (5/2))]).
  { intros i Hi. destruct i as [|[|i]]; [| |cbn in Hi; lia]; unfold index_at, size_at; cbn; repeat split; try lra; try (intros E; injection E; lra); try (intros; exfalso; lia). }
  split; [exact Hp|]. split.
  - intros i Hi. destruct i as [|[|i]]; [| |cbn in Hi; lia]; unfold index_at; cbn; lra.
  - exists (fun n => map (gsol n ((3/2, 1/10), RtoC 2) [((1/5, 3), RtoC (5/2))]) (seq 0 3)). intros n Hn. exact (tab_solution n Hn ((3/2, 1/10), RtoC 2) [((1/5, 3), RtoC (5/2))] Hp).
Qed.
(* a lossless dielectric core-shell particle for which the code's formulae are regular at order 1 *)
Example C86_instance_code : passive_stack [(RtoC 3, RtoC (1/4)); (RtoC (3/2), RtoC (1/2))] /\ no_lossless_metal [(RtoC 3, RtoC (1/4)); (RtoC (3/2), RtoC (1/2))] /\
  forall n, (1 <= n <= 1)%nat -> regular_stack (@eps30 R ROps) (RtoC 3, RtoC (1/4)) [(RtoC (3/2), RtoC (1/2))] n.
Proof.
  split; [|split].
  - intros i Hi. destruct i as [|[|i]]; [| |cbn in Hi; lia]; unfold index_at, size_at; cbn; repeat split; try lra; try (intros E; injection E; lra); try (intros; exfalso; lia).
  - intros i Hi. destruct i as [|[|i]]; [| |cbn in Hi; lia]; unfold index_at; cbn; lra.
  - intros n Hn. replace n with 1%nat by lia. exact layered_regular.
Qed.
