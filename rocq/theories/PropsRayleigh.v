(** Property C96: small layered particles obey electrostatics. *)
From Coq Require Import Reals ZArith Lra Lia List Arith.
From Coquelicot Require Import Coquelicot.
From Verif Require Import Ops ROps Spec StackSpec BesselSpec ConvergeSpec ModelSpecial ModelMie ModelNear NearSpec NearLimitSpec TgSpec ExampleTrue PassiveSpec SeriesSpec
  RayleighSpec RayleighEnd RayleighStatic RayleighObs.
Import ListNotations.
Open Scope R_scope.

(** C96: for a passive particle without lossless metal the electrostatic problem of every order has exactly one solution, for any number of layers. *)
Theorem C96_statics_well_posed : forall (n : nat) (l0 : C * C) (rest : list (C * C)), (1 <= n)%nat -> passive_stack (l0 :: rest) -> no_lossless_metal (l0 :: rest) ->
  exists P, static_solution n l0 rest P /\ forall P', static_solution n l0 rest P' -> forall i, (i <= S (length rest))%nat -> P' i = P i.
Proof. exact statics_well_posed. Qed.
Print Assumptions C96_statics_well_posed.
(** C96: whenever the electrostatic problem is solvable, the boundary-value problem behind the coefficients is uniquely solvable for every small enough particle. *)
Theorem C96_solvable : forall (n : nat) (l0 : C * C) (rest : list (C * C)) (P : nat -> C * C), (1 <= n)%nat -> nonzero_stack (l0 :: rest) -> static_solution n l0 rest P ->
  exists d, 0 < d /\ forall t, 0 < t < d -> exists As, near_solution n (scaled t l0) (map (scaled t) rest) As /\ forall As', near_solution n (scaled t l0) (map (scaled t) rest) As' -> As' = As.
Proof. exact rayleigh_solvable. Qed.
Print Assumptions C96_solvable.
(** C96: the four amplitudes of every region are the electrostatic ones up to relative order t^2 (t: wavenumber times the length unit of the radii). *)
Theorem C96_amplitudes : forall (n : nat) (l0 : C * C) (rest : list (C * C)) (P : nat -> C * C) (i : nat), (1 <= n)%nat -> nonzero_stack (l0 :: rest) -> static_solution n l0 rest P -> (i <= S (length rest))%nat ->
  exists K d, 0 < d /\ forall t As, 0 < t < d -> near_solution n (scaled t l0) (map (scaled t) rest) As ->
    let A := nth i As amp0 in let m := index_at (l0 :: rest) i in
    Cmod (na A - RtoC (t ^ (2 * n + 1)) * (leading n * snd (P i) * (m * m * Cpow_n m n)))%C <= K * t ^ (2 * n + 3) /\ Cmod (nd A - fst (P i) * m / Cpow_n m n)%C <= K * t ^ 2 /\
    Cmod (nb A) <= K * t ^ (2 * n + 3) /\ Cmod (nc A - / Cpow_n m n)%C <= K * t ^ 2.
Proof. exact rayleigh_amplitudes. Qed.
Print Assumptions C96_amplitudes.
(** C96: a_n = t^(2n+1) i (n+1)/(n (2n+1)!! (2n-1)!!) times the induced multipole, b_n = 0, both up to order t^(2n+3). *)
Theorem C96_coefficients : forall (n : nat) (l0 : C * C) (rest : list (C * C)) (P : nat -> C * C), (1 <= n)%nat -> nonzero_stack (l0 :: rest) -> static_solution n l0 rest P ->
  exists K d, 0 < d /\ forall t As, 0 < t < d -> near_solution n (scaled t l0) (map (scaled t) rest) As ->
    let A := nth (S (length rest)) As amp0 in
    Cmod (na A - RtoC (t ^ (2 * n + 1)) * (leading n * induced rest P))%C <= K * t ^ (2 * n + 3) /\ Cmod (nb A) <= K * t ^ (2 * n + 3).
Proof. exact rayleigh_coefficients. Qed.
Print Assumptions C96_coefficients.
(** C96: these exact amplitudes are the ones the code's coefficients converge to. *)
Theorem C96_code : forall (n_max n : nat) (l0 : C * C) (rest : list (C * C)) (As : list (@amps R)), (1 <= n)%nat -> regular_stack (@eps30 R ROps) l0 rest n -> near_solution n l0 rest As ->
  let A := nth (S (length rest)) As amp0 in
  tends (fun n_add => fst (@pena_ab R ROps n_max n_add l0 rest n)) (na A) /\ tends (fun n_add => snd (@pena_ab R ROps n_max n_add l0 rest n)) (nb A).
Proof. exact code_is_exact. Qed.
Print Assumptions C96_code.
(** C96: closed forms: the multipoles of a homogeneous sphere and the dipole of a coated sphere. *)
Theorem C96_sphere : forall (n : nat) (m r : C), (1 <= n)%nat -> r <> RtoC 0 -> (RtoC (INR n) * (m * m) + RtoC (INR (n + 1)))%C <> RtoC 0 ->
  exists P, static_solution n (m, r) [] P /\ induced [] P = (- (RtoC (INR n) * (m * m - RtoC 1) / (RtoC (INR n) * (m * m) + RtoC (INR (n + 1)))) * Cpow_n r (2 * n + 1))%C.
Proof. exact static_sphere. Qed.
Print Assumptions C96_sphere.
Theorem C96_coated : forall (m1 m2 r1 r2 : C), m1 <> RtoC 0 -> m2 <> RtoC 0 -> r1 <> RtoC 0 -> r2 <> RtoC 0 ->
  ((m2 * m2 + RtoC 2) * (m1 * m1 + RtoC 2 * (m2 * m2)) + Cpow_n r1 3 / Cpow_n r2 3 * (RtoC 2 * (m2 * m2) - RtoC 2) * (m1 * m1 - m2 * m2))%C <> RtoC 0 ->
  exists P, static_solution 1 (m1, r1) [(m2, r2)] P /\ induced [(m2, r2)] P = (- (coated (m1 * m1) (m2 * m2) r1 r2) * Cpow_n r2 3)%C.
Proof. exact static_coated. Qed.
Print Assumptions C96_coated.
(** C96: cross sections of get_cross_sections: extinction and absorption -4 pi k Im B, scattering (8 pi / 3) k^4 |B|^2, B the induced dipole, whatever the cut-off N. *)
Theorem C96_cross_sections : forall (l0 : C * C) (rest : list (C * C)), nonzero_stack (l0 :: rest) ->
  forall (N : nat) (P : nat -> nat -> C * C), (1 <= N)%nat -> (forall n, (1 <= n <= N)%nat -> static_solution n l0 rest (P n)) ->
  exists K d, 0 < d /\ forall t (As : nat -> list (@amps R)), 0 < t < d -> (forall n, (1 <= n <= N)%nat -> near_solution n (scaled t l0) (map (scaled t) rest) (As n)) ->
    let a n := na (nth (S (length rest)) (As n) amp0) in let b n := nb (nth (S (length rest)) (As n) amp0) in let B := induced rest (P 1%nat) in
    Rabs (@cs_ext R ROps N (RtoC t) a b - - (4 * PI) * snd B * t) <= K * t ^ 3 /\
    Rabs (@cs_sca R ROps N (RtoC t) a b - 8 * PI / 3 * (Cmod B * Cmod B) * t ^ 4) <= K * t ^ 6.
Proof. exact rayleigh_cross_sections. Qed.
Print Assumptions C96_cross_sections.
Theorem C96_absorption : forall (l0 : C * C) (rest : list (C * C)), nonzero_stack (l0 :: rest) ->
  forall (N : nat) (P : nat -> nat -> C * C), (1 <= N)%nat -> (forall n, (1 <= n <= N)%nat -> static_solution n l0 rest (P n)) ->
  exists K d, 0 < d /\ forall t (As : nat -> list (@amps R)), 0 < t < d -> (forall n, (1 <= n <= N)%nat -> near_solution n (scaled t l0) (map (scaled t) rest) (As n)) ->
    let a n := na (nth (S (length rest)) (As n) amp0) in let b n := nb (nth (S (length rest)) (As n) amp0) in
    Rabs (@cs_abs R ROps N (RtoC t) a b - - (4 * PI) * snd (induced rest (P 1%nat)) * t) <= K * t ^ 3.
Proof. exact rayleigh_absorption. Qed.
Print Assumptions C96_absorption.
(** C96: the dipole polarisabilities handed to TorchGDM: electric -n_env^2 B (Clausius-Mossotti for a sphere), magnetic 0. *)
Theorem C96_polarizability : forall (l0 : C * C) (rest : list (C * C)), nonzero_stack (l0 :: rest) ->
  forall (P : nat -> C * C) (ne : R), 0 < ne -> static_solution 1 l0 rest P ->
  exists K d, 0 < d /\ forall k0 (As : list (@amps R)), 0 < k0 < d -> near_solution 1 (scaled (k0 * ne) l0) (map (scaled (k0 * ne)) rest) As ->
    let A := nth (S (length rest)) As amp0 in
    Cmod (alpha_e (na A) k0 (RtoC ne) - - (RtoC (ne * ne) * induced rest P))%C <= K * k0 ^ 2 /\ Cmod (alpha_m (nb A) k0 (RtoC ne)) <= K * k0 ^ 2.
Proof. exact rayleigh_polarizability. Qed.
Print Assumptions C96_polarizability.

(* an absorbing core (m = 1.5 + 0.1 i) in a metallic shell (m = 0.2 + 3 i): every order has its electrostatic solution *)
Example C96_instance_coreshell : let l0 := ((3/2, 1/10), RtoC 2) in let rest := [((1/5, 3), RtoC (5/2))] in
  passive_stack (l0 :: rest) /\ no_lossless_metal (l0 :: rest) /\ nonzero_stack (l0 :: rest) /\ exists P, forall n, (1 <= n)%nat -> static_solution n l0 rest (P n).
Proof.
  intros l0 rest. assert (HP : passive_stack (l0 :: rest)).
  { intros i Hi. destruct i as [|[|i]]; [| |cbn in Hi; lia]; unfold index_at, size_at; cbn; repeat split; try lra; try (intros E; injection E; lra); try (intros; exfalso; lia). }
  assert (HL : no_lossless_metal (l0 :: rest)).
  { intros i Hi. destruct i as [|[|i]]; [| |cbn in Hi; lia]; unfold index_at; cbn; lra. }
  split; [exact HP|]. split; [exact HL|]. split; [exact (passive_nonzero l0 rest HP)|].
  exists (fun n => static_field n l0 rest). intros n Hn. exact (static_field_solves n l0 rest Hn HP HL).
Qed.
(* a glass sphere of unit radius: the induced dipole is -5/17 *)
Example C96_instance_sphere : exists P, static_solution 1 (RtoC (3/2), RtoC 1) [] P /\ induced [] P = RtoC (- (5/17)).
Proof.
  assert (E : forall x y : C, fst x = fst y -> snd x = snd y -> x = y) by (intros [? ?] [? ?]; cbn; intros -> ->; reflexivity).
  destruct (static_sphere 1 (RtoC (3/2)) (RtoC 1) (le_n 1)) as (P & H1 & H2); [intros Q; injection Q; lra|intros Q; injection Q; cbn; lra|].
  exists P. split; [exact H1|]. rewrite H2. apply E; cbn; field; cbn; lra.
Qed.
Example C96_instance_code : regular_stack (@eps30 R ROps) (RtoC 3, RtoC (1/4)) [(RtoC (3/2), RtoC (1/2))] 1. Proof. exact layered_regular. Qed.
