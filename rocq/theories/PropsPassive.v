(** Property C82: passive particles in a lossless environment. *)
From Coq Require Import Reals ZArith Lra Lia List Arith.
From Coquelicot Require Import Coquelicot.
From Verif Require Import Ops ROps Spec StackSpec BesselSpec ConvergeSpec ModelSpecial ModelMie ModelNear NearSpec NearLimitSpec ExampleTrue PassiveSpec PassiveStack PassiveCode.
Import ListNotations.
Open Scope R_scope.

(** C82: without gain, the exact boundary-value problem behind the coefficients and near-field amplitudes always has exactly
    one solution, for any number of layers: no denominator of the exact problem vanishes. *)
Theorem C82_well_posed : forall (n : nat) (l0 : C * C) (rest : list (C * C)), (1 <= n)%nat -> passive_stack (l0 :: rest) ->
  exists As, near_solution n l0 rest As /\ forall As', near_solution n l0 rest As' -> As' = As.
Proof. exact passive_well_posed. Qed.
Print Assumptions C82_well_posed.
(** C82: its scattering coefficients satisfy |a_n|^2 <= Re a_n and |b_n|^2 <= Re b_n (so extinction >= scattering, order by order). *)
Theorem C82_no_emission : forall (n : nat) (l0 : C * C) (rest : list (C * C)) (As : list (@amps R)), (1 <= n)%nat -> passive_stack (l0 :: rest) ->
  near_solution n l0 rest As ->
  let A := nth (S (length rest)) As amp0 in (Cmod (na A))² <= fst (na A) /\ (Cmod (nb A))² <= fst (nb A).
Proof. exact passive_bounds. Qed.
Print Assumptions C82_no_emission.
(** C82: hence the absorption cross section of every multipole computed by the code is, in the limit of deep recurrences, not negative. *)
Theorem C82_code_coefficients : forall (n_max n : nat) (l0 : C * C) (rest : list (C * C)), (1 <= n)%nat -> passive_stack (l0 :: rest) ->
  regular_stack (@eps30 R ROps) l0 rest n ->
  exists a b : C, tends (fun n_add => fst (@pena_ab R ROps n_max n_add l0 rest n)) a /\ tends (fun n_add => snd (@pena_ab R ROps n_max n_add l0 rest n)) b /\
    (Cmod a)² <= fst a /\ (Cmod b)² <= fst b.
Proof. exact passive_limit. Qed.
Print Assumptions C82_code_coefficients.
Theorem C82_code_absorption : forall (n_max n : nat) (l0 : C * C) (rest : list (C * C)) (k : R) (t : bool), (1 <= n)%nat -> k <> 0 ->
  passive_stack (l0 :: rest) -> regular_stack (@eps30 R ROps) l0 rest n ->
  forall eps, 0 < eps -> exists M, forall n_add, (M <= n_add)%nat ->
    - eps < @cs_abs_multipole R ROps (RtoC k) (fun j => fst (@pena_ab R ROps n_max n_add l0 rest j)) (fun j => snd (@pena_ab R ROps n_max n_add l0 rest j)) t n.
Proof. exact passive_absorption. Qed.
Print Assumptions C82_code_absorption.
(* an absorbing core (m = 1.5 + 0.1 i) in a metallic shell (m = 0.2 + 3 i) *)
Example C82_instance_absorbing : passive_stack [((3/2, 1/10), RtoC 2); ((1/5, 3), RtoC (5/2))].
Proof.
  intros i Hi. destruct i as [|[|i]]; [| |cbn in Hi; lia]; unfold index_at, size_at; cbn; repeat split; try lra; try (intros E; injection E; lra); try (intros; exfalso; lia).
Qed.
Example C82_instance_code : passive_stack [(RtoC 3, RtoC (1/4)); (RtoC (3/2), RtoC (1/2))] /\ regular_stack (@eps30 R ROps) (RtoC 3, RtoC (1/4)) [(RtoC (3/2), RtoC (1/2))] 1.
Proof.
  split; [|exact layered_regular]. intros i Hi. destruct i as [|[|i]]; [| |cbn in Hi; lia]; unfold index_at, size_at; cbn; repeat split; try lra; try (intros E; injection E; lra); try (intros; exfalso; lia).
Qed.
