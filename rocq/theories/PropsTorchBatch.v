(** C28: batches in the torch backend. *)
From Coq Require Import Reals ZArith List Bool String Arith Lia Lra.
From Coquelicot Require Import Coquelicot.
From Verif Require Import Ops ROps Tensor TensorProofs ModelSpecial ModelMie ModelBatch BroadcastSpec BroadcastProofs BatchReal TruncProofs TorchBatch TorchBatchDep.
Import ListNotations.
Open Scope nat_scope.
Open Scope list_scope.

(** C28: false.  The calls [alone] (one sphere of radius 1/2 with the
    permittivity of the environment, k0 = 1) and [together] (the same sphere
    plus a second one with eps = 400) present the same element at position
    (0, 0), both with n_max = 1.  Alone the sphere does not scatter; in the
    larger batch its a_1 is not zero. *)
Theorem C28_torch_batch_independent_refuted : forall sj sy jr, exists o o',
  mie_coefficients sj sy jr alone = Ok o /\ mie_coefficients sj sy jr together = Ok o' /\
  element (a_k0 alone) (r_of alone) (e_of alone) (a_env alone) (fun p l _ => [p; l]) (fun _ => []) 1 0 0 = el1 /\
  element (a_k0 together) (r_of together) (e_of together) (a_env together) (fun p l _ => [p; l]) (fun _ => []) 1 0 0 = el1 /\
  at_ (o_a o) [0; 0; 0] = RtoC 0 /\ at_ (o_a o') [0; 0; 0] <> RtoC 0.
Proof. exact torch_depends. Qed.
Print Assumptions C28_torch_batch_independent_refuted.

(** What the backend does compute: each element gets the scalar core-shell
    coefficients, with the four recurrence depths taken from the largest
    modulus of the corresponding argument over the whole batch. *)
Theorem C28_torch_batch_value : forall sj sy jr (c : @call R) r eps K P L ef vf n,
  backend_is c "torch" -> lower (a_which_jn c) = "recurrence"%string -> inputs_of c = Ok (r, eps) ->
  valid (a_k0 c) r eps (a_env c) K P L ef vf -> 1 <= L <= 2 -> 0 < P -> 0 < K -> (1 <= n)%Z -> a_n_max c = Some n ->
  let el p k := element (a_k0 c) r eps (a_env c) ef vf L p k in
  exists o zy z1 z2 z3, mie_coefficients sj sy jr c = Ok o /\ o_n_max o = n /\
    max_over2 zy P K (fun p k => @cabs R ROps (arg_y (el p k))) /\ max_over2 z1 P K (fun p k => @cabs R ROps (arg_m1x (el p k))) /\
    max_over2 z2 P K (fun p k => @cabs R ROps (arg_m2x (el p k))) /\ max_over2 z3 P K (fun p k => @cabs R ROps (arg_m2y (el p k))) /\
    let co i p k := torch_coeffs (Z.to_nat n) (n_add_auto zy) (n_add_auto z1) (n_add_auto z2) (n_add_auto z3) (el p k) (S i) in
    is3 (o_a o) (Z.to_nat n) P K (fun i p k => an (co i p k)) /\ is3 (o_b o) (Z.to_nat n) P K (fun i p k => bn (co i p k)).
Proof. exact torch_tail. Qed.
Print Assumptions C28_torch_batch_value.

(** The true restricted version: as long as all arguments stay below 22/3 in
    both batches, equal elements get equal coefficients. *)
Theorem C28_torch_batch_small : forall sj sy jr (c c' : @call R) r eps K P L ef vf r' eps' K' P' L' ef' vf' n,
  backend_is c "torch" -> lower (a_which_jn c) = "recurrence"%string -> backend_is c' "torch" -> lower (a_which_jn c') = "recurrence"%string ->
  a_n_max c = Some n -> a_n_max c' = Some n -> (1 <= n)%Z ->
  inputs_of c = Ok (r, eps) -> valid (a_k0 c) r eps (a_env c) K P L ef vf -> 1 <= L <= 2 -> 0 < P -> 0 < K ->
  inputs_of c' = Ok (r', eps') -> valid (a_k0 c') r' eps' (a_env c') K' P' L' ef' vf' -> 1 <= L' <= 2 -> 0 < P' -> 0 < K' ->
  let el p k := element (a_k0 c) r eps (a_env c) ef vf L p k in
  let el' p k := element (a_k0 c') r' eps' (a_env c') ef' vf' L' p k in
  (forall p k, p < P -> k < K -> forall f, In f [arg_y; arg_m1x; arg_m2x; arg_m2y] -> (Cmod (f (el p k)) < 22 / 3)%R) ->
  (forall p k, p < P' -> k < K' -> forall f, In f [arg_y; arg_m1x; arg_m2x; arg_m2y] -> (Cmod (f (el' p k)) < 22 / 3)%R) ->
  exists o o', mie_coefficients sj sy jr c = Ok o /\ mie_coefficients sj sy jr c' = Ok o' /\
    forall p k p' k', p < P -> k < K -> p' < P' -> k' < K' -> el p k = el' p' k' ->
      forall i, i < Z.to_nat n ->
        at_ (o_a o) [i; p; k] = at_ (o_a o') [i; p'; k'] /\ at_ (o_b o) [i; p; k] = at_ (o_b o') [i; p'; k'].
Proof. exact torch_batch_same_depth. Qed.
Print Assumptions C28_torch_batch_small.
Example C28_instance : backend_is alone "torch" /\ lower (a_which_jn alone) = "recurrence"%string /\ a_n_max alone = Some 1%Z /\
  inputs_of alone = Ok (r_of alone, e_of alone) /\
  valid (a_k0 alone) (r_of alone) (e_of alone) (a_env alone) 1 1 1 (fun p l _ => [p; l]) (fun _ => []) /\
  forall f, In f [arg_y; arg_m1x; arg_m2x; arg_m2y] -> (Cmod (f el1) < 22 / 3)%R.
Proof. exact alone_small. Qed.
