(** Property C98: very small particles in rounded arithmetic. *)
From Coq Require Import Reals ZArith Lra Lia List Arith.
From Coquelicot Require Import Coquelicot.
From Verif Require Import Ops ROps Spec ModelSpecial ModelMie ModelRound RoundSpec SmallSpec SmallNearest SmallEnd.
Import ListNotations.
Open Scope R_scope.
Arguments Cmod x%C_scope.

(** C98: rounding to the nearest number with p fractional bits has precision 2^-p and absorbs terms below 2^-(p+3). *)
Theorem C98_nearest : forall p : nat, precise ((1 / 2) ^ p) (nearest p) /\ absorbing ((1 / 2) ^ (p + 3)) (nearest p).
Proof. exact (fun p => conj (nearest_precise p) (nearest_absorbing p)). Qed.
Print Assumptions C98_nearest.
(** C98: in every such arithmetic the computed psi_n of a small argument is exactly 0 for all orders from 1 on ... *)
Theorem C98_psi_collapse : forall (u v : R) (A : arithmetic) (x : R) (n_max n_add n : nat), 0 <= u <= 1 / 100 -> precise u A -> absorbing v A ->
  2 * @eps30 R ROps <= x -> x <= 1 / 10 -> x * x <= v / 2 -> (1 <= n <= n_max + n_add)%nat -> @ppsi R (ar_ops A) n_max n_add (RtoC x) n = RtoC 0.
Proof. exact collapse. Qed.
Print Assumptions C98_psi_collapse.
(** ... so all coefficients of order 2 and above are 0, whatever the layers are made of ... *)
Theorem C98_high_orders : forall (u v : R) (A : arithmetic) (l0 : C * C) (rest : list (C * C)) (n_max n_add : nat) (x : R) (n : nat), 0 <= u <= 1 / 100 -> precise u A -> absorbing v A ->
  snd (last rest l0) = RtoC x -> 2 * @eps30 R ROps <= x -> x <= 1 / 10 -> x * x <= v / 2 -> (2 <= n <= n_max + n_add)%nat ->
  @pena_ab R (ar_ops A) n_max n_add l0 rest n = (RtoC 0, RtoC 0).
Proof. exact high_orders. Qed.
Print Assumptions C98_high_orders.
(** ... and every sphere gets a magnetic dipole coefficient of order x^3, whatever its (real) index. *)
Theorem C98_ghost_dipole : forall (u v : R) (A : arithmetic) (x m : R) (n_max n_add : nat), 0 <= u <= 1 / 100 -> precise u A -> absorbing v A ->
  4 * @eps30 R ROps <= x -> x <= 1 / 20 -> x * x <= v / 4 -> 0 < m -> 4 * @eps30 R ROps <= m * x -> m * x <= 1 / 20 -> (m * x) * (m * x) <= v / 4 -> (2 <= n_max + n_add)%nat ->
  x * x * x / 10 <= Cmod (snd (@pena_ab R (ar_ops A) n_max n_add (RtoC m, RtoC x) [] 1)).
Proof. exact ghost. Qed.
Print Assumptions C98_ghost_dipole.
(** C98: exact arithmetic gives no scattering at all for a sphere of the surrounding material ... *)
Theorem C98_transparent : forall (n_max n_add : nat) (x : R), @eps30 R ROps <= x <= 1 -> (2 <= n_max + n_add)%nat ->
  @pena_ab R ROps n_max n_add (RtoC 1, RtoC x) [] 1 = (RtoC 0, RtoC 0).
Proof. exact exact_transparent. Qed.
Print Assumptions C98_transparent.
(** ... which fails with 52 fractional bits and rounding to nearest at the size parameter 10^-9. *)
Theorem C98_relative_accuracy_refuted : forall n_max : nat,
  @pena_ab R ROps n_max 15 (RtoC 1, RtoC (1 / 10 ^ 9)) [] 1 = (RtoC 0, RtoC 0) /\
  (1 / 10 ^ 9) * (1 / 10 ^ 9) * (1 / 10 ^ 9) / 10 <= Cmod (snd (@pena_ab R (ar_ops (nearest 52)) n_max 15 (RtoC 1, RtoC (1 / 10 ^ 9)) [] 1)).
Proof. exact double_refuted. Qed.
Print Assumptions C98_relative_accuracy_refuted.
(* a glass sphere in double precision meets the hypotheses of the ghost dipole *)
Example C98_instance : let x := 1 / 10 ^ 9 / 2 in let m := 3 / 2 in let v := (1 / 2) ^ (52 + 3) in
  0 <= (1 / 2) ^ 52 <= 1 / 100 /\ 4 * @eps30 R ROps <= x /\ x <= 1 / 20 /\ x * x <= v / 4 /\ 0 < m /\ 4 * @eps30 R ROps <= m * x /\ m * x <= 1 / 20 /\ (m * x) * (m * x) <= v / 4.
Proof. exact glass_ok. Qed.
