(** C101: accuracy of the default recurrence depth of pena_D1_n. *)
From Coq Require Import Reals ZArith Lra Lia Bool List String Arith.
From Coquelicot Require Import Coquelicot.
From Verif Require Import Ops ROps Tensor Spec CTrig ComplexDiff ModelSpecial ModelMie ModelBatch BroadcastSpec BroadcastProofs BatchReal TruncReal ExampleBatch
  BesselSpec StackSpec ConvergeSpec StackProofs StackConverge BesselFinal ExampleTrue DepthSpec DepthProofs DepthShallow DepthWitness DepthEnd.
Import ListNotations.
Open Scope R_scope.

(** C101: started at order N, the recurrence is off at order n >= |z| by at
    most 2 |z|/N times a factor (|z| / (2k+1-|z|))^2 for every order crossed. *)
Theorem C101_rate : forall (N n : nat) (z : C), @eps30 R ROps <= Cmod z -> (1 <= n < N)%nat -> Cmod z <= INR n ->
  true_psi n z <> RtoC 0 /\ exists d, Cderive (true_psi n) z d /\
    Cmod (@D1_at R ROps eps30 N z n - d / true_psi n z)%C <= depth_error (Cmod z) n (N - 1 - n).
Proof. exact depth_rate. Qed.
Print Assumptions C101_rate.
(** C101: with the default n_add = 15 and n_max at least |z| + 14, all orders
    from |z| on are within 2 (|z| / (|z| + 29))^29. *)
Theorem C101_default : forall (n_max n : nat) (z : C), @eps30 R ROps <= Cmod z -> (1 <= n <= n_max)%nat -> Cmod z <= INR n -> Cmod z + 14 <= INR n_max ->
  true_psi n z <> RtoC 0 /\ exists d, Cderive (true_psi n) z d /\
    Cmod (@pD1 R ROps n_max 15 z n - d / true_psi n z)%C <= 2 * (Cmod z / (Cmod z + 29)) ^ 29.
Proof. exact default_depth. Qed.
Print Assumptions C101_default.
(** C101: the automatic n_max of the pena backend is that large for every
    argument of every layer, particle and wavelength. *)
Theorem C101_automatic : forall sj sy jr (c : @call R) o r eps K P L ef vf,
  mie_coefficients sj sy jr c = Ok o -> backend_is c "pena" -> a_n_max c = None -> inputs_of c = Ok (r, eps) ->
  valid (a_k0 c) r eps (a_env c) K P L ef vf -> (0 < P)%nat -> (0 < L)%nat -> (0 < K)%nat ->
  forall p k, (p < P)%nat -> (k < K)%nat -> let e := element (a_k0 c) r eps (a_env c) ef vf L p k in let n_max := Z.to_nat (o_n_max o) in
  forall z n, @eps30 R ROps <= Cmod z -> (Cmod z <= outer_size e \/ exists l, (l < L)%nat /\ Cmod z <= layer_size e l) -> (1 <= n <= n_max)%nat -> Cmod z <= INR n ->
  true_psi n z <> RtoC 0 /\ exists d, Cderive (true_psi n) z d /\
    Cmod (@pD1 R ROps n_max 15 z n - d / true_psi n z)%C <= 2 * (Cmod z / (Cmod z + 29)) ^ 29.
Proof. exact auto_depth. Qed.
Print Assumptions C101_automatic.
(** C101: these sizes are the moduli of the arguments m_l x_l and x_L of the code. *)
Theorem C101_arguments : forall (e : R * C * list (R * C)) l, @csqrt R ROps (snd (fst e)) <> RtoC 0 ->
  let lay := @layer_of R ROps (fst (fst e)) (snd (fst e)) (nth l (snd e) (0, RtoC 0)) in
  let out := @layer_of R ROps (fst (fst e)) (snd (fst e)) (last (snd e) (0, RtoC 0)) in
  Cmod (fst lay * snd lay)%C = layer_size e l /\ Cmod (snd out) = outer_size e.
Proof. exact arguments. Qed.
Print Assumptions C101_arguments.
(** C101: at the shipped depth every coefficient tends to the solution of the
    boundary-value problem as more orders are requested. *)
Theorem C101_shipped_limit : forall (tm : bool) (n : nat) (l0 : C * C) (rest : list (C * C)),
  (1 <= n)%nat -> regular_stack (@eps30 R ROps) l0 rest n ->
  exists a : C, tends (fun n_max => sel tm (@pena_ab R ROps n_max 15 l0 rest n)) a /\
    (exists AB0 amps, solves tm (true_rf n) (true_rf n) l0 rest AB0 amps a (RtoC 1)) /\
    (forall AB0 amps A B, solves tm (true_rf n) (true_rf n) l0 rest AB0 amps A B -> A = (a * B)%C).
Proof. exact shipped_limit. Qed.
Print Assumptions C101_shipped_limit.
(** C101: a caller who asks for one order only gets a recurrence of depth 16
    whatever the argument: at every large real z the result is of order -z. *)
Theorem C101_one_order : forall z : R, 1000 <= z -> @eps30 R ROps * z <= 1 ->
  exists d, @pD1 R ROps 1 15 (RtoC z) 1 = RtoC d /\ 2 / z - z / 135 <= d <= 2 / z - z / 142.
Proof. exact one_order. Qed.
Print Assumptions C101_one_order.
(** C101: so coefficients depend on how many orders are requested. Sphere of
    index 1600/801 and size parameter 400 pi + pi/2: the Lorenz-Mie b_1 is 1,
    the code with n_max = 1 returns less than 1/5. *)
Theorem C101_requested_refuted : exists m x : R, 1 < m < 2 /\ 0 < x /\ bh_b (RtoC m) (RtoC x) 1 = RtoC 1 /\
  Cmod (snd (@pena_ab R ROps 1 15 (RtoC m, RtoC x) [] 1)) <= / 5.
Proof. exact witness. Qed.
Print Assumptions C101_requested_refuted.

(** |z| <= 10: below 1e-16 *)
Example C101_instance : forall (n_max n : nat) (z : C), 1 <= Cmod z <= 10 -> (10 <= n <= n_max)%nat -> (24 <= n_max)%nat ->
  exists d, Cderive (true_psi n) z d /\ Cmod (@pD1 R ROps n_max 15 z n - d / true_psi n z)%C <= / 10 ^ 16.
Proof.
  intros n_max n z Hz Hn HN. assert (A : 10 <= INR n) by (replace 10 with (INR 10) by (cbn; ring); apply le_INR; lia).
  assert (B : 24 <= INR n_max) by (replace 24 with (INR 24) by (cbn; ring); apply le_INR; lia).
  destruct (C101_default n_max n z ltac:(pose proof e30_le1; lra) ltac:(lia) ltac:(lra) ltac:(lra)) as (_ & d & Hd & H). exists d. split; [exact Hd|].
  eapply Rle_trans; [exact H|]. apply ten_bound. lra.
Qed.
Example C101_instance_one : exists d, @pD1 R ROps 1 15 (RtoC 1000) 1 = RtoC d /\ d <= - 7.
Proof. destruct (C101_one_order 1000 ltac:(lra) ltac:(pose proof e30_size; lra)) as (d & H & B). exists d. split; [exact H|lra]. Qed.
Example C101_instance_auto : a_n_max (ex_call "pena" None) = None /\ backend_is (ex_call "pena" None) "pena" /\
  valid (a_k0 (ex_call "pena" None)) ex_r ex_eps (a_env (ex_call "pena" None)) 3 2 2 (fun p l _ => [p; l]) (fun _ => []).
Proof. exact (conj eq_refl (conj eq_refl (ex_valid _ _))). Qed.
Example C101_instance_layers : regular_stack (@eps30 R ROps) (RtoC 3, RtoC (1/4)) [(RtoC (3/2), RtoC (1/2))] 1.
Proof. exact layered_regular. Qed.
