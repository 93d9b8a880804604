(** C91, C92: the log-derivative routines of special.py. *)
From Coq Require Import Reals ZArith List Bool String Arith Lia Lra.
From Coquelicot Require Import Coquelicot.
From Verif Require Import Ops ROps Tensor ComplexDiff ModelSpecial ModelMie ModelBatch ModelJn ModelLogdir BesselSpec ConvergeSpec LogdirProofs LogdirDead.
Import ListNotations.
Open Scope nat_scope.
Open Scope list_scope.

(** C91: D1n_torch tends to psi_n'/psi_n as the depth grows, at every argument
    where psi_n and the higher orders do not vanish. *)
Theorem C91_D1_limit : forall (n_max n : nat) (z : C),
  (@rtenth R ROps 10 <= Cmod z)%R -> (forall k, n <= k -> true_psi k z <> RtoC 0) ->
  exists d, Cderive (true_psi n) z d /\ tends (fun n_add => @D1n_torch R ROps n_max n_add z n) (d / true_psi n z)%C.
Proof. exact logdir_D1_limit. Qed.
Print Assumptions C91_D1_limit.
(** C91: error of a finite depth, for orders beyond |z|. *)
Theorem C91_D1_rate : forall (n_max n_add n : nat) (z : C),
  (@rtenth R ROps 10 <= Cmod z)%R -> 1 <= n < n_max + n_add -> (Cmod z <= INR n)%R ->
  true_psi n z <> RtoC 0 /\ exists d, Cderive (true_psi n) z d /\
    (Cmod (@D1n_torch R ROps n_max n_add z n - d / true_psi n z)%C <= 2 * (Cmod z / (Cmod z + 1)) ^ (2 * (n_max + n_add - 1 - n)))%R.
Proof. exact logdir_D1_rate. Qed.
Print Assumptions C91_D1_rate.
(** C91: D3n_torch returns psi_n zeta_n and zeta_n'/zeta_n: exactly when fed with
    the exact D1, and in the limit when fed with the output of D1n_torch. *)
Theorem C91_D3 : forall (n : nat) (z : C),
  (@rtenth R ROps 10 <= Cmod z)%R -> (forall k, true_psi k z <> RtoC 0) -> (forall j, j <= n -> true_zeta j z <> RtoC 0) ->
  exists D1 : nat -> C, (forall k, Cderive (true_psi k) z (D1 k * true_psi k z)%C) /\
  exists d, Cderive (true_zeta n) z d /\
    @D3n_torch R ROps z D1 n = ((true_psi n z * true_zeta n z)%C, (d / true_zeta n z)%C) /\
    (forall n_max, tends (fun n_add => fst (@D3n_torch R ROps z (@D1n_torch R ROps n_max n_add z) n)) (true_psi n z * true_zeta n z)%C /\
       tends (fun n_add => snd (@D3n_torch R ROps z (@D1n_torch R ROps n_max n_add z) n)) (d / true_zeta n z)%C).
Proof. exact logdir_D3. Qed.
Print Assumptions C91_D3.
Example C91_instance : (@rtenth R ROps 10 <= Cmod (RtoC (1 / 2)))%R /\
  (forall k, true_psi k (RtoC (1 / 2)) <> RtoC 0) /\ (forall j, true_zeta j (RtoC (1 / 2)) <> RtoC 0).
Proof. exact half_ok. Qed.

(** C92: false.  psi_torch_logdir never returns a tensor: where it does not raise
    it returns None. *)
Theorem C92_psi_refuted : forall n (x : tensor (cplx R)) r, @psi_torch_logdir R ROps n x = Ok r -> r = RetNone.
Proof. exact psi_logdir_none. Qed.
Print Assumptions C92_psi_refuted.
(** Which of the two: layers on the first axis, points on the others. *)
Theorem C92_psi_cases : forall n L b s (x : tensor (cplx R)) ix, shp x = S L :: b :: s -> in_bounds (shp x) ix ->
  @psi_torch_logdir R ROps n x = if 8 <=? n then Ok RetNone else Err IndexError.
Proof. exact psi_cases. Qed.
Print Assumptions C92_psi_cases.
(** C92: xi_torch_logdir raises for all arguments, an IndexError for ordinary ones. *)
Theorem C92_xi_refuted : forall n (x : tensor (cplx R)), exists e, @xi_torch_logdir R ROps n x = Err e.
Proof. exact xi_logdir_err. Qed.
Print Assumptions C92_xi_refuted.
Theorem C92_xi_error : forall n (x : tensor (cplx R)) L b s ix, shp x = S L :: b :: s -> in_bounds (shp x) ix ->
  @xi_torch_logdir R ROps n x = Err IndexError.
Proof. exact xi_index_error. Qed.
Print Assumptions C92_xi_error.
(** C92: Ql_torch raises for all arguments. *)
Theorem C92_Ql_refuted : forall n (m x : tensor (cplx R)), exists e, @Ql_torch R ROps n m x = Err e.
Proof. exact Ql_err. Qed.
Print Assumptions C92_Ql_refuted.
(** Its order 0 divides by zero for every argument (special.py:1362). *)
Theorem C92_Ql_denominator : forall z2 : C, @Ql_den0 R ROps z2 = RtoC 0.
Proof. exact Ql_den0_zero. Qed.
Print Assumptions C92_Ql_denominator.
Example C92_instance : shp (mkT [2; 3] (fun _ => RtoC 1)) = 2 :: 3 :: [] /\ in_bounds (shp (mkT [2; 3] (fun _ => RtoC 1))) [1; 2].
Proof. cbn. repeat split; lia. Qed.
