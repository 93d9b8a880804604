(** Properties C84 and C85: the hand-written gradients of the SciPy-backed spherical Bessel functions. *)
From Coq Require Import Reals ZArith Lra Lia List Bool Arith.
From Coquelicot Require Import Coquelicot.
From Verif Require Import Ops ROps Tensor ComplexDiff BesselSpec ModelSpecial ModelAutograd AutogradSpec AutogradEnd CenterDiff ExampleAutograd.
Import ListNotations.
Open Scope R_scope.

(** C84: let SciPy return the exact j_n and y_n.  The backward passes turn a gradient of any real loss with respect to the
    table of orders into the gradient (PyTorch's convention) with respect to the argument tensor, ... *)
Theorem C84_jn : forall n L (z g : tensor C), nonzero z ->
  has_grad L (@sph_fn R true_j n z) g -> has_grad (fun z => L (@sph_fn R true_j n z)) z (fst (@backward_fn R ROps true_j n z g)).
Proof. exact jn_grad. Qed.
Print Assumptions C84_jn.
Theorem C84_yn : forall n L (z g : tensor C), nonzero z ->
  has_grad L (@sph_fn R true_y n z) g -> has_grad (fun z => L (@sph_fn R true_y n z)) z (fst (@backward_fn R ROps true_y n z g)).
Proof. exact yn_grad. Qed.
Print Assumptions C84_yn.
Theorem C84_jn_der : forall n L (z g : tensor C), nonzero z ->
  has_grad L (@sph_fn_der R ROps true_j n z) g -> has_grad (fun z => L (@sph_fn_der R ROps true_j n z)) z (fst (@backward_der R ROps true_j n z g)).
Proof. exact jn_der_grad. Qed.
Print Assumptions C84_jn_der.
Theorem C84_yn_der : forall n L (z g : tensor C), nonzero z ->
  has_grad L (@sph_fn_der R ROps true_y n z) g -> has_grad (fun z => L (@sph_fn_der R ROps true_y n z)) z (fst (@backward_der R ROps true_y n z g)).
Proof. exact yn_der_grad. Qed.
Print Assumptions C84_yn_der.
Theorem C84_h1n : forall n L (z g : tensor C), nonzero z ->
  has_grad L (@sph_h1n_t R ROps true_j true_y n z) g ->
  has_grad (fun z => L (@sph_h1n_t R ROps true_j true_y n z)) z (fst (@backward_h1n R ROps true_j true_y n z g)).
Proof. exact h1n_grad. Qed.
Print Assumptions C84_h1n.
Theorem C84_h1n_der : forall n L (z g : tensor C), nonzero z ->
  has_grad L (@sph_h1n_der_t R ROps true_j true_y n z) g ->
  has_grad (fun z => L (@sph_h1n_der_t R ROps true_j true_y n z)) z (fst (@backward_h1n_der R ROps true_j true_y n z g)).
Proof. exact h1n_der_grad. Qed.
Print Assumptions C84_h1n_der.
(** ... because bessel2ndDer is the second derivative, at every order including 0. *)
Theorem C84_second_derivative : forall (z : C) n, z <> RtoC 0 ->
  Cderive (true_j n) z (@der R ROps true_j n z) /\ Cderive (@der R ROps true_j n) z (@bessel2ndDer R ROps true_j n z) /\
  Cderive (true_y n) z (@der R ROps true_y n z) /\ Cderive (@der R ROps true_y n) z (@bessel2ndDer R ROps true_y n z).
Proof. exact (fun z n H => conj (j_der z n H) (conj (j_second z n H) (conj (y_der z n H) (y_second z n H)))). Qed.
Print Assumptions C84_second_derivative.
(* a loss whose gradient is known: the sum of squared moduli; a tensor with a complex and a real entry *)
Example C84_instance : nonzero ex_args /\ (forall w, has_grad energy w (tmap (fun x => RtoC 2 * x)%C w)).
Proof. exact (conj ex_args_nonzero energy_grad). Qed.

(** A backward pass must not change the caller's data.  It does not when no entry is zero; but zero entries of the caller's
    tensor are overwritten by 1e-10 in the derivative classes. *)
Theorem C84_no_write : forall f n (z g : tensor C), nonzero z -> teq (snd (@backward_der R ROps f n z g)) z.
Proof. exact no_write. Qed.
Print Assumptions C84_no_write.
Theorem C84_argument_kept_refuted : exists (z : tensor C) ix, in_bounds (shp z) ix /\
  forall f n g, at_ (snd (@backward_der R ROps f n z g)) ix <> at_ z ix.
Proof. exact (ex_intro _ ex_zero (ex_intro _ [0%nat] (conj (conj (Nat.lt_0_succ 1) I) (fun f n g => writes f n ex_zero g [0%nat] eq_refl)))). Qed.
Print Assumptions C84_argument_kept_refuted.
(** The value written is 1e-10, whatever the order, the function and the incoming gradient. *)
Theorem C84_written_value : forall f n (z g : tensor C) ix, at_ z ix = RtoC 0 -> at_ (snd (@backward_der R ROps f n z g)) ix = RtoC (/ 10 ^ 10).
Proof. exact written. Qed.
Print Assumptions C84_written_value.
Example C84_written_instance : in_bounds (shp ex_zero) [0%nat] /\ at_ ex_zero [0%nat] = RtoC 0.
Proof. exact (conj (conj (Nat.lt_0_succ 1) I) eq_refl). Qed.

(** C85: as the step goes to 0, the numerical derivatives of helper.num_center_diff (taken at the conjugate point), summed
    over the orders, tend to the gradient that the backward pass returns for a cotangent of ones. *)
Theorem C85_jn : forall n (z : tensor C) ix, nonzero z -> in_bounds (shp z) ix ->
  tends_to (fun e => @csum R ROps (map (fun o => @num_center_diff R ROps (true_j o) (at_ (atleast_1d z) (inner z ix)) e) (seq 0 (S n))))
           (at_ (fst (@backward_fn R ROps true_j n z (@ones_like R ROps (@sph_fn R true_j n z)))) ix).
Proof. exact (sum_fn true_j j_der j_conj). Qed.
Print Assumptions C85_jn.
Theorem C85_yn : forall n (z : tensor C) ix, nonzero z -> in_bounds (shp z) ix ->
  tends_to (fun e => @csum R ROps (map (fun o => @num_center_diff R ROps (true_y o) (at_ (atleast_1d z) (inner z ix)) e) (seq 0 (S n))))
           (at_ (fst (@backward_fn R ROps true_y n z (@ones_like R ROps (@sph_fn R true_y n z)))) ix).
Proof. exact (sum_fn true_y y_der y_conj). Qed.
Print Assumptions C85_yn.
Theorem C85_jn_der : forall n (z : tensor C) ix, nonzero z -> in_bounds (shp z) ix ->
  tends_to (fun e => @csum R ROps (map (fun o => @num_center_diff R ROps (@der R ROps true_j o) (at_ (atleast_1d z) (inner z ix)) e) (seq 0 (S n))))
           (at_ (fst (@backward_der R ROps true_j n z (@ones_like R ROps (@sph_fn_der R ROps true_j n z)))) ix).
Proof. exact (sum_der true_j j_second j_conj). Qed.
Print Assumptions C85_jn_der.
Theorem C85_yn_der : forall n (z : tensor C) ix, nonzero z -> in_bounds (shp z) ix ->
  tends_to (fun e => @csum R ROps (map (fun o => @num_center_diff R ROps (@der R ROps true_y o) (at_ (atleast_1d z) (inner z ix)) e) (seq 0 (S n))))
           (at_ (fst (@backward_der R ROps true_y n z (@ones_like R ROps (@sph_fn_der R ROps true_y n z)))) ix).
Proof. exact (sum_der true_y y_second y_conj). Qed.
Print Assumptions C85_yn_der.
(** funct_grad_checker hands out both arrays without that sum.  With order 0 alone they have one shape and agree in the limit, ... *)
Theorem C85_checker_order_zero : forall (z : tensor C), nonzero z -> forall e1 ix, in_bounds (squeeze_shape (shp z)) ix ->
  let out e := @funct_grad_checker R ROps true_j (@backward_fn R ROps true_j 0) 0 z e in
  shp (fst (out e1)) = shp (snd (out e1)) /\
  tends_to (fun e => at_ (fst (out e)) ix) (at_ (snd (out e1)) ix).
Proof.
  exact (fun z Hz e1 ix Hix => conj
    (eq_trans (proj1 (checker_shapes true_j (@backward_fn R ROps true_j 0) 0 z e1 (fun _ _ => eq_refl))) (eq_sym (proj2 (checker_shapes true_j (@backward_fn R ROps true_j 0) 0 z e1 (fun _ _ => eq_refl)))))
    (checker_zero true_j (@backward_fn R ROps true_j 0) z (fun _ _ => eq_refl) (fun ix H => sum_fn true_j j_der j_conj 0 z ix Hz H) e1 ix Hix)).
Qed.
Print Assumptions C85_checker_order_zero.
(** ... but for every higher order the two arrays do not even have the same shape. *)
Theorem C85_checker_comparable_refuted : forall n (z : tensor C) e, (1 <= n)%nat ->
  let out := @funct_grad_checker R ROps true_j (@backward_fn R ROps true_j n) n z e in shp (fst out) <> shp (snd out).
Proof. exact (fun n z e Hn => checker_differ true_j (@backward_fn R ROps true_j n) n z e (fun _ _ => eq_refl) Hn). Qed.
Print Assumptions C85_checker_comparable_refuted.
Example C85_instance : nonzero ex_args /\ in_bounds (shp ex_args) [0%nat] /\ in_bounds (squeeze_shape (shp ex_args)) [1%nat].
Proof. split; [exact ex_args_nonzero|]. cbn. lia. Qed.
