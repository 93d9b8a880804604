(** C64, C65: optional arguments and small entries of the torch Bessel routines. *)
From Coq Require Import Reals ZArith List Bool String Arith Lia Lra.
From Coquelicot Require Import Coquelicot.
From Verif Require Import Ops ROps Tensor TensorProofs ModelSpecial ModelMie ModelBatch ModelJn JnProofs ExampleJn.
Import ListNotations.
Open Scope nat_scope.
Open Scope list_scope.

(** C64: false.  Every integer n_add is rejected: the code calls
    n_add.lower(), which integers do not have. *)
Theorem C64_integer_n_add_refuted : forall (k : Z) n (z : tensor (cplx R)), (1 <= k)%Z ->
  @sph_jn_torch_via_rec R ROps (AInt k) n z = Err AttributeError /\ @D1n_torch_t R ROps (AInt k) n z = Err AttributeError.
Proof. exact n_add_int. Qed.
Print Assumptions C64_integer_n_add_refuted.

(** What works: the default "auto" on every non-empty tensor, with a depth
    between 10 and 35 common to all entries. *)
Theorem C64_auto_n_add : forall n (z : tensor (cplx R)) ix, in_bounds (shp z) ix ->
  exists d v, @sph_jn_torch_via_rec R ROps (AStr "auto") n z = Ok v /\ 10 <= d <= 35 /\ shp v = S n :: shp (atleast_1d z) /\
    forall i ix', at_ v (i :: ix') = @sph_jn_via_rec R ROps n d (at_ (atleast_1d z) ix') i.
Proof. exact via_rec_auto. Qed.
Print Assumptions C64_auto_n_add.
Example C64_instance : in_bounds (shp ex_vec) [1] /\ at_ ex_vec [1] = RtoC 2.
Proof. exact ex_vec_ok. Qed.

(** C65: false.  With two or more axes a single entry of modulus below 1e-8
    makes sph_jn_torch raise, whatever the other entries and arguments. *)
Theorem C65_small_any_rank_refuted : forall pi a n (z : tensor (cplx R)) ix,
  1 <= n -> 2 <= ndim z -> in_bounds (shp z) ix -> (Cmod (at_ z ix) < / 100000000)%R ->
  @sph_jn_torch R ROps pi a n z = Err RuntimeError.
Proof. exact jn_small_fails. Qed.
Print Assumptions C65_small_any_rank_refuted.
Example C65_instance : 2 <= ndim ex_mat /\ in_bounds (shp ex_mat) [1; 0] /\ (Cmod (at_ ex_mat [1; 0]%nat) < / 100000000)%R /\ at_ ex_mat [0; 0] = RtoC 1.
Proof. exact ex_mat_ok. Qed.

(** What works: scalars and vectors of any content, and any rank without
    small entries; both for "auto" and for an integer. *)
Theorem C65_small_vectors : forall pi n (z : tensor (cplx R)), fine z ->
  (exists e v, @sph_jn_torch R ROps pi (AStr "auto") n z = Ok v /\ shp v = S n :: shp (atleast_1d z) /\
    ((exists ix, in_bounds (shp z) ix /\ (/ 100000000 <= Cmod (at_ z ix))%R) -> 20 <= e <= 50) /\
    forall i ix, at_ v (i :: ix) = @sph_jn_ratio R ROps n e (at_ (atleast_1d z) ix) i) /\
  (forall k, exists v, @sph_jn_torch R ROps pi (AInt (Z.of_nat k)) n z = Ok v /\ shp v = S n :: shp (atleast_1d z) /\
    forall i ix, in_bounds (shp (atleast_1d z)) ix -> at_ v (i :: ix) = @sph_jn_ratio R ROps n k (at_ (atleast_1d z) ix) i).
Proof. exact jn_fine. Qed.
Print Assumptions C65_small_vectors.
Example C65_vector_instance : fine ex_small_vec /\ (Cmod (at_ ex_small_vec [0]%nat) < / 100000000)%R.
Proof. exact ex_small_vec_ok. Qed.
