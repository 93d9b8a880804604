(** Example tensors for PropsJn.v. *)
From Coq Require Import Reals ZArith List Bool String Arith Lia Lra.
From Coquelicot Require Import Coquelicot.
From Verif Require Import Ops ROps Tensor TensorProofs ModelSpecial ModelMie ModelBatch ModelJn JnProofs ExampleBatch.
Import ListNotations.
Open Scope nat_scope.
Open Scope list_scope.

Lemma n_add_int (k : Z) n (z : tensor (cplx R)) : (1 <= k)%Z ->
  @sph_jn_torch_via_rec R ROps (AInt k) n z = Err AttributeError /\ @D1n_torch_t R ROps (AInt k) n z = Err AttributeError.
Proof. intros _. split; reflexivity. Qed.
Lemma jn_fine pi n (z : tensor (cplx R)) : fine z ->
  (exists e v, @sph_jn_torch R ROps pi (AStr "auto") n z = Ok v /\ shp v = S n :: shp (atleast_1d z) /\
    ((exists ix, in_bounds (shp z) ix /\ (/ 100000000 <= Cmod (at_ z ix))%R) -> 20 <= e <= 50) /\
    forall i ix, at_ v (i :: ix) = @sph_jn_ratio R ROps n e (at_ (atleast_1d z) ix) i) /\
  (forall k, exists v, @sph_jn_torch R ROps pi (AInt (Z.of_nat k)) n z = Ok v /\ shp v = S n :: shp (atleast_1d z) /\
    forall i ix, in_bounds (shp (atleast_1d z)) ix -> at_ v (i :: ix) = @sph_jn_ratio R ROps n k (at_ (atleast_1d z) ix) i).
Proof. intros Hf. split; [now apply jn_auto_ok|]. intros k. now apply jn_int_ok. Qed.

Definition ex_vec : tensor (cplx R) := cv [1; 2]%R.
Lemma ex_vec_ok : in_bounds (shp ex_vec) [1] /\ at_ ex_vec [1] = RtoC 2.
Proof. split; [cbn; lia|reflexivity]. Qed.
Definition ex_mat : tensor (cplx R) := cm [[1; 2]; [0; 3]]%R.
Lemma Cmod_zero_small : (Cmod (RtoC 0) < / 100000000)%R.
Proof. rewrite Cmod_0. lra. Qed.
Lemma ex_mat_ok : 2 <= ndim ex_mat /\ in_bounds (shp ex_mat) [1; 0] /\ (Cmod (at_ ex_mat [1; 0]%nat) < / 100000000)%R /\ at_ ex_mat [0; 0] = RtoC 1.
Proof. split; [cbn; lia|]. split; [cbn; lia|]. split; [exact Cmod_zero_small|reflexivity]. Qed.
Definition ex_small_vec : tensor (cplx R) := cv [0; 3]%R.
Lemma ex_small_vec_ok : fine ex_small_vec /\ (Cmod (at_ ex_small_vec [0]%nat) < / 100000000)%R.
Proof. split; [left; cbn; lia|exact Cmod_zero_small]. Qed.
