(** A tensor with real and complex entries, for C84 and C85. *)
From Coq Require Import Reals ZArith Lra Lia List Bool Arith.
From Coquelicot Require Import Coquelicot.
From Verif Require Import Ops ROps Tensor BesselSpec ModelAutograd AutogradSpec AutogradEnd.
Import ListNotations.
Open Scope R_scope.

Definition ex_args : tensor C := vec_t (RtoC 0) [(1, 1); (2, 0)].
Lemma ex_args_nonzero : nonzero ex_args.
Proof.
  intros [|i [|j ix]]; cbn [ex_args vec_t shp length in_bounds]; try tauto.
  intros [Hi _] E. destruct i as [|[|i]]; [| |lia]; cbn in E; apply (f_equal fst) in E; cbn in E; lra.
Qed.
Definition ex_zero : tensor C := vec_t (RtoC 0) [RtoC 0; (2, 0)].
