(** Inputs for the instances of C100: two particles of two layers at three
    wavelengths, positions (1, 2, 3), (1, -2, 3), (-1, 2, 3) and (5, 0, 3). *)
From Coq Require Import Reals ZArith List Bool String Arith Lra Lia.
From Coquelicot Require Import Complex.
From Verif Require Import Ops ROps Tensor ModelSpecial ModelMie ModelBatch BroadcastSpec BroadcastProofs BatchReal TruncProofs TorchBatch ExampleBatch ModelNear ModelNearPena MirrorSpec.
Import ListNotations.
Open Scope R_scope.
Definition ex_mirror : tensor R := mkT [4; 3]%nat (fun ix =>
  nth (nth 1 ix 0%nat) (nth (nth 0 ix 0%nat) [[1; 2; 3]; [1; -2; 3]; [-1; 2; 3]; [5; 0; 3]] []) 0).
Lemma ex_mirror_o sj sy jr : exists o, mie_coefficients sj sy jr (without_internal (ex_call "pena" (Some 4%Z))) = Ok o /\ o_n_max o = 4%Z.
Proof.
  destruct (pena_tail sj sy jr (without_internal (ex_call "pena" (Some 4%Z))) ex_r ex_eps 3 2 2 _ _ 4%Z eq_refl eq_refl (ex_inputs _ _) (ex_valid _ _) ltac:(lia) ltac:(lia) (or_introl eq_refl)) as (o & Ho & Eo & _). eauto.
Qed.
Lemma ex_mirror_y : mirror_y ex_mirror 0 1.
Proof. repeat split; cbn; ring. Qed.
Lemma ex_mirror_x : mirror_x ex_mirror 0 2.
Proof. repeat split; cbn; ring. Qed.
