(** Passive layered particles in a lossless environment (C82).  No reference to the model. *)
From Coq Require Import Reals List Arith.
From Coquelicot Require Import Coquelicot.
From Verif Require Import NearSpec.
Import ListNotations.

(* Im (m^2) >= 0 in every layer (no gain); real size parameters, positive and
   not decreasing outwards (lossless environment) *)
Definition passive_stack (layers : list (C * C)) : Prop :=
  forall i, (i < length layers)%nat -> let m := index_at layers i in let x := size_at layers i in
    m <> RtoC 0 /\ (0 <= snd (m * m)%C)%R /\ snd x = 0%R /\ (0 < fst x)%R /\
    ((S i < length layers)%nat -> (fst x <= fst (size_at layers (S i)))%R).
