(** Specification for C105: what automatic support points must be. *)
From Coq Require Import Reals List.
From Verif Require Import AutogradSpec.
Import ListNotations.
Open Scope R_scope.

(** n different positions around the centre, none farther out than nine tenths
    of the radius of the sphere *)
Record good_support (n : nat) (r : R) (l : list (R * R * R)) : Prop := {
  gs_count : length l = n;
  gs_differ : NoDup l;
  gs_centred : rsum (map (fun v => fst (fst v)) l) = 0 /\ rsum (map (fun v => snd (fst v)) l) = 0 /\ rsum (map snd l) = 0;
  gs_inside : forall x y z, In (x, y, z) l -> sqrt (x * x + y * y + z * z) <= 9 / 10 * r }.
