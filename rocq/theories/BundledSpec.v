(** What the bundled material data should be (C93).  No reference to the model. *)
From Coq Require Import Reals List String Ascii.
From Coquelicot Require Import Coquelicot.
Import ListNotations.
Open Scope string_scope.

(* a permittivity that absorbs, or a transparent medium with a real index *)
Definition physical (e : C) : Prop := (0 < snd e \/ snd e = 0 /\ 0 < fst e)%R.
(* validity ranges of the dispersion formulas, in nm; tables have no limits (the
   end values are continued) *)
Definition formula_ranges : list (string * (R * R)) :=
  [("Al2O3e_Malitson1972.yml", (200, 5000)); ("Al2O3o_Malitson1972.yml", (200, 5000)); ("Si3N4_Luke2015.yml", (310, 5504));
   ("SiO2_Malitson1965.yml", (210, 6700)); ("ZrO2_Wood1982.yml", (361, 5135))]%R.
Definition valid_at (file : string) (x : R) : Prop := forall a b, In (file, (a, b)) formula_ranges -> (a <= x <= b)%R.
(* a data file is called <material>_<reference> *)
Fixpoint no_underscore (s : string) : Prop :=
  match s with EmptyString => True | String c s' => c <> "_"%char /\ no_underscore s' end.
Definition file_for (material file : string) : Prop := no_underscore material /\ exists rest, file = (material ++ "_" ++ rest)%string.
