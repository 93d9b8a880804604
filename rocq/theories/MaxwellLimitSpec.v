(** The scattering problem solved by the limits of the multipole series (C90).  No reference to the model's code. *)
From Coq Require Import Reals List Arith.
From Coquelicot Require Import Coquelicot.
From Verif Require Import Ops ROps Spec ModelNear NearSpec MaxwellSpec NearLimitSpec SeriesSpec.
Import ListNotations.
Open Scope R_scope.

(* the size parameter s = k0 n_env r lies in the interior of region i *)
Definition open_region (layers : list (C * C)) (i : nat) (s : R) : Prop :=
  0 < s /\ match i with O => True | S j => fst (size_at layers j) < s end /\ ((i < length layers)%nat -> s < fst (size_at layers i)).
(* the same with the interfaces *)
Definition closed_region (layers : list (C * C)) (i : nat) (s : R) : Prop :=
  0 < s /\ match i with O => True | S j => fst (size_at layers j) <= s end /\ ((i < length layers)%nat -> s <= fst (size_at layers i)).
(* E and H are, at radius r, the limits of the expansions with amplitudes A of a region of absolute index m (out: the scattered field) *)
Definition series_limit (k0 : R) (m E0 : C) (out : bool) (A : nat -> @amps R) (E H : sph_field) (r : R) : Prop :=
  fast_field (fun N th ph => true_E k0 m E0 out A N r th ph) (E r) /\ fast_field (fun N th ph => true_H k0 m E0 out A N r th ph) (H r).
(* tangential E and H, and the normal components of m^2 E and of H, agree at one point *)
Definition match_at (m m' : C) (E H E' H' : cvec) : Prop :=
  c_th E = c_th E' /\ c_ph E = c_ph E' /\ c_th H = c_th H' /\ c_ph H = c_ph H' /\ (m * m * c_r E)%C = (m' * m' * c_r E')%C /\ c_r H = c_r H'.
(* the radius r lies strictly between the interfaces of region i of a particle with these radii *)
Definition strictly_in (radii : list R) (i : nat) (r : R) : Prop :=
  0 < r /\ match i with O => True | S j => nth j radii 0 < r end /\ ((i < length radii)%nat -> r < nth i radii 0).
