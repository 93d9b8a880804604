(** Power through a sphere around the origin (C81).  No reference to the model. *)
From Coq Require Import Reals.
From Coquelicot Require Import Coquelicot.
From Verif Require Import MaxwellSpec.
Open Scope R_scope.

(* radial component of Re (E x H* ), in units of 1 / Z_0 (twice the time-averaged Poynting vector) *)
Definition poynting_r (E H : cvec) : R := fst (c_th E * Cconj (c_ph H) - c_ph E * Cconj (c_th H))%C.
(* P is the integral of the radial Poynting vector over the sphere of radius r; both integrals exist *)
Definition sphere_power (E H : sph_field) (r P : R) : Prop :=
  exists g : R -> R, (forall th, is_RInt (fun ph => poynting_r (E r th ph) (H r th ph)) 0 (2 * PI) (g th)) /\
    is_RInt (fun th => r * r * sin th * g th) 0 PI P.
