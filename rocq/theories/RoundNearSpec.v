(** Fields and positions that approach exact ones as the precision grows (C108);
    the smoothness conditions are those of GradNearSpec.v. *)
From Coq Require Import Reals List.
From Coquelicot Require Import Coquelicot.
From Verif Require Import Ops ROps ModelNear ModelRound RoundSpec.

(* three complex components *)
Definition settles_vec (q : arithmetic -> @vec3 R) (v : @vec3 R) : Prop :=
  csettles (fun A => v1 (q A)) (v1 v) /\ csettles (fun A => v2 (q A)) (v2 v) /\ csettles (fun A => v3 (q A)) (v3 v).
Definition settles_point (q : arithmetic -> @point R) (P : @point R) : Prop :=
  settles (fun A => pt_r (q A)) (pt_r P) /\ settles (fun A => pt_theta (q A)) (pt_theta P) /\ settles (fun A => pt_phi (q A)) (pt_phi P).
(* a Cartesian position off the x = 0 plane, off the half plane where the azimuth
   jumps, and off the cone around the z axis in which helper.py:251 clamps; here
   e may be 0, the limit of the machine epsilon *)
Definition off_axis (e x y z : R) : Prop :=
  (x <> 0 /\ (0 < x \/ y <> 0) /\ Rabs z < (1 - e) * sqrt (x * x + y * y + z * z))%R.
