(** Vectors, rotations and illumination sets, stated with plain real and
    complex arithmetic. *)
From Coq Require Import Reals List String.
From Coquelicot Require Import Coquelicot.
Import ListNotations.
Open Scope R_scope.

Definition vec := (R * R * R)%type.
Definition mat := (vec * vec * vec)%type.        (* rows *)
Definition dot (u v : vec) : R := let '(a, b, c) := u in let '(d, e, f) := v in a * d + b * e + c * f.
Definition cross (u v : vec) : vec := let '(a, b, c) := u in let '(d, e, f) := v in (b * f - c * e, c * d - a * f, a * e - b * d).
Definition app (m : mat) (v : vec) : vec := let '(r1, r2, r3) := m in (dot r1 v, dot r2 v, dot r3 v).
Definition tr (m : mat) : mat := let '((a, b, c), (d, e, f), (g, h, i)) := m in ((a, d, g), (b, e, h), (c, f, i)).
Definition mmul (m n : mat) : mat := let '(r1, r2, r3) := m in (app (tr n) r1, app (tr n) r2, app (tr n) r3).
Definition id3 : mat := ((1, 0, 0), (0, 1, 0), (0, 0, 1)).
Definition det (m : mat) : R := let '(r1, r2, r3) := m in dot r1 (cross r2 r3).
Definition rotation (m : mat) : Prop := mmul m (tr m) = id3 /\ mmul (tr m) m = id3 /\ det m = 1.
(* complex vectors *)
Definition cvec := (C * C * C)%type.
Definition inner (u v : cvec) : C := let '(a, b, c) := u in let '(d, e, f) := v in (Cconj a * d + Cconj b * e + Cconj c * f)%C.
Definition capp (m : mat) (v : cvec) : cvec :=
  let '((a, b, c), (d, e, f), (g, h, i)) := m in let '(x, y, z) := v in
  (RtoC a * x + RtoC b * y + RtoC c * z, RtoC d * x + RtoC e * y + RtoC f * z, RtoC g * x + RtoC h * y + RtoC i * z)%C.
Definition cpair (u v : cvec) : C := let '(a, b, c) := u in let '(d, e, f) := v in (a * d + b * e + c * f)%C.
Definition ccross (u v : cvec) : cvec := let '(a, b, c) := u in let '(d, e, f) := v in (b * f - c * e, c * d - a * f, a * e - b * d)%C.
Definition cv_of (v : vec) : cvec := let '(a, b, c) := v in (RtoC a, RtoC b, RtoC c).
Definition csc (c : C) (v : cvec) : cvec := let '(x, y, z) := v in (c * x, c * y, c * z)%C.

(* unit vectors of spherical coordinates *)
Definition e_r (th ph : R) : vec := (sin th * cos ph, sin th * sin ph, cos th).
Definition e_th (th ph : R) : vec := (cos th * cos ph, cos th * sin ph, - sin th).
Definition e_ph (th ph : R) : vec := (- sin ph, cos ph, 0).

(* requested propagation and polarisation of an illumination: the wave vector
   lies in the plane, at the given angle from its second axis; "s" is normal
   to the plane, "p" in the plane *)
Open Scope string_scope.
Inductive plane := XZ | YZ | XY.
Definition plane_name (p : plane) : string := match p with XZ => "xz" | YZ => "yz" | XY => "xy" end.
Definition first_axis (p : plane) : vec := match p with XZ | XY => (1, 0, 0) | YZ => (0, 1, 0) end.
Definition second_axis (p : plane) : vec := match p with XZ | YZ => (0, 0, 1) | XY => (0, 1, 0) end.
Definition normal_axis (p : plane) : vec := match p with XZ => (0, 1, 0) | YZ => (1, 0, 0) | XY => (0, 0, 1) end.
Definition comb (a : R) (u : vec) (b : R) (v : vec) : vec := let '(x, y, z) := u in let '(x', y', z') := v in (a * x + b * x', a * y + b * y', a * z + b * z').
Definition k_want (p : plane) (al : R) : vec := comb (sin al) (first_axis p) (cos al) (second_axis p).
Definition e_want (p : plane) (s : bool) (al : R) : vec := if s then normal_axis p else comb (- cos al) (first_axis p) (sin al) (second_axis p).
Definition pol_name (s : bool) : string := if s then "s" else "p".
