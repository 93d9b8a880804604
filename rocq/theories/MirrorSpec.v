(** Azimuthal dependence and mirror images of the fields of an x-polarised wave (C100). *)
From Coq Require Import Reals List.
From Coquelicot Require Import Complex.
From Verif Require Import Ops Tensor.
Import ListNotations.
Open Scope R_scope.

(** Cartesian components; E varies with the azimuth like a vector driven along x, H like one driven along y *)
Definition e_azimuth (u v w : C) (ph : R) : C * C * C :=
  ((RtoC (cos ph * cos ph) * u - RtoC (sin ph * sin ph) * w)%C, (RtoC (sin ph * cos ph) * (u + w))%C, (RtoC (cos ph) * v)%C).
Definition h_azimuth (u v w : C) (ph : R) : C * C * C :=
  ((RtoC (sin ph * cos ph) * (u + w))%C, (RtoC (sin ph * sin ph) * u - RtoC (cos ph * cos ph) * w)%C, (RtoC (sin ph) * v)%C).

(** components multiplied by signs *)
Definition signs (a b c : R) (F : C * C * C) : C * C * C := ((RtoC a * fst (fst F))%C, (RtoC b * snd (fst F))%C, (RtoC c * snd F)%C).
(** two rows of a probe tensor that are mirror images *)
Definition mirror_y (probe : tensor R) (i j : nat) : Prop :=
  at_ probe [j; 0%nat] = at_ probe [i; 0%nat] /\ at_ probe [j; 1%nat] = - at_ probe [i; 1%nat] /\ at_ probe [j; 2%nat] = at_ probe [i; 2%nat].
Definition mirror_x (probe : tensor R) (i j : nat) : Prop :=
  at_ probe [j; 0%nat] = - at_ probe [i; 0%nat] /\ at_ probe [j; 1%nat] = at_ probe [i; 1%nat] /\ at_ probe [j; 2%nat] = at_ probe [i; 2%nat].
(** the field of particle p and wavelength k at position i *)
Definition row (F : tensor C) (p k i : nat) : C * C * C := (at_ F [p; k; i; 0%nat], at_ F [p; k; i; 1%nat], at_ F [p; k; i; 2%nat]).
