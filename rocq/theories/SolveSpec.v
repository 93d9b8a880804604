(** Self-consistent fields of coupled polarisable bodies. *)
From Coq Require Import Reals List Bool Arith.
From Coquelicot Require Import Complex.
From Verif Require Import Ops ModelMaterial ModelMie ModelTg TgSpec.
Import ListNotations.

(** a linear solver: what it returns solves the system *)
Definition exact_solver (lu : @sqmat R -> list C -> result (list C)) : Prop :=
  forall A b x, lu A b = Ok x -> List.length x = sq_n A /\
    forall i, (i < sq_n A)%nat -> sumC (sq_n A) (fun j => (sq_at A i j * nth j x (RtoC 0))%C) = nth i b (RtoC 0).

(** the moments induced in body j by the field x *)
Definition moments (alphas : list (@sqmat R)) (x : nat -> C) (j t : nat) : C :=
  sumC (sq_n (nth j alphas zero_block)) (fun c => (sq_at (nth j alphas zero_block) t c * x (offset alphas j + c)%nat)%C).
(** the field which these moments radiate to component r of body i: the other bodies through G, the body itself through its self term *)
Definition radiated (alphas selfs : list (@sqmat R)) (G : @sqmat R) (x : nat -> C) (i r : nat) : C :=
  sumC (List.length alphas) (fun j => sumC (sq_n (nth j alphas zero_block)) (fun t =>
    ((if (i =? j)%nat then sq_at (nth i selfs zero_block) r t else sq_at G (offset alphas i + r)%nat (offset alphas j + t)%nat) * moments alphas x j t)%C)).
(** the local field is the incident one plus everything radiated *)
Definition self_consistent (alphas selfs : list (@sqmat R)) (G : @sqmat R) (f x : nat -> C) : Prop :=
  forall i r, (i < List.length alphas)%nat -> (r < sq_n (nth i alphas zero_block))%nat ->
    x (offset alphas i + r)%nat = (f (offset alphas i + r)%nat + radiated alphas selfs G x i r)%C.
(** no field survives without illumination *)
Definition no_free_mode (alphas selfs : list (@sqmat R)) (G : @sqmat R) : Prop :=
  forall x, self_consistent alphas selfs G (fun _ => RtoC 0) x -> forall t, (t < total alphas)%nat -> x t = RtoC 0.

(** six components at every polarisable position, for each of L illuminations *)
Definition components (pol : list bool) : list bool := List.concat (map (fun b => repeat b 6) pol).
Definition full_mask (L : nat) (pol : list bool) : list bool := List.concat (repeat (components pol) L).
