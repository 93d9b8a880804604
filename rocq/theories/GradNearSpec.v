(** Where the near fields are smooth (C87): no guarded denominator on its
    threshold, no point on an interface, no argument on a branch cut. *)
From Coq Require Import Reals List Arith.
From Coquelicot Require Import Coquelicot.
From Verif Require Import Ops ROps Spec CTrig ModelSpecial ModelMie ModelNear ModelGrad GradSpec.
Import ListNotations.
Open Scope C_scope.
Arguments Cmod x%C_scope.
Arguments off z%C_scope.

(* a field (three complex components) whose value and derivative d holds *)
Definition carries_vec (t0 : R) (F : R -> @vec3 R) (d : @vec3 dual) : Prop :=
  ccarries t0 (fun t => v1 (F t)) (v1 d) /\ ccarries t0 (fun t => v2 (F t)) (v2 d) /\ ccarries t0 (fun t => v3 (F t)) (v3 d).
Definition carries_point (t0 : R) (P : R -> @point R) (d : @point dual) : Prop :=
  carries t0 (fun t => pt_r (P t)) (pt_r d) /\ carries t0 (fun t => pt_theta (P t)) (pt_theta d) /\ carries t0 (fun t => pt_phi (P t)) (pt_phi d).

Section Smooth.
  Variables (n_max n_add : nat).
  (* multishell.py:1104-1144: the interface between index ml and index mp at size parameter xl *)
  Definition smooth_step (ml mp xl : C) (n : nat) : Prop :=
    let z := ml * xl in let U := @pD1 R ROps n_max n_add z n - @pD3 R ROps n_max n_add z n in
    mp <> 0 /\ smooth_arg n_max n_add z n /\ smooth_arg n_max n_add (mp * xl) n /\
    off (@pzeta R ROps n_max n_add z n * U) /\ off (@ppsi R ROps n_max n_add z n * U).
  Fixpoint smooth_steps (l : C * C) (rest : list (C * C)) (n : nat) : Prop :=
    match rest with
    | [] => smooth_step (fst l) 1 (snd l) n
    | l' :: rest' => smooth_step (fst l) (fst l') (snd l) n /\ smooth_steps l' rest' n
    end.
End Smooth.

(* index of region li: a layer, or the environment *)
Definition index_of (env : C) (layers : list (R * C)) (li : nat) : C :=
  if (li =? length layers)%nat then @csqrt R ROps env else @csqrt R ROps (nth li (map snd layers) env).

(* the region between radius li - 1 and radius li *)
Definition contains (layers : list (R * C)) (r : R) (li : nat) : Prop :=
  match li with O => True | S j => (nth j (map fst layers) 0 < r)%R end /\ ((li < length layers)%nat -> (r <= nth li (map fst layers) 0)%R).

(* one particle, one wavelength, one position at distance r; 1e-8 is the shift of the code (special.py:1490) *)
Definition smooth_field (n_max : nat) (k0 : R) (env : C) (core : R * C) (shells : list (R * C)) (r : R) : Prop :=
  smooth_particle n_max k0 env core shells /\
  (forall s, In s (core :: shells) -> r <> fst s) /\
  (forall n, (1 <= n <= n_max)%nat ->
     smooth_steps n_max 15 (@layer_of R ROps k0 env core) (map (@layer_of R ROps k0 env) shells) n) /\
  (forall li n, (li <= length (core :: shells))%nat -> contains (core :: shells) r li -> (1 <= n <= n_max)%nat ->
     let rho := RtoC k0 * index_of env (core :: shells) li * RtoC r + RtoC (@rtenth R ROps 8) in
     rho <> 0 /\ smooth_arg n_max 15 rho n).

(* a Cartesian position off the x = 0 plane, off the half plane where the azimuth
   jumps, and off the cone around the z axis in which helper.py:251 clamps *)
Definition smooth_position (e10 x y z : R) : Prop :=
  (0 < e10 /\ x <> 0 /\ (0 < x \/ y <> 0) /\ Rabs z < (1 - e10) * sqrt (x * x + y * y + z * z))%R.
