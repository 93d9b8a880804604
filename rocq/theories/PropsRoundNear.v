(** Property C108: the near fields in rounded arithmetic. *)
From Coq Require Import Reals ZArith Lra Lia List Arith.
From Coquelicot Require Import Coquelicot.
From Verif Require Import Ops ROps Spec ModelSpecial ModelMie ModelNear ModelRound ModelRoundNear RoundSpec RoundNearSpec GradSpec GradNearSpec NearField RoundEnd RoundOps RoundNearEnd RoundPoint ExampleGrad ExampleGradNear.
Import ListNotations.
Open Scope R_scope.
Arguments Cmod x%C_scope.

(** C108: let the particle, the wavenumber, the amplitude of the wave and the position be computed numbers that approach exact
    ones as the precision grows.  Off the interfaces, and where no guarded denominator lies on its switching threshold, the
    scattered, incident and total fields that nearfields computes in rounded arithmetic approach those of exact arithmetic. *)
Theorem C108_near_fields : forall (n_max : nat) (k0 : R) (env : C) (core : R * C) (shells : list (R * C)) (E0 : C) (P : @point R)
    (qk : arithmetic -> R) (qenv : arithmetic -> C) (qcore : arithmetic -> R * C) (qshells : list (arithmetic -> R * C)) (qE : arithmetic -> C) (qP : arithmetic -> @point R),
  settles qk k0 -> csettles qenv env -> settles_shell qcore core -> Forall2 settles_shell qshells shells -> csettles qE E0 -> settles_point qP P ->
  smooth_field n_max k0 env core shells (pt_r P) ->
  let sh A := map (fun s => s A) qshells in
  settles_vec (fun A => round_E_s A n_max 15 (qk A) (qenv A) (qcore A) (sh A) (qE A) (qP A)) (@E_s R ROps n_max 15 k0 env core shells E0 P) /\
  settles_vec (fun A => round_H_s A n_max 15 (qk A) (qenv A) (qcore A) (sh A) (qE A) (qP A)) (@H_s R ROps n_max 15 k0 env core shells E0 P) /\
  settles_vec (fun A => round_E_i A (qk A) (qenv A) (qE A) (qP A)) (@E_i R ROps k0 env E0 P) /\
  settles_vec (fun A => round_H_i A (qk A) (qenv A) (qE A) (qP A)) (@H_i R ROps k0 env E0 P) /\
  settles_vec (fun A => round_E_t A n_max 15 (qk A) (qenv A) (qcore A) (sh A) (qE A) (qP A)) (@E_t R ROps n_max 15 k0 env core shells E0 P) /\
  settles_vec (fun A => round_H_t A n_max 15 (qk A) (qenv A) (qcore A) (sh A) (qE A) (qP A)) (@H_t R ROps n_max 15 k0 env core shells E0 P).
Proof. exact near_rounds. Qed.
Print Assumptions C108_near_fields.
(** The spherical coordinates that helper.transform_xyz_to_spherical computes for a computed Cartesian position approach the
    exact ones, off the plane x = 0, off the half plane y = 0 > x, and off the clamped cone around the z axis; the machine
    constant e may itself vanish with growing precision ... *)
Theorem C108_positions : forall (e x y z : R) (qe qx qy qz : arithmetic -> R),
  settles qe e -> settles qx x -> settles qy y -> settles qz z -> off_axis e x y z ->
  settles_point (fun A => round_point A (qe A) (qx A) (qy A) (qz A)) (point_of e x y z).
Proof. exact positions_round. Qed.
Print Assumptions C108_positions.
(** ... so that the total fields at a computed Cartesian position approach those of exact arithmetic. *)
Theorem C108_cartesian : forall (n_max : nat) (k0 : R) (env : C) (core : R * C) (shells : list (R * C)) (E0 : C) (e x y z : R)
    (qk : arithmetic -> R) (qenv : arithmetic -> C) (qcore : arithmetic -> R * C) (qshells : list (arithmetic -> R * C)) (qE : arithmetic -> C) (qe qx qy qz : arithmetic -> R),
  settles qk k0 -> csettles qenv env -> settles_shell qcore core -> Forall2 settles_shell qshells shells -> csettles qE E0 ->
  settles qe e -> settles qx x -> settles qy y -> settles qz z -> off_axis e x y z ->
  smooth_field n_max k0 env core shells (sqrt (x * x + y * y + z * z)) ->
  let sh A := map (fun s => s A) qshells in let qP A := round_point A (qe A) (qx A) (qy A) (qz A) in let P := point_of e x y z in
  settles_vec (fun A => round_E_t A n_max 15 (qk A) (qenv A) (qcore A) (sh A) (qE A) (qP A)) (@E_t R ROps n_max 15 k0 env core shells E0 P) /\
  settles_vec (fun A => round_H_t A n_max 15 (qk A) (qenv A) (qcore A) (sh A) (qE A) (qP A)) (@H_t R ROps n_max 15 k0 env core shells E0 P).
Proof. exact cartesian_round. Qed.
Print Assumptions C108_cartesian.
(** So enough bits give the total fields at a position to every tolerance. *)
Theorem C108_enough_bits : forall (n_max : nat) (k0 : R) (env : C) (core : R * C) (shells : list (R * C)) (E0 : C) (P : @point R) (tol : R),
  smooth_field n_max k0 env core shells (pt_r P) -> 0 < tol ->
  exists p0, forall p, (p0 <= p)%nat ->
    let E' := round_E_t (binary p) n_max 15 k0 env core shells E0 P in let E := @E_t R ROps n_max 15 k0 env core shells E0 P in
    let H' := round_H_t (binary p) n_max 15 k0 env core shells E0 P in let H := @H_t R ROps n_max 15 k0 env core shells E0 P in
    (Cmod (v1 E' - v1 E)%C < tol /\ Cmod (v2 E' - v2 E)%C < tol /\ Cmod (v3 E' - v3 E)%C < tol) /\
    (Cmod (v1 H' - v1 H)%C < tol /\ Cmod (v2 H' - v2 H)%C < tol /\ Cmod (v3 H' - v3 H)%C < tol).
Proof. exact near_bits. Qed.
Print Assumptions C108_enough_bits.
(** Off the interfaces every sufficiently precise arithmetic puts a position into the region of exact arithmetic. *)
Theorem C108_region : forall (radii : list (arithmetic -> R)) (xs : list R) (q : arithmetic -> R) (x : R) (li : nat),
  Forall2 settles radii xs -> settles q x -> (forall y, In y xs -> x <> y) -> xs <> [] -> (li <= length xs)%nat ->
  eventually (fun A => @in_region R (ar_ops A) (map (fun f => f A) radii) (q A) li = @in_region R ROps xs x li).
Proof. exact near_region. Qed.
Print Assumptions C108_region.
(** On an interface this fails, whatever the number of bits: a position on the surface of a sphere of computed radius 1/3
    belongs to the sphere, but to no number of bits does the code find it there. *)
Theorem C108_interface_refuted : let radius A := @rdiv R (ar_ops A) 1 3 in
  settles radius (1 / 3) /\ @in_region R ROps [1 / 3] (1 / 3) 0 = true /\ forall p, @in_region R (ar_ops (binary p)) [radius (binary p)] (1 / 3) 0 = false.
Proof. exact near_interface. Qed.
Print Assumptions C108_interface_refuted.
(* the particle of C83_instance with a computed wavenumber and environment, at any distance off its interfaces *)
Example C108_instance : forall r, 1/5 <= r <= 19/10 -> r <> 1/2 -> r <> 1 ->
  settles (fun A => @rdiv R (ar_ops A) (@rone R (ar_ops A)) (@rtwo R (ar_ops A))) (ex_k0 (1/2)) /\
  csettles (fun A => @cofr R (ar_ops A) (@rofZ R (ar_ops A) 1)) (ex_env (1/2)) /\
  smooth_field 1 (ex_k0 (1/2)) (ex_env (1/2)) (ex_core_path (1/2)) (map (fun s => s (1/2)) [ex_shell_path]) r.
Proof. intros r H1 H2 H3. split; [exact (proj1 ex_inputs)|]. split; [exact (proj2 ex_inputs)|]. now apply ex_field_smooth. Qed.
(* a position inside the shell of that particle, once with a fixed and once with a vanishing machine constant *)
Example C108_position : off_axis (1/100) (-1/2) (1/4) (1/2) /\ off_axis 0 (-1/2) (1/4) (1/2) /\
  smooth_field 1 (ex_k0 (1/2)) (ex_env (1/2)) (ex_core_path (1/2)) (map (fun s => s (1/2)) [ex_shell_path]) (sqrt ((-1/2) * (-1/2) + 1/4 * (1/4) + 1/2 * (1/2))).
Proof.
  assert (E : sqrt ((-1/2) * (-1/2) + 1/4 * (1/4) + 1/2 * (1/2)) = 3/4) by (replace ((-1/2) * (-1/2) + 1/4 * (1/4) + 1/2 * (1/2)) with (3/4 * (3/4)) by field; apply sqrt_square; lra).
  unfold off_axis. rewrite E, (Rabs_pos_eq (1/2)) by lra. split; [repeat split; lra|]. split; [repeat split; lra|]. apply ex_field_smooth; lra.
Qed.
