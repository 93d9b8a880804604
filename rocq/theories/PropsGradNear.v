(** Property C87: automatic differentiation of the near fields. *)
From Coq Require Import Reals ZArith Lra Lia List Arith.
From Coquelicot Require Import Coquelicot.
From Verif Require Import Ops ROps Spec ModelSpecial ModelMie ModelNear ModelGrad ModelGradNear GradSpec GradNearSpec NearField GradNearEnd GradPoint ExampleGrad ExampleGradNear.
Import ListNotations.
Open Scope R_scope.

(** C87: let the particle, the wavenumber, the amplitude of the wave and the position depend on a real parameter t.  Off the
    interfaces, and where no guarded denominator lies on its switching threshold, nearfields run on (value, tangent) pairs
    returns the true derivatives of its own scattered, incident and total fields, inside the particle as well as outside. *)
Theorem C87_near_fields : forall (n_max : nat) (t0 : R) (k0 : R -> R) (env : R -> C) (core : R -> (R * C)%type) (shells : list (R -> (R * C)%type)) (E0 : R -> C) (P : R -> @point R)
    (dk : dual) (denv : cplx dual) (dcore : dual * cplx dual) (dshells : list (dual * cplx dual)) (dE : cplx dual) (dP : @point dual),
  carries t0 k0 dk -> ccarries t0 env denv -> carries_shell t0 core dcore -> Forall2 (carries_shell t0) shells dshells -> ccarries t0 E0 dE -> carries_point t0 P dP ->
  let sh t := map (fun s => s t) shells in
  smooth_field n_max (k0 t0) (env t0) (core t0) (sh t0) (pt_r (P t0)) ->
  carries_vec t0 (fun t => E_s n_max 15 (k0 t) (env t) (core t) (sh t) (E0 t) (P t)) (grad_E_s n_max 15 dk denv dcore dshells dE dP) /\
  carries_vec t0 (fun t => H_s n_max 15 (k0 t) (env t) (core t) (sh t) (E0 t) (P t)) (grad_H_s n_max 15 dk denv dcore dshells dE dP) /\
  carries_vec t0 (fun t => E_i (k0 t) (env t) (E0 t) (P t)) (grad_E_i dk denv dE dP) /\
  carries_vec t0 (fun t => H_i (k0 t) (env t) (E0 t) (P t)) (grad_H_i dk denv dE dP) /\
  carries_vec t0 (fun t => E_t n_max 15 (k0 t) (env t) (core t) (sh t) (E0 t) (P t)) (grad_E_t n_max 15 dk denv dcore dshells dE dP) /\
  carries_vec t0 (fun t => H_t n_max 15 (k0 t) (env t) (core t) (sh t) (E0 t) (P t)) (grad_H_t n_max 15 dk denv dcore dshells dE dP).
Proof. exact near_gradients. Qed.
Print Assumptions C87_near_fields.
(** The spherical coordinates that helper.transform_xyz_to_spherical computes for a moving Cartesian position carry their
    derivatives too, off the plane x = 0, off the half plane y = 0 > x, and off the clamped cone around the z axis. *)
Theorem C87_positions : forall (t0 e10 : R) (x y z : R -> R) (dx dy dz : dual),
  carries t0 x dx -> carries t0 y dy -> carries t0 z dz -> smooth_position e10 (x t0) (y t0) (z t0) ->
  carries_point t0 (fun t => point_of e10 (x t) (y t) (z t)) (grad_point e10 dx dy dz).
Proof. exact position_ok. Qed.
Print Assumptions C87_positions.
(** On the plane x = 0 the property fails: a position that crosses it has no derivative there, whatever tangent is returned. *)
Theorem C87_positions_refuted : forall (e10 : R) (d : @point dual), 0 < e10 -> ~ carries_point 0 (fun t => point_of e10 t 1 1) d.
Proof. exact plane_jump. Qed.
Print Assumptions C87_positions_refuted.
(* the particle of C83_instance, at any distance off its interfaces; and a moving position *)
Example C87_instance : forall r, 1/5 <= r <= 19/10 -> r <> 1/2 -> r <> 1 ->
  carries (1/2) ex_k0 (1/2, 1) /\ ccarries (1/2) ex_env ((1, 0), (0, 0)) /\
  carries_shell (1/2) ex_core_path ((1/2, 1), ((4, 0), (0, 0))) /\
  Forall2 (carries_shell (1/2)) [ex_shell_path] [((1, 0), ((9/4, 1), (0, 1)))] /\
  smooth_field 1 (ex_k0 (1/2)) (ex_env (1/2)) (ex_core_path (1/2)) (map (fun s => s (1/2)) [ex_shell_path]) r.
Proof.
  intros r H1 H2 H3. split; [exact ex_k0_ok|]. split; [exact ex_env_ok|]. split; [exact ex_core_ok|]. split; [constructor; [exact ex_shell_ok|constructor]|].
  now apply ex_field_smooth.
Qed.
Example C87_position : smooth_position (1/100) (-1) (1/2) 1 /\ smooth_position (1/100) 1 0 (-1).
Proof.
  split; (split; [lra|]; split; [lra|]; split; [lra|]).
  - rewrite Rabs_pos_eq by lra. apply Rlt_trans with ((1 - 1/100) * (12/10)); [lra|]. apply Rmult_lt_compat_l; [lra|]. rewrite <- (sqrt_square (12/10)) by lra. apply sqrt_lt_1; lra.
  - rewrite Rabs_left by lra. apply Rlt_trans with ((1 - 1/100) * (12/10)); [lra|]. apply Rmult_lt_compat_l; [lra|]. rewrite <- (sqrt_square (12/10)) by lra. apply sqrt_lt_1; lra.
Qed.
