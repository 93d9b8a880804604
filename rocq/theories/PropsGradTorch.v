(** Property C106: automatic differentiation of the torch backend. *)
From Coq Require Import Reals ZArith Lra Lia List Arith.
From Coquelicot Require Import Coquelicot.
From Verif Require Import Ops ROps Spec ModelSpecial ModelMie ModelBatch ModelGrad GradSpec TorchSpec TorchBatch ModelGradTorch GradTorchSpec GradTorch GradTorchEnd ExampleStack ExampleGrad.
Import ListNotations.
Open Scope R_scope.

(** C106: let wavenumber, environment, radii and permittivities of a core-shell particle depend on a real parameter t.  Where
    the four Bessel arguments exceed 1e-10, the recurrences and the two determinants do not vanish, and the recurrence depths
    do not change, the torch backend run on (value, tangent) pairs returns the true derivatives of all eight coefficients, ... *)
Theorem C106_coefficients : forall (n_max : nat) (t0 : R) (k0 : R -> R) (env : R -> C) (core shell : R -> (R * C)%type) (dy d1 d2 d3 : R -> nat)
    (dk : dual) (denv : cplx dual) (dcore dshell : dual * cplx dual),
  carries t0 k0 dk -> ccarries t0 env denv -> carries_shell t0 core dcore -> carries_shell t0 shell dshell ->
  steady t0 dy -> steady t0 d1 -> steady t0 d2 -> steady t0 d3 ->
  smooth_torch n_max (dy t0) (d1 t0) (d2 t0) (d3 t0) (k0 t0) (env t0) (core t0) (shell t0) ->
  forall n, (1 <= n <= n_max)%nat ->
    carries_coeffs t0 (fun t => torch_coeffs n_max (dy t) (d1 t) (d2 t) (d3 t) (k0 t, env t, [core t; shell t]) n)
      (grad_torch n_max (dy t0) (d1 t0) (d2 t0) (d3 t0) dk denv dcore dshell n).
Proof. exact torch_coefficients. Qed.
Print Assumptions C106_coefficients.
(** ... of the efficiencies, ... *)
Theorem C106_efficiencies : forall (n_max : nat) (t0 : R) (k0 : R -> R) (env : R -> C) (core shell : R -> (R * C)%type) (dy d1 d2 d3 : R -> nat)
    (dk : dual) (denv : cplx dual) (dcore dshell : dual * cplx dual),
  carries t0 k0 dk -> ccarries t0 env denv -> carries_shell t0 core dcore -> carries_shell t0 shell dshell ->
  steady t0 dy -> steady t0 d1 -> steady t0 d2 -> steady t0 d3 ->
  smooth_torch n_max (dy t0) (d1 t0) (d2 t0) (d3 t0) (k0 t0) (env t0) (core t0) (shell t0) ->
  let co t n := torch_coeffs n_max (dy t) (d1 t) (d2 t) (d3 t) (k0 t, env t, [core t; shell t]) n in
  let dco n := grad_torch n_max (dy t0) (d1 t0) (d2 t0) (d3 t0) dk denv dcore dshell n in
  let a t n := an (co t n) in let b t n := bn (co t n) in let da n := an (dco n) in let db n := bn (dco n) in
  let k t := @cmul R ROps (cofr (k0 t)) (csqrt (env t)) in let r t := fst (shell t) in
  let d_k := grad_k dk denv in let dr := fst dshell in
  k0 t0 <> 0 -> r t0 <> 0 ->
  carries t0 (fun t => @q_ext R ROps n_max (k t) (r t) (a t) (b t)) (@q_ext dual DOps n_max d_k dr da db) /\
  carries t0 (fun t => @q_sca R ROps n_max (k t) (r t) (a t) (b t)) (@q_sca dual DOps n_max d_k dr da db) /\
  carries t0 (fun t => @q_abs R ROps n_max (k t) (r t) (a t) (b t)) (@q_abs dual DOps n_max d_k dr da db).
Proof. exact torch_efficiencies. Qed.
Print Assumptions C106_efficiencies.
(** ... and of the intensities, also with respect to the angle. *)
Theorem C106_intensities : forall (n_max : nat) (t0 : R) (k0 : R -> R) (env : R -> C) (core shell : R -> (R * C)%type) (dy d1 d2 d3 : R -> nat)
    (dk : dual) (denv : cplx dual) (dcore dshell : dual * cplx dual),
  carries t0 k0 dk -> ccarries t0 env denv -> carries_shell t0 core dcore -> carries_shell t0 shell dshell ->
  steady t0 dy -> steady t0 d1 -> steady t0 d2 -> steady t0 d3 ->
  smooth_torch n_max (dy t0) (d1 t0) (d2 t0) (d3 t0) (k0 t0) (env t0) (core t0) (shell t0) ->
  let co t n := torch_coeffs n_max (dy t) (d1 t) (d2 t) (d3 t) (k0 t, env t, [core t; shell t]) n in
  let dco n := grad_torch n_max (dy t0) (d1 t0) (d2 t0) (d3 t0) dk denv dcore dshell n in
  let a t n := an (co t n) in let b t n := bn (co t n) in let da n := an (dco n) in let db n := bn (dco n) in
  forall (theta : R -> R) (dtheta : dual), carries t0 theta dtheta ->
  carries t0 (fun t => @i_per R ROps n_max (a t) (b t) (theta t)) (@i_per dual DOps n_max da db dtheta) /\
  carries t0 (fun t => @i_par R ROps n_max (a t) (b t) (theta t)) (@i_par dual DOps n_max da db dtheta) /\
  carries t0 (fun t => @i_unpol R ROps n_max (a t) (b t) (theta t)) (@i_unpol dual DOps n_max da db dtheta).
Proof. exact torch_intensities. Qed.
Print Assumptions C106_intensities.
(** The automatic depth does not change near t0 unless 3/2 of the largest modulus is an integer there. *)
Theorem C106_depth : forall (t0 : R) (v : R -> R), continuous v t0 -> 0 < v t0 -> (forall i : Z, 3 / 2 * v t0 <> IZR i) ->
  steady t0 (fun t => @n_add_auto R ROps (v t)).
Proof. exact steady_auto. Qed.
Print Assumptions C106_depth.
(** The quotients alone: whatever library computes the Bessel functions, if the tangents of the sixteen radial functions are
    right then so are those of all eight coefficients. *)
Theorem C106_core : forall (t0 : R) (f : R -> @radial R) (d : @radial dual), carries_radial t0 f d ->
  det_a (f t0) <> RtoC 0 -> det_b (f t0) <> RtoC 0 ->
  carries_coeffs t0 (fun t => @miecoef_core R ROps (f t)) (@miecoef_core dual DOps d).
Proof. exact core_carried. Qed.
Print Assumptions C106_core.

(* a core-shell particle whose wavenumber, core radius and (complex) shell permittivity vary with t, three orders, default depth *)
Example C106_instance :
  carries (1/2) ex_k0 (1/2, 1) /\ ccarries (1/2) ex_env ((1, 0), (0, 0)) /\
  carries_shell (1/2) ex_core_path ((1/2, 1), ((4, 0), (0, 0))) /\ carries_shell (1/2) ex_shell_path ((1, 0), ((9/4, 1), (0, 1))) /\
  smooth_torch 3 10 10 10 10 (ex_k0 (1/2)) (ex_env (1/2)) (ex_core_path (1/2)) (ex_shell_path (1/2)).
Proof. exact (conj ex_k0_ok (conj ex_env_ok (conj ex_core_ok (conj ex_shell_ok ex_torch_smooth)))). Qed.
(* its outer argument y(t) = t *)
Example C106_depth_instance : steady (1/2) (fun t => @n_add_auto R ROps t).
Proof.
  apply (C106_depth (1/2) (fun t => t)); [apply continuous_id|lra|]. intros i E.
  assert (H0 : IZR 0 < IZR i) by lra. assert (H1 : IZR i < IZR 1) by lra. apply lt_IZR in H0, H1. lia.
Qed.
