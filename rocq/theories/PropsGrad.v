(** Property C83: automatic differentiation of the pena pipeline. *)
From Coq Require Import Reals ZArith Lra Lia List Arith.
From Coquelicot Require Import Coquelicot.
From Verif Require Import Ops ROps Spec ModelSpecial ModelMie ModelGrad GradSpec GradEnd ExampleStack ExampleGrad.
Import ListNotations.
Open Scope R_scope.

(** C83: let wavenumber, environment, radii and permittivities depend on a real parameter t.  Wherever no guarded denominator
    lies on its switching threshold, the code run on (value, tangent) pairs returns the true derivatives of its own outputs:
    the Mie coefficients, ... *)
Theorem C83_coefficients : forall (n_max : nat) (t0 : R) (k0 : R -> R) (env : R -> C) (core : R -> (R * C)%type) (shells : list (R -> (R * C)%type))
    (dk : dual) (denv : cplx dual) (dcore : dual * cplx dual) (dshells : list (dual * cplx dual)),
  carries t0 k0 dk -> ccarries t0 env denv -> carries_shell t0 core dcore -> Forall2 (carries_shell t0) shells dshells ->
  smooth_particle n_max (k0 t0) (env t0) (core t0) (map (fun s => s t0) shells) ->
  forall n, (1 <= n <= n_max)%nat ->
    carries_layer t0 (fun t => @mie_pena R ROps n_max (k0 t) (env t) (core t) (map (fun s => s t) shells) n)
      (grad_pena n_max 15 dk denv dcore dshells n).
Proof. exact coefficients. Qed.
Print Assumptions C83_coefficients.
(** ... the efficiencies of cross_sections, ... *)
Theorem C83_efficiencies : forall (n_max : nat) (t0 : R) (k0 : R -> R) (env : R -> C) (core : R -> (R * C)%type) (shells : list (R -> (R * C)%type))
    (dk : dual) (denv : cplx dual) (dcore : dual * cplx dual) (dshells : list (dual * cplx dual)),
  carries t0 k0 dk -> ccarries t0 env denv -> carries_shell t0 core dcore -> Forall2 (carries_shell t0) shells dshells ->
  smooth_particle n_max (k0 t0) (env t0) (core t0) (map (fun s => s t0) shells) ->
  let a t n := fst (@mie_pena R ROps n_max (k0 t) (env t) (core t) (map (fun s => s t) shells) n) in
  let b t n := snd (@mie_pena R ROps n_max (k0 t) (env t) (core t) (map (fun s => s t) shells) n) in
  let k t := @cmul R ROps (cofr (k0 t)) (csqrt (env t)) in
  let r t := fst (last (map (fun s => s t) shells) (core t)) in
  let da n := fst (grad_pena n_max 15 dk denv dcore dshells n) in
  let db n := snd (grad_pena n_max 15 dk denv dcore dshells n) in
  let d_k := grad_k dk denv in let dr := fst (last dshells dcore) in
  k0 t0 <> 0 -> r t0 <> 0 ->
  carries t0 (fun t => @q_ext R ROps n_max (k t) (r t) (a t) (b t)) (@q_ext dual DOps n_max d_k dr da db) /\
  carries t0 (fun t => @q_sca R ROps n_max (k t) (r t) (a t) (b t)) (@q_sca dual DOps n_max d_k dr da db) /\
  carries t0 (fun t => @q_abs R ROps n_max (k t) (r t) (a t) (b t)) (@q_abs dual DOps n_max d_k dr da db).
Proof. exact efficiencies. Qed.
Print Assumptions C83_efficiencies.
(** ... and the intensities of angular_scattering, also with respect to the angle. *)
Theorem C83_intensities : forall (n_max : nat) (t0 : R) (k0 : R -> R) (env : R -> C) (core : R -> (R * C)%type) (shells : list (R -> (R * C)%type))
    (dk : dual) (denv : cplx dual) (dcore : dual * cplx dual) (dshells : list (dual * cplx dual)),
  carries t0 k0 dk -> ccarries t0 env denv -> carries_shell t0 core dcore -> Forall2 (carries_shell t0) shells dshells ->
  smooth_particle n_max (k0 t0) (env t0) (core t0) (map (fun s => s t0) shells) ->
  forall (theta : R -> R) (dtheta : dual), carries t0 theta dtheta ->
  let a t n := fst (@mie_pena R ROps n_max (k0 t) (env t) (core t) (map (fun s => s t) shells) n) in
  let b t n := snd (@mie_pena R ROps n_max (k0 t) (env t) (core t) (map (fun s => s t) shells) n) in
  let da n := fst (grad_pena n_max 15 dk denv dcore dshells n) in
  let db n := snd (grad_pena n_max 15 dk denv dcore dshells n) in
  carries t0 (fun t => @i_per R ROps n_max (a t) (b t) (theta t)) (@i_per dual DOps n_max da db dtheta) /\
  carries t0 (fun t => @i_par R ROps n_max (a t) (b t) (theta t)) (@i_par dual DOps n_max da db dtheta) /\
  carries t0 (fun t => @i_unpol R ROps n_max (a t) (b t) (theta t)) (@i_unpol dual DOps n_max da db dtheta).
Proof. exact intensities. Qed.
Print Assumptions C83_intensities.
(* a core-shell particle whose wavenumber, core radius and (complex) shell permittivity vary with t *)
Example C83_instance :
  carries (1/2) ex_k0 (1/2, 1) /\ ccarries (1/2) ex_env ((1, 0), (0, 0)) /\
  carries_shell (1/2) ex_core_path ((1/2, 1), ((4, 0), (0, 0))) /\
  Forall2 (carries_shell (1/2)) [ex_shell_path] [((1, 0), ((9/4, 1), (0, 1)))] /\
  smooth_particle 1 (ex_k0 (1/2)) (ex_env (1/2)) (ex_core_path (1/2)) (map (fun s => s (1/2)) [ex_shell_path]).
Proof.
  split; [|split; [|split; [|split]]]; [exact ex_k0_ok|exact ex_env_ok|exact ex_core_ok|constructor; [exact ex_shell_ok|constructor]|].
  exact ex_particle_smooth.
Qed.
