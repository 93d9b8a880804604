(** Property C97: the pena pipeline in rounded arithmetic. *)
From Coq Require Import Reals ZArith Lra Lia List Arith.
From Coquelicot Require Import Coquelicot.
From Verif Require Import Ops ROps Spec ModelSpecial ModelMie ModelRound RoundSpec GradSpec RoundOps RoundObs RoundBinary RoundEnd ExampleGrad ExampleStack.
Import ListNotations.
Open Scope R_scope.
Arguments Cmod x%C_scope.

(** C97: let every operation of the code round, with relative error at most u, and let the inputs be rounded too.  Wherever no
    guarded denominator lies on its switching threshold, the computed results approach those of exact arithmetic as u goes to 0:
    the Mie coefficients, ... *)
Theorem C97_coefficients : forall (n_max : nat) (k0 : R) (env : C) (core : R * C) (shells : list (R * C))
    (qk : arithmetic -> R) (qenv : arithmetic -> C) (qcore : arithmetic -> R * C) (qshells : list (arithmetic -> R * C)),
  settles qk k0 -> csettles qenv env -> settles_shell qcore core -> Forall2 settles_shell qshells shells ->
  smooth_particle n_max k0 env core shells ->
  forall n, (1 <= n <= n_max)%nat ->
    csettles (fun A => fst (round_pena A n_max 15 (qk A) (qenv A) (qcore A) (map (fun s => s A) qshells) n)) (fst (@mie_pena R ROps n_max k0 env core shells n)) /\
    csettles (fun A => snd (round_pena A n_max 15 (qk A) (qenv A) (qcore A) (map (fun s => s A) qshells) n)) (snd (@mie_pena R ROps n_max k0 env core shells n)).
Proof. exact r_coefficients. Qed.
Print Assumptions C97_coefficients.
(** ... the efficiencies of cross_sections, ... *)
Theorem C97_efficiencies : forall (n_max : nat) (k0 : R) (env : C) (core : R * C) (shells : list (R * C))
    (qk : arithmetic -> R) (qenv : arithmetic -> C) (qcore : arithmetic -> R * C) (qshells : list (arithmetic -> R * C)),
  settles qk k0 -> csettles qenv env -> settles_shell qcore core -> Forall2 settles_shell qshells shells ->
  smooth_particle n_max k0 env core shells ->
  let ab n := @mie_pena R ROps n_max k0 env core shells n in
  let ab' A n := round_pena A n_max 15 (qk A) (qenv A) (qcore A) (map (fun s => s A) qshells) n in
  let r' A := fst (last (map (fun s => s A) qshells) (qcore A)) in let r := fst (last shells core) in let k := @cmul R ROps (cofr k0) (csqrt env) in
  k0 <> 0 -> r <> 0 ->
  let a n := fst (ab n) in let b n := snd (ab n) in let a' A n := fst (ab' A n) in let b' A n := snd (ab' A n) in let k' A := round_k A (qk A) (qenv A) in
  settles (fun A => @q_ext R (ar_ops A) n_max (k' A) (r' A) (a' A) (b' A)) (@q_ext R ROps n_max k r a b) /\
  settles (fun A => @q_sca R (ar_ops A) n_max (k' A) (r' A) (a' A) (b' A)) (@q_sca R ROps n_max k r a b) /\
  settles (fun A => @q_abs R (ar_ops A) n_max (k' A) (r' A) (a' A) (b' A)) (@q_abs R ROps n_max k r a b).
Proof. exact r_efficiencies. Qed.
Print Assumptions C97_efficiencies.
(** ... and the intensities of angular_scattering. *)
Theorem C97_intensities : forall (n_max : nat) (k0 : R) (env : C) (core : R * C) (shells : list (R * C))
    (qk : arithmetic -> R) (qenv : arithmetic -> C) (qcore : arithmetic -> R * C) (qshells : list (arithmetic -> R * C)),
  settles qk k0 -> csettles qenv env -> settles_shell qcore core -> Forall2 settles_shell qshells shells ->
  smooth_particle n_max k0 env core shells ->
  let ab n := @mie_pena R ROps n_max k0 env core shells n in
  let ab' A n := round_pena A n_max 15 (qk A) (qenv A) (qcore A) (map (fun s => s A) qshells) n in
  forall (qth : arithmetic -> R) (th : R), settles qth th ->
  let a n := fst (ab n) in let b n := snd (ab n) in let a' A n := fst (ab' A n) in let b' A n := snd (ab' A n) in
  settles (fun A => @i_per R (ar_ops A) n_max (a' A) (b' A) (qth A)) (@i_per R ROps n_max a b th) /\
  settles (fun A => @i_par R (ar_ops A) n_max (a' A) (b' A) (qth A)) (@i_par R ROps n_max a b th) /\
  settles (fun A => @i_unpol R (ar_ops A) n_max (a' A) (b' A) (qth A)) (@i_unpol R ROps n_max a b th).
Proof. exact r_intensities. Qed.
Print Assumptions C97_intensities.
(** C97: the binary arithmetic with p fractional bits has relative precision 2^-p ... *)
Theorem C97_binary : forall p : nat, precise ((1 / 2) ^ p) (binary p).
Proof. exact binary_precise. Qed.
Print Assumptions C97_binary.
(** ... although each of its roundings keeps at most p + 1 bits ... *)
Theorem C97_finite_bits : forall (p : nat) (x : R), exists m q : Z, (Z.abs m <= 2 ^ Z.of_nat (p + 1))%Z /\ cut p x = IZR m * powerRZ 2 q.
Proof. exact cut_bits. Qed.
Print Assumptions C97_finite_bits.
(** ... so that enough bits give the coefficients of a particle to every tolerance. *)
Theorem C97_enough_bits : forall (n_max : nat) (k0 : R) (env : C) (core : R * C) (shells : list (R * C)) (n : nat) (tol : R),
  smooth_particle n_max k0 env core shells -> (1 <= n <= n_max)%nat -> 0 < tol ->
  exists p0, forall p, (p0 <= p)%nat ->
    Cmod (fst (round_pena (binary p) n_max 15 k0 env core shells n) - fst (@mie_pena R ROps n_max k0 env core shells n))%C < tol /\
    Cmod (snd (round_pena (binary p) n_max 15 k0 env core shells n) - snd (@mie_pena R ROps n_max k0 env core shells n))%C < tol.
Proof. exact bits. Qed.
Print Assumptions C97_enough_bits.
(* the core-shell particle of C83, with a computed wavenumber and environment *)
Example C97_instance :
  settles (fun A => @rdiv R (ar_ops A) (@rone R (ar_ops A)) (@rtwo R (ar_ops A))) (1 / 2) /\
  csettles (fun A => @cofr R (ar_ops A) (@rofZ R (ar_ops A) 1)) (RtoC 1) /\
  smooth_particle 1 (ex_k0 (1/2)) (ex_env (1/2)) (ex_core_path (1/2)) (map (fun s => s (1/2)) [ex_shell_path]).
Proof. split; [exact (proj1 ex_inputs)|]. split; [exact (proj2 ex_inputs)|exact ex_particle_smooth]. Qed.
(* exact arithmetic is one of the arithmetics, and so is one that keeps 53 bits *)
Example C97_instance_arithmetic : precise 0 exact_arithmetic /\ precise ((1 / 2) ^ 52) (binary 52).
Proof. split; [apply exact_precise; lra|apply binary_precise]. Qed.
