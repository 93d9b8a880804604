(** Property C107: the torch backend in rounded arithmetic. *)
From Coq Require Import Reals ZArith Lra Lia List Arith.
From Coquelicot Require Import Coquelicot.
From Verif Require Import Ops ROps Spec ModelSpecial ModelMie ModelBatch ModelRound RoundSpec GradSpec RoundOps RoundEnd RoundBinary TorchSpec TorchBatch GradTorchSpec GradTorchEnd
  ModelRoundTorch RoundTorchSpec RoundTorchEnd ExampleGrad ExampleStack.
Import ListNotations.
Open Scope R_scope.
Arguments Cmod x%C_scope.

(** C107: let every operation of the torch backend round with relative error at most u, and let the inputs be rounded too.  Under
    the conditions of C106 all eight coefficients of a core-shell particle approach those of exact arithmetic as u goes to 0, ... *)
Theorem C107_coefficients : forall (n_max dy d1 d2 d3 : nat) (k0 : R) (env : C) (core shell : R * C)
    (qy q1 q2 q3 : arithmetic -> nat) (qk : arithmetic -> R) (qenv : arithmetic -> C) (qcore qshell : arithmetic -> R * C),
  agreed qy dy -> agreed q1 d1 -> agreed q2 d2 -> agreed q3 d3 ->
  settles qk k0 -> csettles qenv env -> settles_shell qcore core -> settles_shell qshell shell ->
  smooth_torch n_max dy d1 d2 d3 k0 env core shell ->
  forall n, (1 <= n <= n_max)%nat ->
    settles_coeffs (fun A => round_torch A n_max (qy A) (q1 A) (q2 A) (q3 A) (qk A) (qenv A) (qcore A) (qshell A) n)
      (torch_coeffs n_max dy d1 d2 d3 (k0, env, [core; shell]) n).
Proof. exact rt_coefficients. Qed.
Print Assumptions C107_coefficients.
(** ... and so do the efficiencies ... *)
Theorem C107_efficiencies : forall (n_max dy d1 d2 d3 : nat) (k0 : R) (env : C) (core shell : R * C)
    (qy q1 q2 q3 : arithmetic -> nat) (qk : arithmetic -> R) (qenv : arithmetic -> C) (qcore qshell : arithmetic -> R * C),
  agreed qy dy -> agreed q1 d1 -> agreed q2 d2 -> agreed q3 d3 ->
  settles qk k0 -> csettles qenv env -> settles_shell qcore core -> settles_shell qshell shell ->
  smooth_torch n_max dy d1 d2 d3 k0 env core shell ->
  let co n := torch_coeffs n_max dy d1 d2 d3 (k0, env, [core; shell]) n in
  let qco A n := round_torch A n_max (qy A) (q1 A) (q2 A) (q3 A) (qk A) (qenv A) (qcore A) (qshell A) n in
  let k := @cmul R ROps (cofr k0) (csqrt env) in
  k0 <> 0 -> fst shell <> 0 ->
  let a n := an (co n) in let b n := bn (co n) in let a' A n := an (qco A n) in let b' A n := bn (qco A n) in
  let k' A := round_k A (qk A) (qenv A) in let r' A := fst (qshell A) in
  settles (fun A => @q_ext R (ar_ops A) n_max (k' A) (r' A) (a' A) (b' A)) (@q_ext R ROps n_max k (fst shell) a b) /\
  settles (fun A => @q_sca R (ar_ops A) n_max (k' A) (r' A) (a' A) (b' A)) (@q_sca R ROps n_max k (fst shell) a b) /\
  settles (fun A => @q_abs R (ar_ops A) n_max (k' A) (r' A) (a' A) (b' A)) (@q_abs R ROps n_max k (fst shell) a b).
Proof. exact rt_efficiencies. Qed.
Print Assumptions C107_efficiencies.
(** ... and the intensities. *)
Theorem C107_intensities : forall (n_max dy d1 d2 d3 : nat) (k0 : R) (env : C) (core shell : R * C)
    (qy q1 q2 q3 : arithmetic -> nat) (qk : arithmetic -> R) (qenv : arithmetic -> C) (qcore qshell : arithmetic -> R * C),
  agreed qy dy -> agreed q1 d1 -> agreed q2 d2 -> agreed q3 d3 ->
  settles qk k0 -> csettles qenv env -> settles_shell qcore core -> settles_shell qshell shell ->
  smooth_torch n_max dy d1 d2 d3 k0 env core shell ->
  let co n := torch_coeffs n_max dy d1 d2 d3 (k0, env, [core; shell]) n in
  let qco A n := round_torch A n_max (qy A) (q1 A) (q2 A) (q3 A) (qk A) (qenv A) (qcore A) (qshell A) n in
  forall (qth : arithmetic -> R) (th : R), settles qth th ->
  let a n := an (co n) in let b n := bn (co n) in let a' A n := an (qco A n) in let b' A n := bn (qco A n) in
  settles (fun A => @i_per R (ar_ops A) n_max (a' A) (b' A) (qth A)) (@i_per R ROps n_max a b th) /\
  settles (fun A => @i_par R (ar_ops A) n_max (a' A) (b' A) (qth A)) (@i_par R ROps n_max a b th) /\
  settles (fun A => @i_unpol R (ar_ops A) n_max (a' A) (b' A) (qth A)) (@i_unpol R ROps n_max a b th).
Proof. exact rt_intensities. Qed.
Print Assumptions C107_intensities.
(** Every sufficiently precise arithmetic finds the automatic depth of exact arithmetic, unless 3/2 |z| is an integer. *)
Theorem C107_depth : forall (q : arithmetic -> C) (z : C), csettles q z -> z <> RtoC 0 -> off_step z ->
  eventually (fun A => truncates A -> depth_in (ar_ops A) (q A) = depth_in ROps z).
Proof. exact agreed_auto. Qed.
Print Assumptions C107_depth.
(** So enough bits give the coefficients of a particle to every tolerance, depths and all computed with these bits. *)
Theorem C107_enough_bits : forall (n_max : nat) (k0 : R) (env : C) (core shell : R * C) (n : nat) (tol : R),
  let l := @layer_of R ROps k0 env core in let s := @layer_of R ROps k0 env shell in
  let y := snd s in let z1 := @cmul R ROps (fst l) (snd l) in let z2 := @cmul R ROps (fst s) (snd l) in let z3 := @cmul R ROps (fst s) (snd s) in
  let dy := depth_in ROps y in let d1 := depth_in ROps z1 in let d2 := depth_in ROps z2 in let d3 := depth_in ROps z3 in
  smooth_torch n_max dy d1 d2 d3 k0 env core shell -> off_step y -> off_step z1 -> off_step z2 -> off_step z3 -> (1 <= n <= n_max)%nat -> 0 < tol ->
  exists p0, forall p, (p0 <= p)%nat ->
    let A := binary p in let O := ar_ops A in let l' := round_layer A k0 env core in let s' := round_layer A k0 env shell in
    let c' := round_torch A n_max (depth_in O (snd s')) (depth_in O (@cmul R O (fst l') (snd l'))) (depth_in O (@cmul R O (fst s') (snd l'))) (depth_in O (@cmul R O (fst s') (snd s')))
      k0 env core shell n in
    let c := torch_coeffs n_max dy d1 d2 d3 (k0, env, [core; shell]) n in
    Cmod (an c' - an c)%C < tol /\ Cmod (bn c' - bn c)%C < tol.
Proof. exact torch_bits_auto. Qed.
Print Assumptions C107_enough_bits.

(* the core-shell particle of C106: three orders, and the depth 10 is the automatic one *)
Example C107_instance :
  let k0 := ex_k0 (1/2) in let env := ex_env (1/2) in let core := ex_core_path (1/2) in let shell := ex_shell_path (1/2) in
  let l := @layer_of R ROps k0 env core in let s := @layer_of R ROps k0 env shell in
  let y := snd s in let z1 := @cmul R ROps (fst l) (snd l) in let z2 := @cmul R ROps (fst s) (snd l) in let z3 := @cmul R ROps (fst s) (snd s) in
  (depth_in ROps y = 10 /\ depth_in ROps z1 = 10 /\ depth_in ROps z2 = 10 /\ depth_in ROps z3 = 10)%nat /\
  smooth_torch 3 10 10 10 10 k0 env core shell /\ (off_step y /\ off_step z1 /\ off_step z2 /\ off_step z3).
Proof.
  cbv zeta. destruct ex_paths as [E1 E2].
  assert (T : forall x z, z = RtoC x -> 1 / 4 <= x <= 5 / 8 \/ 2 / 3 < x < 1 -> depth_in ROps z = 10%nat /\ off_step z).
  { intros x z -> Hx. unfold depth_in, n_add_auto, off_step. change (@cabs R ROps (RtoC x)) with (Cmod (RtoC x)). rewrite Cmod_R, Rabs_pos_eq by lra.
    cbn [rtrunc rmul rdiv rofZ ROps]. split.
    - unfold Rtrunc. destruct (Rle_dec 0 (3 / 2 * x)); [|lra]. pose proof (base_Int_part (3 / 2 * x)) as [B1 B2]. set (i := Int_part (3 / 2 * x)) in *.
      assert (i < 2)%Z by (apply lt_IZR; lra). cbv zeta. replace (Z.max 10 i) with 10%Z by lia. reflexivity.
    - intros i Hi. destruct Hx as [Hx|Hx].
      + assert (0 < i)%Z by (apply lt_IZR; lra). assert (i < 1)%Z by (apply lt_IZR; lra). lia.
      + assert (1 < i)%Z by (apply lt_IZR; lra). assert (i < 2)%Z by (apply lt_IZR; lra). lia. }
  rewrite E1, E2. cbn [ex_core ex_shell fst snd]. rewrite !cmul_C, <- !RtoC_mult.
  destruct (T _ (RtoC (1/2)) eq_refl ltac:(left; lra)) as [? ?]. destruct (T _ (RtoC (2 * (1/4))) eq_refl ltac:(left; lra)) as [? ?].
  destruct (T _ (RtoC (3/2 * (1/4))) eq_refl ltac:(left; lra)) as [? ?]. destruct (T _ (RtoC (3/2 * (1/2))) eq_refl ltac:(right; lra)) as [? ?].
  split; [auto|]. split; [exact ex_torch_smooth|auto].
Qed.
