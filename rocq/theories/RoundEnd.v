(** The computed results in ever more bits (C97), and a concrete particle. *)
From Coq Require Import Reals ZArith Lra Lia List Bool Arith.
From Coquelicot Require Import Coquelicot.
From Verif Require Import Ops ROps Spec ModelSpecial ModelMie ModelRound RoundSpec GradSpec ExampleGrad ExampleStack RoundOps RoundObs RoundBinary.
Import ListNotations.
Open Scope R_scope.
Arguments Cmod x%C_scope.

Lemma shells_const (ss : list (R * C)) : Forall2 settles_shell (map (fun s (_ : arithmetic) => s) ss) ss.
Proof. induction ss as [|s ss IH]; cbn [map]; constructor; [|exact IH]. split; [apply st_const|apply cst_iff, cst_const]. Qed.
Lemma bits n_max k0 env core shells n tol : smooth_particle n_max k0 env core shells -> (1 <= n <= n_max)%nat -> 0 < tol ->
  exists p0, forall p, (p0 <= p)%nat ->
    Cmod (fst (round_pena (binary p) n_max 15 k0 env core shells n) - fst (@mie_pena R ROps n_max k0 env core shells n))%C < tol /\
    Cmod (snd (round_pena (binary p) n_max 15 k0 env core shells n) - snd (@mie_pena R ROps n_max k0 env core shells n))%C < tol.
Proof.
  intros Hs Hn Ht. destruct (r_coefficients n_max k0 env core shells (fun _ => k0) (fun _ => env) (fun _ => core) (map (fun s (_ : arithmetic) => s) shells)
    (st_const k0) (proj1 (cst_iff _ _) (cst_const env)) (conj (st_const _) (proj1 (cst_iff _ _) (cst_const _))) (shells_const shells) Hs n Hn) as [H1 H2].
  destruct (ev_bits _ (ev_and _ _ (H1 tol Ht) (H2 tol Ht))) as [p0 K]. exists p0. intros p Hp. specialize (K p Hp). cbv beta in K. rewrite map_map, map_id in K. exact K.
Qed.
(* inputs that are themselves computed: k0 = 1/2 and eps_env = 1 as rounded quotients, the other numbers as stored *)
Lemma ex_inputs : settles (fun A => @rdiv R (ar_ops A) (@rone R (ar_ops A)) (@rtwo R (ar_ops A))) (1 / 2) /\ csettles (fun A => @cofr R (ar_ops A) (@rofZ R (ar_ops A) 1)) (RtoC 1).
Proof.
  split; [eapply st_val; [exact (st_div _ _ 1 (@rtwo R ROps) st_one st_two ltac:(unfold rtwo; cbn; lra))|unfold rtwo; cbn; lra]|].
  apply cst_iff. exact (cst_ofr _ _ (st_ofZ 1)).
Qed.
