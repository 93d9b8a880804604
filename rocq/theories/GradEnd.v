(** Derivatives of coefficients, efficiencies and intensities by automatic differentiation (C83). *)
From Coq Require Import Reals ZArith Lra Lia List Bool Arith.
From Coquelicot Require Import Coquelicot.
From Verif Require Import Ops ROps Spec CTrig CLemmas ModelSpecial ModelMie ModelGrad GradSpec GradOps GradPena GradStack GradObs StackConsequences.
Import ListNotations.
Open Scope R_scope.

Section End.
  Variables (n_max : nat) (t0 : R) (k0 : R -> R) (env : R -> C) (core : R -> (R * C)%type) (shells : list (R -> (R * C)%type)).
  Variables (dk : dual) (denv : cplx dual) (dcore : dual * cplx dual) (dshells : list (dual * cplx dual)).
  Hypothesis Hk : carries t0 k0 dk.
  Hypothesis He : ccarries t0 env denv.
  Hypothesis Hc : carries_shell t0 core dcore.
  Hypothesis Hs : Forall2 (carries_shell t0) shells dshells.
  Notation at_ t := (map (fun s => s t) shells) (only parsing).
  Hypothesis Hsm : smooth_particle n_max (k0 t0) (env t0) (core t0) (at_ t0).
  Let ab t n := @mie_pena R ROps n_max (k0 t) (env t) (core t) (at_ t) n.
  Let dab n := grad_pena n_max 15 dk denv dcore dshells n.
  Lemma coefficients n : (1 <= n <= n_max)%nat -> carries_layer t0 (fun t => ab t n) (dab n).
  Proof.
    intros Hn. destruct Hsm as (Oe & Oc & Os & Ss). specialize (Ss n Hn).
    assert (Os' : List.Forall (fun s : R -> (R * C)%type => off_cut (snd (s t0))) shells).
    { clear -Os. induction shells as [|s l IH]; [constructor|]. inversion Os; subst. constructor; [assumption|now apply IH]. }
    rewrite map_map in Ss.
    destruct (grad_pena_ok t0 n_max 15 k0 env core shells dk denv dcore dshells n (proj1 Hn) Hk He Hc Hs Oe Oc Os' Ss) as [A B].
    unfold ab, dab, mie_pena. split; (eapply cc_ext; [|eassumption]); intros t; cbv beta; rewrite map_map; reflexivity.
  Qed.
  Let k t := @cmul R ROps (cofr (k0 t)) (csqrt (env t)).
  Let r t := fst (last (at_ t) (core t)).
  Lemma carries_k : ccarries t0 k (grad_k dk denv).
  Proof. destruct Hsm as (Oe & _). apply cc_mul; [now apply cc_ofr|now apply cc_sqrt]. Qed.
  Lemma carries_r : carries t0 r (fst (last dshells dcore)).
  Proof.
    apply (car_ext t0 (fun t => fst (last shells core t))).
    - intros t. unfold r. rewrite (last_map (fun s => s t) shells core). reflexivity.
    - assert (H : carries_shell t0 (last shells core) (last dshells dcore)); [|exact (proj1 H)].
      clear -Hs Hc. revert Hs. generalize shells dshells. intros ss dss H. induction H as [|x y l l' Hx HF IH]; [exact Hc|]. destruct HF as [|a b l l' Ha HF]; [exact Hx|exact IH].
  Qed.
  Lemma efficiencies : k0 t0 <> 0 -> r t0 <> 0 ->
    carries t0 (fun t => @q_ext R ROps n_max (k t) (r t) (fun n => fst (ab t n)) (fun n => snd (ab t n)))
      (@q_ext dual DOps n_max (grad_k dk denv) (fst (last dshells dcore)) (fun n => fst (dab n)) (fun n => snd (dab n))) /\
    carries t0 (fun t => @q_sca R ROps n_max (k t) (r t) (fun n => fst (ab t n)) (fun n => snd (ab t n)))
      (@q_sca dual DOps n_max (grad_k dk denv) (fst (last dshells dcore)) (fun n => fst (dab n)) (fun n => snd (dab n))) /\
    carries t0 (fun t => @q_abs R ROps n_max (k t) (r t) (fun n => fst (ab t n)) (fun n => snd (ab t n)))
      (@q_abs dual DOps n_max (grad_k dk denv) (fst (last dshells dcore)) (fun n => fst (dab n)) (fun n => snd (dab n))).
  Proof.
    intros Hk0 Hr0. apply (car_q t0 n_max k r (fun t n => fst (ab t n)) (fun t n => snd (ab t n))).
    - exact carries_k.
    - unfold k. toC. apply Cmult_neq_0; [now apply RtoC_neq|]. apply csqrt_neq0. destruct Hsm as (Oe & _).
      intros E. rewrite E in Oe. destruct Oe as [Oe|Oe]; cbn in Oe; lra.
    - exact carries_r.
    - exact Hr0.
    - intros n Hn. exact (proj1 (coefficients n Hn)).
    - intros n Hn. exact (proj2 (coefficients n Hn)).
  Qed.
  Lemma intensities (theta : R -> R) (dtheta : dual) : carries t0 theta dtheta ->
    carries t0 (fun t => @i_per R ROps n_max (fun n => fst (ab t n)) (fun n => snd (ab t n)) (theta t))
      (@i_per dual DOps n_max (fun n => fst (dab n)) (fun n => snd (dab n)) dtheta) /\
    carries t0 (fun t => @i_par R ROps n_max (fun n => fst (ab t n)) (fun n => snd (ab t n)) (theta t))
      (@i_par dual DOps n_max (fun n => fst (dab n)) (fun n => snd (dab n)) dtheta) /\
    carries t0 (fun t => @i_unpol R ROps n_max (fun n => fst (ab t n)) (fun n => snd (ab t n)) (theta t))
      (@i_unpol dual DOps n_max (fun n => fst (dab n)) (fun n => snd (dab n)) dtheta).
  Proof.
    intros Ht. apply (car_int t0 n_max (fun t n => fst (ab t n)) (fun t n => snd (ab t n)) theta); [exact Ht| |].
    - intros n Hn. exact (proj1 (coefficients n Hn)).
    - intros n Hn. exact (proj2 (coefficients n Hn)).
  Qed.
End End.
