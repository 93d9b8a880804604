(** Concrete particles for the examples: a gold-like sphere described by a shared
    material object of permittivity 4 in a medium of index 1. *)
From Coq Require Import Reals ZArith List Bool String Arith Lia Lra.
From Coquelicot Require Import Complex.
From Verif Require Import Ops ROps CLemmas Tensor TensorProofs ModelMaterial MaterialSpec MaterialProofs ModelMie ModelBatch ModelObs BroadcastSpec BatchReal
  ModelParticle ParticleSpec ParticleProofs ParticleRun ParticleHist ParticleFull ParticleEnd.
Import ListNotations.
Open Scope nat_scope.
Open Scope string_scope.
Open Scope list_scope.

Definition heap0 : @heap R := [Const (new_const (RtoC 4) "cpu")].
Definition vec (l : list R) : tensor R := mkT [List.length l] (fun ix => nth (nth 0 ix 0) l 0%R).
Definition args (d : device) (m : @matarg R) : @pargs R :=
  {| g_r_layers := Some (vec [100%R]); g_eps_layers := None; g_mat_layers := Some [m]; g_mat_env := AScalar (RtoC 1); g_device := Some d;
     g_r_core := None; g_mat_core := None; g_r_shell := None; g_mat_shell := None |}.
Lemma heap0_made : List.Forall made heap0.
Proof. constructor; [|constructor]. left. now exists (RtoC 4), "cpu". Qed.
Lemma args_accepted d m : accepted (args d m) [100%R] None (Some [m]).
Proof. apply acc_mat with (vec [100%R]); try reflexivity; [repeat split|discriminate]. Qed.
Lemma args_usable d h : 1 <= List.length h -> List.Forall (usable h) (mat_args (args d (AObj 0))).
Proof. intros H. repeat constructor. exact H. Qed.
Definition mix : @pargs R := {| g_r_layers := Some (vec [100%R]); g_eps_layers := None; g_mat_layers := None; g_mat_env := AScalar (RtoC 1); g_device := None;
  g_r_core := Some (scalar_t 50%R); g_mat_core := Some (AScalar (RtoC 2)); g_r_shell := None; g_mat_shell := None |}.
Lemma mix_rejected : forall rs e ms, ~ accepted mix rs e ms.
Proof. intros rs e ms H. destruct H as [r rs e H1|r rs ms H1|rc mc H1|rc mc rs ms H1]; destruct H1 as (A & B & _); discriminate. Qed.
Lemma mix_stackable : ~ unstackable mix.
Proof. intros [(H & _) _]. discriminate. Qed.
Lemma mix_usable : List.Forall (usable heap0) (mat_args mix).
Proof. repeat constructor. Qed.
(* core radius a number, shell radius a one-element tensor *)
Definition odd : @pargs R := {| g_r_layers := None; g_eps_layers := None; g_mat_layers := None; g_mat_env := AScalar (RtoC 1); g_device := None;
  g_r_core := Some (scalar_t 50%R); g_mat_core := Some (AScalar (RtoC 2)); g_r_shell := Some (vec [100%R]); g_mat_shell := Some (AScalar (RtoC 3)) |}.
Lemma odd_usable : List.Forall (usable heap0) (mat_args odd).
Proof. repeat constructor. Qed.
Lemma odd_unstackable : unstackable odd.
Proof.
  split; [repeat split|]. exists (scalar_t 50%R), (AScalar (RtoC 2)), (vec [100%R]), (AScalar (RtoC 3)).
  repeat (split; [reflexivity|]). discriminate.
Qed.
Lemma odd_rejected : forall rs e ms, ~ accepted odd rs e ms.
Proof.
  intros rs e ms H. destruct H as [r rs e H1 H2|r rs ms H1 H2|rc mc H1 H2 H3 H4|rc mc rs ms H1 H2 H3 H4 H5 H6 H7]; try discriminate.
  cbn in H4. injection H4 as <-. discriminate.
Qed.

Section E.
  Variables (sj sy jr : @bessel_t R).
  Definition kw1 : kwargs := {| k_internal := false; k_backend := "pena"; k_which_jn := "recurrence"; k_n_max := Some 1%Z |}.
  Definition k0_two : tensor R := vec [1/100; 1/200]%R.
  Lemma const_eps e d wl : material_eps (Const (new_const e d)) wl e.
  Proof. eexists. split; reflexivity. Qed.
  (* the particle works before the second one is constructed *)
  Lemma first_works : exists h1 p1 r, new_particle (args "cpu" (AObj 0)) heap0 = (h1, Ok p1) /\ coherent "cpu" p1 h1 /\ 1 <= List.length h1 /\ uses p1 0 /\
    snd (get_mie_coefficients sj sy jr p1 k0_two None kw1 h1) = Ok r.
  Proof.
    destruct (new_accepts _ _ _ _ _ (args_accepted "cpu" (AObj 0)) (args_usable "cpu" heap0 (le_n 1))) as (h1 & p1 & E & Hc & Hs & He & Hp & Hm & Hv).
    assert (Hw : wfh h1) by (eapply new_wfh; [apply made_wfh, heap0_made|exact E]).
    destruct (p_eps p1) eqn:Ep; [discriminate|]. destruct (p_mats p1) as [is|] eqn:Em; [|contradiction].
    inversion Hm as [|x y l l' Hx Hl]; subst. inversion Hl; subst. destruct Hx as [-> (m0 & E0 & E1)]. cbn in E0. injection E0 as <-. cbn in E1. destruct Hv as [_ Hv].
    destruct (particle_mie sj sy jr "cpu" p1 h1 k0_two None kw1 [0] 1 2 [100%R] (fun _ _ => RtoC 4) (fun _ => (RtoC 1 * RtoC 1)%C) 1%Z Hw Hc Ep Em eq_refl (le_n 1) Hs He)
      as (h2 & o & dd & ta & tb & _ & G & _); try reflexivity; try lia.
    - intros l k Hl0 Hk. assert (l = 0) as -> by lia. exists (Const (new_const (RtoC 4) "cpu")). split; [exact E1|]. apply const_eps.
    - intros k Hk. eexists. split; [exact Hv|]. apply const_eps.
    - exists h1, p1, dd. split; [exact E|]. split; [exact Hc|]. split; [|split].
      + destruct h1; [discriminate|cbn; lia].
      + right. split; [exact Ep|]. exists [0]. split; [exact Em|now left].
      + now rewrite G.
  Qed.
  Lemma sharing_witness : exists (h1 h2 : @heap R) p1 p2, new_particle (args "cpu" (AObj 0)) heap0 = (h1, Ok p1) /\
    (exists r, snd (invoke sj sy jr p1 (MMie k0_two None kw1) h1) = Ok r) /\
    new_particle (args "cuda" (AObj 0)) h1 = (h2, Ok p2) /\ forall m r, snd (invoke sj sy jr p1 m h2) <> Ok r.
  Proof.
    destruct first_works as (h1 & p1 & r & E & Hc & Hl & Hu & G).
    assert (Hr : reachable sj sy jr h1) by (eapply re_new; [apply re_start, heap0_made|exact E]).
    destruct (shared_fails sj sy jr "cpu" p1 h1 (args "cuda" (AObj 0)) _ _ _ 0 Hr Hc Hl Hu (args_accepted "cuda" (AObj 0)) (args_usable _ _ Hl)) as (h2 & p2 & E2 & F).
    - right. exists [AObj 0]. split; [reflexivity|now left].
    - discriminate.
    - exists h1, h2, p1, p2. split; [exact E|]. split; [exists r; exact G|]. split; assumption.
  Qed.
End E.
