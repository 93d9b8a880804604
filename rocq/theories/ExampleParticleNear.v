(** The gold-like sphere of ExampleParticle.v at two wavelengths and two positions. *)
From Coq Require Import Reals ZArith List Bool String Arith Lia Lra.
From Coquelicot Require Import Coquelicot.
From Verif Require Import Ops ROps CLemmas Tensor TensorProofs ModelMaterial MaterialSpec MaterialProofs ModelSpecial ModelMie ModelBatch ModelObs BroadcastSpec BatchReal
  ModelJn ModelNear ModelNearLegacy ModelNearPena NearLegacySpec ModelParticle ParticleSpec ParticleProofs ParticleRun ParticleHist ParticleFull ParticleEnd ExampleParticle
  ModelParticleNear ParticleNear.
Import ListNotations.
Open Scope nat_scope.
Open Scope string_scope.
Open Scope list_scope.

Definition probe_two : tensor R := mkT [2; 3] (fun ix => INR (nth 0 ix 0 + nth 1 ix 0)).
Definition kw_torch : kwargs := {| k_internal := false; k_backend := "torch"; k_which_jn := "recurrence"; k_n_max := Some 1%Z |}.
Section E.
  Variables (sj sy jr : @bessel_t R) (e10 : R) (pi : string -> result Z).
  Lemma near_works : exists h1 p1 h2 f dict, new_particle (args "cpu" (AObj 0)) heap0 = (h1, Ok p1) /\
    get_nearfields e10 sj sy jr pi p1 k0_two probe_two None (RtoC 1) kw1 h1 = (h2, Ok dict) /\
    squeezed_dict (near_dict f) dict /\ shp (f_Et f) = [1; 2; 2; 3] /\
    forall h' dd, get_nearfields e10 sj sy jr pi p1 k0_two probe_two None (RtoC 1) kw_torch h1 <> (h', Ok dd).
  Proof.
    destruct (new_accepts _ _ _ _ _ (args_accepted "cpu" (AObj 0)) (args_usable "cpu" heap0 (le_n 1))) as (h1 & p1 & E & Hc & Hs & He & Hp & Hm & Hv).
    assert (Hw : wfh h1) by (eapply new_wfh; [apply made_wfh, heap0_made|exact E]).
    destruct (p_eps p1) eqn:Ep; [discriminate|]. destruct (p_mats p1) as [is|] eqn:Em; [|contradiction].
    inversion Hm as [|x y l l' Hx Hl]; subst. inversion Hl; subst. destruct Hx as [-> (m0 & E0 & E1)]. cbn in E0. injection E0 as <-. cbn in E1. destruct Hv as [_ Hv].
    assert (A1 : forall l k, l < 1 -> k < 2 -> exists m, nth_error h1 (nth l [0] 0) = Some m /\ material_eps m (2 * PI / nth k (entries k0_two) 0)%R (RtoC 4)).
    { intros l k Hl0 Hk. assert (l = 0) as -> by lia. exists (Const (new_const (RtoC 4) "cpu")). split; [exact E1|]. apply const_eps. }
    assert (A2 : forall k, k < 2 -> exists m, nth_error h1 (p_env p1) = Some m /\ material_eps m (2 * PI / nth k (entries k0_two) 0)%R (RtoC 1 * RtoC 1)%C).
    { intros k Hk. eexists. split; [exact Hv|]. apply const_eps. }
    assert (A3 : forall l, S l < 1 -> (nth l [100%R] 0 < nth (S l) [100%R] 0)%R) by (intros; lia).
    destruct (particle_fields sj sy jr e10 pi "cpu" p1 h1 k0_two None kw1 [0] 1 2 [100%R] (fun _ _ => RtoC 4) (fun _ => (RtoC 1 * RtoC 1)%C) 1%Z Hw Hc Ep Em eq_refl (le_n 1) Hs He A3 eq_refl ltac:(lia) A1 A2
      (RtoC 1) probe_two 2 eq_refl eq_refl ltac:(lia) eq_refl) as (h2 & f & dict & G & S & (_ & _ & _ & _ & St & _) & _).
    exists h1, p1, h2, f, dict. split; [exact E|]. split; [exact G|]. split; [exact S|]. split; [exact St|].
    apply (particle_torch_fails sj sy jr e10 pi "cpu" p1 h1 k0_two None kw_torch [0] 1 2 [100%R] (fun _ _ => RtoC 4) (fun _ => (RtoC 1 * RtoC 1)%C) Hw Hc Ep Em eq_refl (le_n 1) Hs He A3 eq_refl ltac:(lia) A1 A2); [discriminate|lia|lia].
  Qed.
End E.
