(** Layered spheres of constant materials meet the hypotheses of the theorems
    about the torchgdm helpers. *)
From Coq Require Import Reals ZArith List Bool String Arith Lia Lra.
From Coquelicot Require Import Complex.
From Verif Require Import Ops ROps CLemmas Tensor TensorProofs ModelMaterial MaterialSpec ModelSpecial ModelMie ModelBatch BroadcastSpec
  MaterialProofs ParticleProofs ModelParticle ParticleSpec ParticleRun ParticleFull ParticleEnd ModelTg TgSpec TgProofs.
Import ListNotations.
Open Scope nat_scope.
Open Scope list_scope.

Definition layered (rs : list R) (ns : list C) (n_env : C) : @pargs R :=
  {| g_r_layers := Some (vec_t 0%R rs); g_eps_layers := None; g_mat_layers := Some (map AScalar ns); g_mat_env := AScalar n_env; g_device := Some "cpu"%string;
     g_r_core := None; g_mat_core := None; g_r_shell := None; g_mat_shell := None |}.
Lemma entries_vec_t (rs : list R) : entries (vec_t 0%R rs) = rs.
Proof.
  apply nth_ext with (d := 0%R) (d' := 0%R).
  - rewrite entries_length. unfold numel. cbn. lia.
  - intros k Hk. rewrite entries_length in Hk. unfold numel in Hk. cbn in Hk. now rewrite (entries_vec _ (List.length rs)) by (reflexivity || lia).
Qed.
Lemma layered_setting sj sy jr (rs : list R) (ns : list C) (n_env : C) (wls : list R) :
  List.length ns = List.length rs -> rs <> [] -> (forall l, S l < List.length rs -> (nth l rs 0 < nth (S l) rs 0)%R) ->
  wls <> [] -> (forall k, k < List.length wls -> (0 < nth k wls 0)%R) ->
  exists h p is, new_particle (layered rs ns n_env) [] = (h, Ok p) /\
    setting sj sy jr "cpu"%string p h wls is (List.length rs) rs (fun l _ => (nth l ns (RtoC 0) * nth l ns (RtoC 0))%C) (n_env * n_env)%C.
Proof.
  intros Hl Hne Hinc Hw Hwp.
  assert (Ha : accepted (layered rs ns n_env) rs None (Some (map AScalar ns))).
  { apply acc_mat with (vec_t 0%R rs); try reflexivity; [repeat split|apply entries_vec_t|exact Hne|now rewrite map_length]. }
  assert (Hu : List.Forall (usable []) (mat_args (layered rs ns n_env))).
  { cbn. apply Forall_forall. intros m Hm. apply in_app_or in Hm. destruct Hm as [Hm|Hm]; [apply in_map_iff in Hm; now destruct Hm as (? & <- & _)|]. cbn in Hm. destruct Hm as [<-|[]]. exact I. }
  destruct (new_accepts _ _ _ _ _ Ha Hu) as (h & p & E & Hc & Hs & He & Hp & Hm & Hv).
  destruct (p_eps p) eqn:Ep; [discriminate|]. destruct (p_mats p) as [is|] eqn:Em; [|contradiction].
  exists h, p, is. split; [exact E|]. destruct Hv as [_ Hv].
  assert (Hli : List.length is = List.length rs). { rewrite <- Hl. transitivity (List.length (map AScalar ns)); [|apply map_length]. clear - Hm. induction Hm; [reflexivity|cbn; now f_equal]. }
  split; try assumption.
  - eapply re_new; [apply re_start; constructor|exact E].
  - split; [exact Hli|]. destruct rs; [congruence|cbn; lia].
  - repeat split; assumption.
  - split; assumption.
  - intros l k Hl0 Hk. assert (F : forall ms js, Forall2 (refers [] h "cpu"%string) (map AScalar ms) js -> forall l, l < List.length ms -> refers [] h "cpu"%string (AScalar (nth l ms (RtoC 0))) (nth l js 0)).
    { intros ms. induction ms as [|m ms IH]; intros js F l' Hl'; [cbn in Hl'; lia|]. inversion F; subst. destruct l' as [|l']; [assumption|]. cbn [nth]. apply IH; [assumption|cbn in Hl'; lia]. }
    destruct (F ns is Hm l (eq_ind_r (lt l) Hl0 Hl)) as [_ F1]. eexists. split; [exact F1|]. eexists. split; reflexivity.
  - intros k Hk. eexists. split; [exact Hv|]. eexists. split; reflexivity.
Qed.
