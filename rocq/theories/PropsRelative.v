(** C103: near fields depend on relative refractive indices only. *)
From Coq Require Import Reals ZArith List Bool String Arith Lra Lia.
From Coquelicot Require Import Complex.
From Verif Require Import Ops ROps Tensor CLemmas ModelSpecial ModelMie ModelBatch BroadcastSpec BroadcastProofs BatchReal TruncProofs TorchBatch ExampleBatch ModelObs ModelJn ModelNear ModelNearLegacy ModelNearPena
  MirrorSpec ExampleMirror RelativeNear.
Import ListNotations.
Open Scope R_scope.

(** C103: every permittivity multiplied by q^2, the wavenumber divided by q:
    the electric fields stay, the magnetic fields are multiplied by q
    ([signs q q q] multiplies each component by q). *)
Theorem C103_point : forall q, 0 < q -> forall n_max n_add k0 env core shells E0 pt, env <> RtoC 0 ->
  let env' := (RtoC (q * q) * env)%C in let core' := (fst core, (RtoC (q * q) * snd core)%C) in
  let shells' := map (fun re => (fst re, (RtoC (q * q) * snd re)%C)) shells in
  @E_i R ROps (k0 / q) env' E0 pt = E_i k0 env E0 pt /\ @H_i R ROps (k0 / q) env' E0 pt = signs q q q (H_i k0 env E0 pt) /\
  @E_s R ROps n_max n_add (k0 / q) env' core' shells' E0 pt = E_s n_max n_add k0 env core shells E0 pt /\
  @H_s R ROps n_max n_add (k0 / q) env' core' shells' E0 pt = signs q q q (H_s n_max n_add k0 env core shells E0 pt) /\
  @E_t R ROps n_max n_add (k0 / q) env' core' shells' E0 pt = E_t n_max n_add k0 env core shells E0 pt /\
  @H_t R ROps n_max n_add (k0 / q) env' core' shells' E0 pt = signs q q q (H_t n_max n_add k0 env core shells E0 pt).
Proof. exact fields_q. Qed.
Print Assumptions C103_point.

(** C103: two batched calls at the same positions whose inputs are so related. *)
Theorem C103_call : forall q, 0 < q -> forall sj sy jr e10 E0 probe Q (c c' : @call R) n r eps K P L ef vf,
  backend_is c "pena" -> backend_is c' "pena" -> a_n_max c = Some n -> a_n_max c' = Some n -> (1 <= n)%Z ->
  inputs_of c = Ok (r, eps) -> inputs_of c' = Ok (r, tmap (fun e => RtoC (q * q) * e)%C eps) ->
  a_k0 c' = tmap (fun k => k / q) (a_k0 c) -> a_env c' = tmap (fun e => RtoC (q * q) * e)%C (a_env c) ->
  valid (a_k0 c) r eps (a_env c) K P L ef vf -> (1 <= P)%nat -> (1 <= L)%nat -> shp probe = [Q; 3]%nat ->
  exists f f', near_call_pena e10 sj sy jr E0 probe c = Ok f /\ near_call_pena e10 sj sy jr E0 probe c' = Ok f' /\
  forall p k i, (p < P)%nat -> (k < K)%nat -> (i < Q)%nat -> at_ (a_env c) (vf k) <> RtoC 0 ->
    row (f_Ei f') p k i = row (f_Ei f) p k i /\ row (f_Hi f') p k i = signs q q q (row (f_Hi f) p k i) /\
    row (f_Es f') p k i = row (f_Es f) p k i /\ row (f_Hs f') p k i = signs q q q (row (f_Hs f) p k i) /\
    row (f_Et f') p k i = row (f_Et f) p k i /\ row (f_Ht f') p k i = signs q q q (row (f_Ht f) p k i).
Proof. exact call_relative. Qed.
Print Assumptions C103_call.

(** two particles of two layers at three wavelengths: vacuum against index 2 *)
Example C103_instance : forall sj sy jr,
  let c := ex_call "pena" (Some 4%Z) in
  let c' := layer_call (tmap (fun k => k / 2) ex_k0) ex_r (tmap (fun e => RtoC (2 * 2) * e)%C ex_eps) (tmap (fun e => RtoC (2 * 2) * e)%C (a_env c)) "pena" (Some 4%Z) in
  exists f f', near_call_pena (/ 10000000000) sj sy jr (RtoC 1) ex_mirror c = Ok f /\ near_call_pena (/ 10000000000) sj sy jr (RtoC 1) ex_mirror c' = Ok f' /\
    forall p k i, (p < 2)%nat -> (k < 3)%nat -> (i < 4)%nat -> row (f_Et f') p k i = row (f_Et f) p k i /\ row (f_Ht f') p k i = signs 2 2 2 (row (f_Ht f) p k i).
Proof.
  intros sj sy jr c c'.
  destruct (C103_call 2 ltac:(lra) sj sy jr (/ 10000000000) (RtoC 1) ex_mirror 4 c c' 4%Z ex_r ex_eps 3 2 2 _ _ eq_refl eq_refl eq_refl eq_refl ltac:(lia) (ex_inputs _ _) eq_refl eq_refl eq_refl (ex_valid _ _) ltac:(lia) ltac:(lia) eq_refl) as (f & f' & Hf & Hf' & H).
  exists f, f'. split; [exact Hf|]. split; [exact Hf'|]. intros p k i Hp Hk Hi. destruct (H p k i Hp Hk Hi) as (_ & _ & _ & _ & H1 & H2); [|now split].
  change (RtoC 1 <> RtoC 0). intros E. apply RtoC_inj in E. lra.
Qed.
