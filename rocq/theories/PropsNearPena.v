(** C73: batched near fields of the pena backend. *)
From Coq Require Import Reals ZArith List Bool String Arith Lia.
From Coquelicot Require Import Coquelicot.
From Verif Require Import Ops ROps Tensor ModelSpecial ModelMie ModelBatch BroadcastSpec BroadcastProofs BatchReal TruncProofs TorchBatch ExampleBatch ModelObs ModelJn ModelNear ModelNearLegacy ModelNearPena NearLegacySpec NearPenaCall.
Import ListNotations.
Open Scope nat_scope.
Open Scope list_scope.

(** C73: whenever mie_coefficients succeeds, the near-field evaluation does too;
    all six tensors have shape (N_part, N_k0, N_pos, 3), and every entry is the
    scalar field of its particle, wavelength and position. *)
Theorem C73_entrywise : forall sj sy jr e10 E0 probe Q (c : @call R) o r eps K P L ef vf,
  mie_coefficients sj sy jr (without_internal c) = Ok o -> backend_is c "pena" -> inputs_of c = Ok (r, eps) ->
  valid (a_k0 c) r eps (a_env c) K P L ef vf -> (1 <= o_n_max o)%Z -> 1 <= P -> shp probe = [Q; 3] ->
  exists f, near_call_pena e10 sj sy jr E0 probe c = Ok f /\
  (shp (f_Ei f) = [P; K; Q; 3] /\ shp (f_Hi f) = [P; K; Q; 3] /\ shp (f_Es f) = [P; K; Q; 3] /\
   shp (f_Hs f) = [P; K; Q; 3] /\ shp (f_Et f) = [P; K; Q; 3] /\ shp (f_Ht f) = [P; K; Q; 3]) /\
  forall p k i cp, p < P -> k < K -> i < Q -> cp < 3 ->
    let N := Z.to_nat (o_n_max o) in
    let e := element (a_k0 c) r eps (a_env c) ef vf L p k in
    let k0 := fst (fst e) in let env := snd (fst e) in let co := core_of e in let sh := shells_of e in
    let s := xyz_to_sph e10 (at_ probe [i; 0]) (at_ probe [i; 1]) (at_ probe [i; 2]) in
    let pt := {| pt_r := fst (fst s); pt_theta := snd (fst s); pt_phi := snd s |} in
    at_ (f_Ei f) [p; k; i; cp] = comp cp (E_i k0 env E0 pt) /\
    at_ (f_Hi f) [p; k; i; cp] = comp cp (H_i k0 env E0 pt) /\
    at_ (f_Es f) [p; k; i; cp] = comp cp (E_s N 15 k0 env co sh E0 pt) /\
    at_ (f_Hs f) [p; k; i; cp] = comp cp (H_s N 15 k0 env co sh E0 pt) /\
    at_ (f_Et f) [p; k; i; cp] = comp cp (E_t N 15 k0 env co sh E0 pt) /\
    at_ (f_Ht f) [p; k; i; cp] = comp cp (H_t N 15 k0 env co sh E0 pt).
Proof. exact near_record. Qed.
Print Assumptions C73_entrywise.

(** C73, corollary: for a given n_max, evaluating each particle and wavelength
    on its own returns the same fields, for any number of wavelengths. *)
Theorem C73_batch_is_single : forall sj sy jr e10 E0 probe Q (c : @call R) r eps K P L ef vf n,
  backend_is c "pena" -> a_n_max c = Some n -> (1 <= n)%Z -> inputs_of c = Ok (r, eps) ->
  valid (a_k0 c) r eps (a_env c) K P L ef vf -> 1 <= L -> 1 <= P -> shp probe = [Q; 3] ->
  exists f, near_call_pena e10 sj sy jr E0 probe c = Ok f /\
  forall p k, p < P -> k < K ->
    exists f1, near_call_pena e10 sj sy jr E0 probe (single_call c (element (a_k0 c) r eps (a_env c) ef vf L p k)) = Ok f1 /\
    forall i cp, i < Q -> cp < 3 ->
      at_ (f_Ei f) [p; k; i; cp] = at_ (f_Ei f1) [0; 0; i; cp] /\ at_ (f_Hi f) [p; k; i; cp] = at_ (f_Hi f1) [0; 0; i; cp] /\
      at_ (f_Es f) [p; k; i; cp] = at_ (f_Es f1) [0; 0; i; cp] /\ at_ (f_Hs f) [p; k; i; cp] = at_ (f_Hs f1) [0; 0; i; cp] /\
      at_ (f_Et f) [p; k; i; cp] = at_ (f_Et f1) [0; 0; i; cp] /\ at_ (f_Ht f) [p; k; i; cp] = at_ (f_Ht f1) [0; 0; i; cp].
Proof. exact single_near_pena. Qed.
Print Assumptions C73_batch_is_single.

(** two particles of two layers at three wavelengths, two positions *)
Example C73_instance : forall sj sy jr e10, 
  let probe := mkT [2; 3] (fun ix => INR (nth 0 ix 0 + nth 1 ix 0)) in
  exists f, near_call_pena e10 sj sy jr (RtoC 1) probe (ex_call "pena" (Some 4%Z)) = Ok f /\
    forall p k, p < 2 -> k < 3 ->
    exists f1, near_call_pena e10 sj sy jr (RtoC 1) probe (single_call (ex_call "pena" (Some 4%Z)) (element (a_k0 (ex_call "pena" (Some 4%Z))) ex_r ex_eps (a_env (ex_call "pena" (Some 4%Z))) (fun p l _ => [p; l]) (fun _ => []) 2 p k)) = Ok f1 /\
      at_ (f_Et f) [p; k; 1; 2] = at_ (f_Et f1) [0; 0; 1; 2].
Proof.
  intros sj sy jr e10 probe.
  destruct (C73_batch_is_single sj sy jr e10 (RtoC 1) probe 2 (ex_call "pena" (Some 4%Z)) ex_r ex_eps 3 2 2 _ _ 4%Z eq_refl eq_refl ltac:(lia) (ex_inputs _ _) (ex_valid _ _) ltac:(lia) ltac:(lia) eq_refl) as (f & Hf & H).
  exists f. split; [exact Hf|]. intros p k Hp Hk. destruct (H p k Hp Hk) as (f1 & Hf1 & V). exists f1. split; [exact Hf1|]. apply (V 1 2); lia.
Qed.
