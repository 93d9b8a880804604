(** Concrete calls used beside the batching and broadcasting theorems. *)
From Coq Require Import Reals ZArith List Bool String Arith Lia Lra.
From Coquelicot Require Import Complex.
From Verif Require Import Ops ROps Tensor TensorProofs ModelSpecial ModelMie ModelBatch BroadcastSpec BroadcastProofs BatchReal LegacyProofs ModelObs ObsProofs.
Import ListNotations.
Open Scope nat_scope.
Open Scope list_scope.

Definition rv (l : list R) : tensor R := vec_t 0%R l.
Definition rm (l : list (list R)) : tensor R := mat_t 0%R l.
Definition cv (l : list R) : tensor (cplx R) := tmap (@cofr R ROps) (vec_t 0%R l).
Definition cm (l : list (list R)) : tensor (cplx R) := tmap (@cofr R ROps) (mat_t 0%R l).
Definition cs (x : R) : tensor (cplx R) := scalar_t (@cofr R ROps x).

Definition layer_call (k0 r : tensor R) (eps env : tensor (cplx R)) (backend : string) (n : option Z) : @call R :=
  {| a_k0 := k0; a_r_layers := Some r; a_eps_layers := Some eps; a_r_c := None; a_eps_c := None; a_r_s := None; a_eps_s := None;
     a_env := env; a_internal := false; a_backend := backend; a_which_jn := "recurrence"; a_n_max := n |}.
Definition legacy_call (k0 rc rs : tensor R) (ec es env : tensor (cplx R)) (backend : string) (n : option Z) : @call R :=
  {| a_k0 := k0; a_r_layers := None; a_eps_layers := None; a_r_c := Some rc; a_eps_c := Some ec; a_r_s := Some rs; a_eps_s := Some es;
     a_env := env; a_internal := false; a_backend := backend; a_which_jn := "recurrence"; a_n_max := n |}.

(* two core-shell particles, three wavelengths, per-particle constant permittivities *)
Definition ex_k0 := rv [1; 2; 3]%R.
Definition ex_r := rm [[1; 2]; [1; 3]]%R.
Definition ex_eps := cm [[2; 3]; [4; 5]]%R.
Definition ex_call (backend : string) n := layer_call ex_k0 ex_r ex_eps (cs 1) backend n.
Lemma ex_valid b n : valid (a_k0 (ex_call b n)) ex_r ex_eps (a_env (ex_call b n)) 3 2 2 (fun p l _ => [p; l]) (fun _ => []).
Proof.
  split; try reflexivity. intros [|[|p]] [|l] Hp Hl; try lia; cbn; lra.
Qed.
Lemma ex_inputs b n : inputs_of (ex_call b n) = Ok (ex_r, ex_eps). Proof. reflexivity. Qed.

(* the same permittivity table read as (L, N_k0) data is a (N_part, L) table when N_part = L = N_k0 *)
Definition sq_k0 := rv [1; 2]%R.
Lemma square_ambiguous : exists b, broadcast_mie_layers sq_k0 ex_r ex_eps (cs 1) = Ok b /\
  at_ (c_eps b) [0; 1; 0] = RtoC 3 /\ at_ ex_eps [1; 0] = RtoC 4 /\ RtoC 3 <> RtoC 4.
Proof.
  destruct (layout_2d_square sq_k0 ex_r ex_eps (cs 1) 2 (fun _ => []) eq_refl eq_refl eq_refl) as (b & Hb & [_ H]).
  - intros [|[|p]] [|l] Hp Hl; try lia; cbn; lra.
  - reflexivity.
  - exists b. split; [exact Hb|]. split; [|split; [reflexivity|intros E; injection E; lra]].
    rewrite H by lia. reflexivity.
Qed.

(* one legacy particle with 1-element constant permittivities at two wavelengths *)
Definition one_call b n := legacy_call sq_k0 (rv [1])%R (rv [2])%R (cv [2])%R (cv [3])%R (cs 1) b n.
Lemma one_rejected sj sy jr b n : known (lower b) -> mie_coefficients sj sy jr (one_call b n) = Err ValueError.
Proof.
  intros Hb. destruct (legacy_const_one 2 (rv [1]) (rv [2]) (cv [2]) (cv [3]) sq_k0 (cs 1))%R as (r & e & Hi & Hr); try reflexivity; try lia; [cbn; lra|].
  unfold mie_coefficients. cbn [a_backend a_r_c a_r_s a_eps_c a_eps_s a_r_layers a_eps_layers one_call legacy_call]. rewrite (proj2 (existsb_known _) Hb). cbn [negb].
  rewrite Hi. cbn [bind fst snd a_k0 a_env legacy_call one_call]. now rewrite Hr.
Qed.
(* a homogeneous and a core-shell particle in one legacy batch *)
Definition mixed_call b n := legacy_call (rv [1])%R (rv [1; 1])%R (rv [1; 2])%R (cv [2; 2])%R (cv [3; 3])%R (cs 1) b n.
Lemma mixed_rejected sj sy jr b n : known (lower b) -> mie_coefficients sj sy jr (mixed_call b n) = Err ValueError.
Proof.
  intros Hb. unfold mie_coefficients. cbn [a_backend a_r_c a_r_s a_eps_c a_eps_s a_r_layers a_eps_layers mixed_call legacy_call]. rewrite (proj2 (existsb_known _) Hb). cbn [negb].
  destruct (legacy_const 2 (rv [1; 1]) (rv [1; 2]) eq_refl eq_refl (cv [2; 2]) (cv [3; 3]) 1)%R as (r & e & Hi & _); try reflexivity; try lia; [cbn; lra|].
  rewrite Hi. cbn [bind fst snd a_k0 a_env legacy_call mixed_call].
  rewrite (legacy_mixed 2 (rv [1; 1]) (rv [1; 2]) eq_refl eq_refl (rv [1]) (cv [2; 2]) (cv [3; 3]) (cs 1) 0 1 r e)%R; try reflexivity; try lia; [cbn; lra|exact Hi].
Qed.
Lemma missing_layers sj sy jr (c : @call R) : known (lower (a_backend c)) ->
  (a_r_layers c = None <-> a_eps_layers c <> None) \/
  (a_r_layers c = None /\ a_eps_layers c = None /\ (a_r_c c = None \/ a_eps_c c = None)) ->
  mie_coefficients sj sy jr c = Err ValueError.
Proof.
  intros Hk H. apply (mie_bad_inputs sj sy jr c ValueError Hk). unfold inputs_of, as_layer_inputs.
  destruct H as [[H1 H2]|(-> & -> & [-> | ->])].
  - destruct (a_r_layers c), (a_eps_layers c); try reflexivity; [|].
    + exfalso. assert (Some t0 <> None) by discriminate. specialize (H2 H). discriminate.
    + exfalso. now apply (H1 eq_refl).
  - reflexivity.
  - destruct (a_r_c c); reflexivity.
Qed.
