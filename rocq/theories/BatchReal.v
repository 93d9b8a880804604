(** [mie_coefficients] over the reals: acceptance, batching, truncation. *)
From Coq Require Import Reals ZArith List Bool String Arith Lia Lra.
From Coquelicot Require Import Complex.
From Verif Require Import Ops ROps Tensor TensorProofs ModelSpecial ModelMie ModelBatch BroadcastSpec BroadcastProofs BatchProofs.
Import ListNotations.
Open Scope nat_scope.
Open Scope list_scope.

Definition inputs_of (c : @call R) : result (tensor R * tensor C) :=
  as_layer_inputs (a_r_c c) (a_r_s c) (a_eps_c c) (a_eps_s c) (a_r_layers c) (a_eps_layers c).
Definition backend_is (c : @call R) (s : string) : Prop := lower (a_backend c) = s.
Definition known (s : string) : Prop := s = "torch"%string \/ s = "scipy"%string \/ s = "pena"%string.

(** the call's (p,k) element: wavelength, environment, layers *)
Definition element (k0 r : tensor R) (eps env : tensor C) (ef : nat -> nat -> nat -> list nat) (vf : nat -> list nat) (L p k : nat)
  : R * C * list (R * C) :=
  (nth k (entries k0) 0%R, at_ env (vf k), map (fun l => (at_ r (r_ix (shp r) p l), at_ eps (ef p l k))) (seq 0 L)).

Section M.
  Variables (sj sy jr : @bessel_t R).
  Notation mie := (mie_coefficients sj sy jr).

  Lemma known_dec (c : @call R) : {known (lower (a_backend c))} + {~ known (lower (a_backend c))}.
  Proof.
    unfold known. destruct (string_dec (lower (a_backend c)) "torch"); [left; auto|].
    destruct (string_dec (lower (a_backend c)) "scipy"); [left; auto|].
    destruct (string_dec (lower (a_backend c)) "pena"); [left; auto|]. right. tauto.
  Qed.
  Lemma existsb_known s : existsb (String.eqb s) ["torch"; "scipy"; "pena"]%string = true <-> known s.
  Proof.
    unfold known. cbn [existsb]. rewrite !orb_true_iff, !String.eqb_eq. intuition discriminate.
  Qed.
  Lemma mie_bad_backend (c : @call R) : ~ known (lower (a_backend c)) -> mie c = Err ValueError.
  Proof.
    intros H. unfold mie_coefficients. destruct (existsb _ _) eqn:E; [|reflexivity]. now apply existsb_known in E.
  Qed.
  Lemma mie_bad_inputs (c : @call R) e : known (lower (a_backend c)) -> inputs_of c = Err e -> mie c = Err e.
  Proof.
    intros H Hi. unfold mie_coefficients. rewrite (proj2 (existsb_known _) H). cbn [negb].
    unfold inputs_of in Hi. rewrite Hi. reflexivity.
  Qed.
  Lemma mie_bad_config (c : @call R) r eps : known (lower (a_backend c)) -> inputs_of c = Ok (r, eps) ->
    (forall K P L ef vf, ~ valid (a_k0 c) r eps (a_env c) K P L ef vf) -> mie c = Err ValueError.
  Proof.
    intros H Hi Hv. unfold mie_coefficients. rewrite (proj2 (existsb_known _) H). cbn [negb].
    unfold inputs_of in Hi. rewrite Hi. cbn [bind fst snd]. now rewrite (broadcast_rejects _ _ _ _ Hv).
  Qed.
  Lemma mie_ok_sane (c : @call R) o : mie c = Ok o ->
    known (lower (a_backend c)) /\ exists r eps K P L ef vf, inputs_of c = Ok (r, eps) /\ valid (a_k0 c) r eps (a_env c) K P L ef vf.
  Proof.
    intros H. destruct (known_dec c) as [Hk|Hk]; [|rewrite (mie_bad_backend c Hk) in H; discriminate].
    split; [exact Hk|]. destruct (inputs_of c) as [[r eps]|e] eqn:Hi; [|rewrite (mie_bad_inputs c e Hk Hi) in H; discriminate].
    destruct (valid_dec (a_k0 c) r eps (a_env c)) as [(K & P & L & ef & vf & Hv)|Hv].
    - exists r, eps, K, P, L, ef, vf. auto.
    - rewrite (mie_bad_config c r eps Hk Hi Hv) in H. discriminate.
  Qed.

  Definition core_of (e : R * C * list (R * C)) : R * C := hd (0%R, RtoC 0) (snd e).
  Definition shells_of (e : R * C * list (R * C)) : list (R * C) := tl (snd e).
  Definition scalar_pena (n_max : nat) (e : R * C * list (R * C)) : nat -> C * C :=
    @mie_pena R ROps n_max (fst (fst e)) (snd (fst e)) (core_of e) (shells_of e).

  (* the part of mie_coefficients after broadcasting and truncation, pena *)
  Lemma pena_tail (c : @call R) r eps K P L ef vf n :
    backend_is c "pena" -> a_internal c = false -> inputs_of c = Ok (r, eps) ->
    valid (a_k0 c) r eps (a_env c) K P L ef vf -> 1 <= L -> (1 <= n)%Z ->
    (a_n_max c = Some n \/ a_n_max c = None /\
       forall b, denotes b (a_k0 c) r eps (a_env c) K P L ef vf -> pena2009 (c_k0 b) (c_r b) (c_eps b) (c_env b) = Ok n) ->
    exists o, mie c = Ok o /\ o_n_max o = n /\ denotes (o_cfg o) (a_k0 c) r eps (a_env c) K P L ef vf /\
      is3 (o_a o) (Z.to_nat n) P K (fun i p k => fst (scalar_pena (Z.to_nat n) (element (a_k0 c) r eps (a_env c) ef vf L p k) (S i))) /\
      is3 (o_b o) (Z.to_nat n) P K (fun i p k => snd (scalar_pena (Z.to_nat n) (element (a_k0 c) r eps (a_env c) ef vf L p k) (S i))).
  Proof.
    intros Hb Hint Hi Hv HL Hn Htr. unfold mie_coefficients.
    assert (Hk : known (lower (a_backend c))) by (unfold known; auto).
    rewrite (proj2 (existsb_known _) Hk). cbn [negb].
    unfold inputs_of in Hi. rewrite Hi. cbn [bind fst snd].
    destruct (broadcast_accepts _ _ _ _ _ _ _ _ _ Hv) as (b & -> & Hd). cbn [bind].
    destruct Hd as (Ik0 & Ir & Ie & Iv & In).
    unfold dim_size. rewrite (proj1 Ir), (proj1 Ik0). cbn [nth].
    destruct (Nat.ltb_spec 0 L) as [_|]; [|lia]. cbn [guard_err bind].
    destruct (is2_broadcast_col _ P K _ (is2_unl _ _ _ (is1_select _ _ _ _ 0 HL Ir))) as (rc & -> & Jrc). cbn [bind].
    assert (HrS : exists rs, (if 1 <? L then broadcast_to [P; K] (unsqueeze_last (select 1 (L - 1) (c_r b))) else Ok rc) = Ok rs).
    { destruct (1 <? L) eqn:E; [|eauto]. assert (HL1 : L - 1 < L) by lia.
      destruct (is2_broadcast_col _ P K _ (is2_unl _ _ _ (is1_select _ _ _ _ (L - 1) HL1 Ir))) as (rs & -> & _). eauto. }
    destruct HrS as (rs & ->). cbn [bind].
    rewrite Hb. cbn [String.eqb Ascii.eqb Bool.eqb].
    assert (Hnm : match a_n_max c with
                  | Some n0 => Ok n0
                  | None => pena2009 (c_k0 b) (c_r b) (c_eps b) (c_env b) end = Ok n).
    { destruct Htr as [->|[-> Hp]]; [reflexivity|]. apply Hp. repeat split; try apply Ik0; try apply Ir; try apply Ie; try apply Iv; apply In. }
    match goal with |- context [bind ?X _] => replace X with (@Ok Z n) end.
    cbn [bind]. destruct (Z.ltb_spec n 0) as [Hbad|_]; [lia|].
    destruct (tbin_22 cmul _ _ _ _ _ _ (is2_tmap (@cofr R ROps) _ _ _ _ Ik0) In) as (kk & -> & Jk). cbn [bind].
    destruct (pena_t_ok _ _ _ _ n _ _ _ _ _ _ _ Jk Ir Ie In HL Hn) as (a & bb & Eab & Ja & Jb).
    rewrite Hint, Eab. cbn [bind fst snd].
    eexists. split; [reflexivity|]. cbn [o_n_max o_cfg o_a o_b].
    split; [reflexivity|]. split; [repeat split; try apply Ik0; try apply Ir; try apply Ie; try apply Iv; apply In|].
    destruct L as [|L]; [lia|]. cbn [Nat.sub] in Ja, Jb. rewrite Nat.sub_0_r in Ja, Jb.
    split; (eapply is3_ext; [|eassumption]); intros i p k Hi' Hp Hk'; cbn beta; unfold scalar_pena, element, mie_pena, core_of, shells_of;
      cbn [fst snd seq map hd tl]; rewrite map_map; reflexivity.
  Qed.
End M.

(** two calls agree on elements with equal data *)
Lemma pena_batch_independent sj sy jr (c c' : @call R) r eps K P L ef vf r' eps' K' P' L' ef' vf' n :
  backend_is c "pena" -> backend_is c' "pena" -> a_internal c = false -> a_internal c' = false ->
  a_n_max c = Some n -> a_n_max c' = Some n -> (1 <= n)%Z ->
  inputs_of c = Ok (r, eps) -> valid (a_k0 c) r eps (a_env c) K P L ef vf -> 1 <= L ->
  inputs_of c' = Ok (r', eps') -> valid (a_k0 c') r' eps' (a_env c') K' P' L' ef' vf' -> 1 <= L' ->
  exists o o', mie_coefficients sj sy jr c = Ok o /\ mie_coefficients sj sy jr c' = Ok o' /\
    forall p k p' k', p < P -> k < K -> p' < P' -> k' < K' ->
      element (a_k0 c) r eps (a_env c) ef vf L p k = element (a_k0 c') r' eps' (a_env c') ef' vf' L' p' k' ->
      forall i, i < Z.to_nat n ->
        at_ (o_a o) [i; p; k] = at_ (o_a o') [i; p'; k'] /\ at_ (o_b o) [i; p; k] = at_ (o_b o') [i; p'; k'].
Proof.
  intros Hb Hb' Hi Hi' Hn Hn' Hn1 Hin Hv HL Hin' Hv' HL'.
  destruct (pena_tail sj sy jr c _ _ _ _ _ _ _ n Hb Hi Hin Hv HL Hn1 (or_introl Hn)) as (o & -> & _ & _ & Ia & Ib).
  destruct (pena_tail sj sy jr c' _ _ _ _ _ _ _ n Hb' Hi' Hin' Hv' HL' Hn1 (or_introl Hn')) as (o' & -> & _ & _ & Ia' & Ib').
  exists o, o'. split; [reflexivity|]. split; [reflexivity|]. intros p k p' k' Hp Hk Hp' Hk' He i Hlt.
  rewrite (proj2 Ia), (proj2 Ia'), (proj2 Ib), (proj2 Ib') by assumption. rewrite He. split; reflexivity.
Qed.

(** the single-particle single-wavelength call for element (p,k) *)
Definition single_call (c : @call R) (e : R * C * list (R * C)) : @call R :=
  {| a_k0 := scalar_t (fst (fst e)); a_r_layers := Some (vec_t 0%R (map fst (snd e)));
     a_eps_layers := Some (vec_t (RtoC 0) (map snd (snd e)));
     a_r_c := None; a_eps_c := None; a_r_s := None; a_eps_s := None;
     a_env := scalar_t (snd (fst e)); a_internal := a_internal c; a_backend := a_backend c;
     a_which_jn := a_which_jn c; a_n_max := a_n_max c |}.

Lemma nth_map_seq {A} (f : nat -> A) d L l : l < L -> nth l (map f (seq 0 L)) d = f l.
Proof.
  intros H. rewrite (nth_indep _ d (f 0)) by (now rewrite map_length, seq_length). rewrite map_nth, seq_nth by exact H. reflexivity.
Qed.
Lemma single_valid c r eps K P L ef vf p k : valid (a_k0 c) r eps (a_env c) K P L ef vf -> p < P -> k < K ->
  let e := element (a_k0 c) r eps (a_env c) ef vf L p k in
  let s := single_call c e in
  exists r' eps' ef' vf', inputs_of s = Ok (r', eps') /\ valid (a_k0 s) r' eps' (a_env s) 1 1 L ef' vf' /\
    element (a_k0 s) r' eps' (a_env s) ef' vf' L 0 0 = e.
Proof.
  intros [Hk Hr Hi He Hv] Hp Hkk e s.
  exists (vec_t 0%R (map fst (snd e))), (vec_t (RtoC 0) (map snd (snd e))), (fun _ l _ => [l]), (fun _ => []).
  assert (Hlen : List.length (snd e) = L) by (unfold e, element; cbn [snd]; now rewrite map_length, seq_length).
  split; [reflexivity|]. split.
  - split; try reflexivity.
    + change (r_dims [List.length (map fst (snd e))] = Some (1, L)). now rewrite map_length, Hlen.
    + intros p' l Hp' Hl. cbn [vec_t shp at_ r_ix nth]. unfold e, element. cbn [snd fst]. rewrite !map_map. cbn [fst].
      rewrite !nth_map_seq by lia. now apply Hi.
    + change (eps_layout 1 L 1 [List.length (map snd (snd e))] = Some (fun _ l _ => [l])). rewrite map_length, Hlen. cbn. now rewrite Nat.eqb_refl.
  - transitivity (fst e, snd e); [|reflexivity]. unfold element at 1. apply f_equal2; [reflexivity|].
    transitivity (map (fun l => nth l (snd e) (0%R, RtoC 0)) (seq 0 L)).
    + apply map_ext_in. intros l Hl. apply in_seq in Hl. cbn [vec_t shp at_ r_ix nth].
      rewrite (surjective_pairing (nth l (snd e) (0%R, RtoC 0))). apply f_equal2.
      * exact (map_nth fst (snd e) (0%R, RtoC 0) l).
      * exact (map_nth snd (snd e) (0%R, RtoC 0) l).
    + unfold e, element. cbn [snd]. apply map_ext_in. intros l Hl. apply in_seq in Hl. rewrite nth_map_seq by lia. reflexivity.
Qed.
Lemma pena_batch_single sj sy jr (c : @call R) r eps K P L ef vf n :
  backend_is c "pena" -> a_internal c = false -> a_n_max c = Some n -> (1 <= n)%Z ->
  inputs_of c = Ok (r, eps) -> valid (a_k0 c) r eps (a_env c) K P L ef vf -> 1 <= L ->
  exists o, mie_coefficients sj sy jr c = Ok o /\ shp (o_a o) = [Z.to_nat n; P; K] /\ shp (o_b o) = [Z.to_nat n; P; K] /\
    forall p k, p < P -> k < K ->
      exists o', mie_coefficients sj sy jr (single_call c (element (a_k0 c) r eps (a_env c) ef vf L p k)) = Ok o' /\
        shp (o_a o') = [Z.to_nat n; 1; 1] /\ shp (o_b o') = [Z.to_nat n; 1; 1] /\
        forall i, i < Z.to_nat n ->
          at_ (o_a o) [i; p; k] = at_ (o_a o') [i; 0; 0] /\ at_ (o_b o) [i; p; k] = at_ (o_b o') [i; 0; 0].
Proof.
  intros Hb Hi Hn Hn1 Hin Hv HL.
  destruct (pena_tail sj sy jr c _ _ _ _ _ _ _ n Hb Hi Hin Hv HL Hn1 (or_introl Hn)) as (o & -> & _ & _ & Ia & Ib).
  exists o. split; [reflexivity|]. split; [apply Ia|]. split; [apply Ib|]. intros p k Hp Hk.
  destruct (single_valid c r eps K P L ef vf p k Hv Hp Hk) as (r' & eps' & ef' & vf' & Hin' & Hv' & He).
  set (s := single_call c (element (a_k0 c) r eps (a_env c) ef vf L p k)) in *.
  destruct (pena_tail sj sy jr s r' eps' 1 1 L ef' vf' n Hb Hi Hin' Hv' HL Hn1 (or_introl Hn)) as (o' & -> & _ & _ & Ia' & Ib').
  exists o'. split; [reflexivity|]. split; [apply Ia'|]. split; [apply Ib'|]. intros i Hlt.
  rewrite (proj2 Ia), (proj2 Ia'), (proj2 Ib), (proj2 Ib') by auto. rewrite He. split; reflexivity.
Qed.
