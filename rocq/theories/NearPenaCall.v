(** Near fields of whole pena calls: mie_coefficients followed by the field
    evaluation, against the scalar fields of each particle, wavelength and position. *)
From Coq Require Import Reals ZArith List Bool String Arith Lia.
From Coquelicot Require Import Coquelicot.
From Verif Require Import Ops ROps Tensor TensorProofs TensorView ModelSpecial ModelMie CLemmas ModelBatch ModelObs BroadcastSpec BroadcastProofs BatchProofs BatchReal TruncProofs TorchBatch ModelJn JnProofs ModelNear ModelNearLegacy ModelNearPena NearLegacySpec NearLegacyProofs NearLegacyEval NearLegacyCall NearPenaEval.
Import ListNotations.
Open Scope nat_scope.
Open Scope list_scope.

Section M.
  Variables (sj sy jr : @bessel_t R).
  Notation mie := (mie_coefficients sj sy jr).
  (* everything the pena branch of nearfields reads from a result of mie_coefficients *)
  Lemma pena_record (c : @call R) o r eps K P L ef vf : mie c = Ok o -> backend_is c "pena" -> a_internal c = false -> inputs_of c = Ok (r, eps) ->
    valid (a_k0 c) r eps (a_env c) K P L ef vf -> (1 <= o_n_max o)%Z ->
    1 <= L /\ denotes (o_cfg o) (a_k0 c) r eps (a_env c) K P L ef vf /\
    is2 (o_k o) 1 K (fun _ k => cmul (cofr (nth k (entries (a_k0 c)) 0%R)) (csqrt (at_ (a_env c) (vf k)))) /\
    is3 (o_a o) (Z.to_nat (o_n_max o)) P K (fun i p k => fst (scalar_pena (Z.to_nat (o_n_max o)) (element (a_k0 c) r eps (a_env c) ef vf L p k) (S i))) /\
    is3 (o_b o) (Z.to_nat (o_n_max o)) P K (fun i p k => snd (scalar_pena (Z.to_nat (o_n_max o)) (element (a_k0 c) r eps (a_env c) ef vf L p k) (S i))).
  Proof.
    intros Hm Hb Hint Hi Hv Hn. unfold mie_coefficients in Hm.
    destruct (existsb _ _); [|discriminate]. cbn [negb] in Hm. unfold inputs_of in Hi. rewrite Hi in Hm. cbn [bind fst snd] in Hm.
    destruct (broadcast_accepts _ _ _ _ _ _ _ _ _ Hv) as (b & Eb & Hd). rewrite Eb in Hm. cbn [bind] in Hm.
    pose proof Hd as (Ik0 & Ir & Ie & Iv & In). cbv zeta in Hm.
    unfold dim_size in Hm. rewrite (proj1 Ir), (proj1 Ik0) in Hm. cbn [nth] in Hm.
    destruct (Nat.ltb_spec 0 L) as [HL0|]; [|discriminate]. cbn [guard_err bind] in Hm.
    assert (HL1 : L - 1 < L) by lia.
    destruct (is2_broadcast_col _ P K _ (is2_unl _ _ _ (is1_select _ _ _ _ 0 HL0 Ir))) as (rc & Erc & Jrc). rewrite Erc in Hm. cbn [bind] in Hm.
    apply bind_inv in Hm. destruct Hm as (rs & _ & Hm).
    apply bind_inv in Hm. destruct Hm as (n & _ & Hm). destruct (n <? 0)%Z; [discriminate|].
    destruct (tbin_22 cmul _ _ _ _ _ _ (is2_tmap (@cofr R ROps) _ _ _ _ Ik0) In) as (kk & Ek & Jk). rewrite Ek in Hm. cbn [bind] in Hm.
    apply bind_inv in Hm. destruct Hm as (((a & bb) & i) & Hab & Hm). apply ok_inv in Hm. subst o.
    cbn [o_n_max o_cfg o_k o_a o_b] in *.
    unfold backend_is in Hb. rewrite Hb, Hint in Hab. cbn [String.eqb Ascii.eqb Bool.eqb] in Hab.
    destruct (pena_t_ok _ _ _ _ n _ _ _ _ _ _ _ Jk Ir Ie In HL0 Hn) as (a' & bb' & Eab & Ja & Jb). rewrite Eab in Hab. cbn [bind fst snd] in Hab.
    apply ok_inv in Hab. injection Hab as <- <- _.
    split; [lia|]. split; [exact Hd|]. split; [exact Jk|].
    destruct L as [|L]; [lia|]. cbn [Nat.sub] in Ja, Jb. rewrite Nat.sub_0_r in Ja, Jb.
    split; (eapply is3_ext; [|eassumption]); intros i' p k Hi' Hp Hk'; cbn beta; unfold scalar_pena, element, mie_pena, core_of, shells_of;
      cbn [fst snd seq map hd tl]; rewrite map_map; reflexivity.
  Qed.

  Lemma near_record (e10 : R) (E0 : C) (probe : tensor R) Q (c : @call R) o r eps K P L ef vf :
    mie (without_internal c) = Ok o -> backend_is c "pena" -> inputs_of c = Ok (r, eps) -> valid (a_k0 c) r eps (a_env c) K P L ef vf ->
    (1 <= o_n_max o)%Z -> 1 <= P -> shp probe = [Q; 3] ->
    exists f, near_call_pena e10 sj sy jr E0 probe c = Ok f /\
    (shp (f_Ei f) = [P; K; Q; 3] /\ shp (f_Hi f) = [P; K; Q; 3] /\ shp (f_Es f) = [P; K; Q; 3] /\ shp (f_Hs f) = [P; K; Q; 3] /\ shp (f_Et f) = [P; K; Q; 3] /\ shp (f_Ht f) = [P; K; Q; 3]) /\
    forall p k i cp, p < P -> k < K -> i < Q -> cp < 3 ->
      let N := Z.to_nat (o_n_max o) in let e := element (a_k0 c) r eps (a_env c) ef vf L p k in
      let k0 := fst (fst e) in let env := snd (fst e) in let co := core_of e in let sh := shells_of e in let pt := point_i e10 probe i in
      at_ (f_Ei f) [p; k; i; cp] = comp cp (E_i k0 env E0 pt) /\
      at_ (f_Hi f) [p; k; i; cp] = comp cp (H_i k0 env E0 pt) /\
      at_ (f_Es f) [p; k; i; cp] = comp cp (E_s N 15 k0 env co sh E0 pt) /\
      at_ (f_Hs f) [p; k; i; cp] = comp cp (H_s N 15 k0 env co sh E0 pt) /\
      at_ (f_Et f) [p; k; i; cp] = comp cp (E_t N 15 k0 env co sh E0 pt) /\
      at_ (f_Ht f) [p; k; i; cp] = comp cp (H_t N 15 k0 env co sh E0 pt).
  Proof.
    intros Hm Hb Hi Hv Hn HP Sp. unfold near_call_pena. rewrite Hm. cbn [bind].
    destruct (pena_record (without_internal c) o r eps K P L ef vf Hm Hb eq_refl Hi Hv Hn) as (HL & (Ik0 & Ir & Ie & Iv & In) & Ik & Ia & Ib).
    assert (HN : 1 <= Z.to_nat (o_n_max o)) by lia. assert (HZ : o_n_max o = Z.of_nat (Z.to_nat (o_n_max o))) by lia.
    assert (Hel : forall p k, core_of (element (a_k0 c) r eps (a_env c) ef vf L p k) = core_pk (fun p l => at_ r (r_ix (shp r) p l)) (fun p l k => at_ eps (ef p l k)) p k /\
       shells_of (element (a_k0 c) r eps (a_env c) ef vf L p k) = shells_pk L (fun p l => at_ r (r_ix (shp r) p l)) (fun p l k => at_ eps (ef p l k)) p k).
    { intros p k. unfold core_of, shells_of, element, core_pk, shells_pk. cbn [snd]. replace L with (S (L - 1)) at 1 2 by lia. cbn [seq map hd tl]. split; reflexivity. }
    destruct (pena_eval (Z.to_nat (o_n_max o)) P K Q L e10 E0 probe o (fun k => nth k (entries (a_k0 c)) 0%R) (fun p l => at_ r (r_ix (shp r) p l)) (fun p l k => at_ eps (ef p l k)) (fun k => at_ (a_env c) (vf k))
      HN HL HZ Sp Ik0 Ir Ie In Ik) as (f & Hf & Sf & Vf); [| |exact HP|].
    { eapply is3_ext; [|exact Ia]. intros i p k _ _ _. cbn beta. unfold scalar_pena, mie_pena. cbn [a_k0 a_env without_internal]. rewrite (proj1 (Hel p k)), (proj2 (Hel p k)). reflexivity. }
    { eapply is3_ext; [|exact Ib]. intros i p k _ _ _. cbn beta. unfold scalar_pena, mie_pena. cbn [a_k0 a_env without_internal]. rewrite (proj1 (Hel p k)), (proj2 (Hel p k)). reflexivity. }
    exists f. split; [exact Hf|]. split; [exact Sf|]. intros p k i cp Hp Hk Hi' Hc. cbv zeta. rewrite (proj1 (Hel p k)), (proj2 (Hel p k)).
    exact (Vf p k i cp Hp Hk Hi' Hc).
  Qed.

  Lemma single_near_pena (e10 : R) (E0 : C) (probe : tensor R) Q (c : @call R) r eps K P L ef vf n :
    backend_is c "pena" -> a_n_max c = Some n -> (1 <= n)%Z -> inputs_of c = Ok (r, eps) -> valid (a_k0 c) r eps (a_env c) K P L ef vf -> 1 <= L -> 1 <= P -> shp probe = [Q; 3] ->
    exists f, near_call_pena e10 sj sy jr E0 probe c = Ok f /\
    forall p k, p < P -> k < K -> exists f1, near_call_pena e10 sj sy jr E0 probe (single_call c (element (a_k0 c) r eps (a_env c) ef vf L p k)) = Ok f1 /\
      forall i cp, i < Q -> cp < 3 ->
        at_ (f_Ei f) [p; k; i; cp] = at_ (f_Ei f1) [0; 0; i; cp] /\ at_ (f_Hi f) [p; k; i; cp] = at_ (f_Hi f1) [0; 0; i; cp] /\
        at_ (f_Es f) [p; k; i; cp] = at_ (f_Es f1) [0; 0; i; cp] /\ at_ (f_Hs f) [p; k; i; cp] = at_ (f_Hs f1) [0; 0; i; cp] /\
        at_ (f_Et f) [p; k; i; cp] = at_ (f_Et f1) [0; 0; i; cp] /\ at_ (f_Ht f) [p; k; i; cp] = at_ (f_Ht f1) [0; 0; i; cp].
  Proof.
    intros Hb Hn Hn1 Hi Hv HL HP Sp.
    assert (Hgo : forall (s : @call R) r' eps' K' P' ef' vf', backend_is s "pena" -> a_n_max s = Some n -> inputs_of s = Ok (r', eps') -> valid (a_k0 s) r' eps' (a_env s) K' P' L ef' vf' ->
      exists o, mie (without_internal s) = Ok o /\ o_n_max o = n).
    { intros s r' eps' K' P' ef' vf' Hb' Hn' Hi' Hv'.
      destruct (pena_tail sj sy jr (without_internal s) r' eps' K' P' L ef' vf' n Hb' eq_refl Hi' Hv' HL Hn1 (or_introl Hn')) as (o & Ho & Eo & _). eauto. }
    destruct (Hgo c _ _ _ _ _ _ Hb Hn Hi Hv) as (o & Ho & Eo).
    destruct (near_record e10 E0 probe Q c o r eps K P L ef vf Ho Hb Hi Hv ltac:(lia) HP Sp) as (f & Hf & _ & Vf).
    exists f. split; [exact Hf|]. intros p k Hp Hk.
    destruct (single_valid c r eps K P L ef vf p k Hv Hp Hk) as (r' & eps' & ef' & vf' & Hi' & Hv' & He).
    set (s := single_call c (element (a_k0 c) r eps (a_env c) ef vf L p k)) in *.
    destruct (Hgo s _ _ _ _ _ _ Hb Hn Hi' Hv') as (o' & Ho' & Eo').
    destruct (near_record e10 E0 probe Q s o' r' eps' 1 1 L ef' vf' Ho' Hb Hi' Hv' ltac:(lia) ltac:(lia) Sp) as (f1 & Hf1 & _ & Vf1).
    exists f1. split; [exact Hf1|]. intros i cp Hi'' Hc. specialize (Vf p k i cp Hp Hk Hi'' Hc). specialize (Vf1 0 0 i cp ltac:(lia) ltac:(lia) Hi'' Hc).
    cbv zeta in Vf, Vf1. rewrite He in Vf1. rewrite Eo in Vf. rewrite Eo' in Vf1.
    destruct Vf as (-> & -> & -> & -> & -> & ->), Vf1 as (-> & -> & -> & -> & -> & ->). repeat split.
  Qed.
End M.
