(** The automatic truncation order of [mie_coefficients] (C35). *)
From Coq Require Import Reals ZArith List Bool String Arith Lia Lra.
From Coquelicot Require Import Coquelicot.
From Verif Require Import Ops ROps Tensor TensorProofs ModelSpecial ModelMie ModelBatch BroadcastSpec BroadcastProofs BatchProofs BatchReal TruncProofs.
Import ListNotations.
Open Scope nat_scope.
Open Scope list_scope.

(** size numbers of one element (k0, eps_env, [(r_1, eps_1); ...]) *)
Definition outer_size (e : R * C * list (R * C)) : R :=
  Cmod (Cmult (Cmult (RtoC (fst (fst e))) (@csqrt R ROps (snd (fst e)))) (RtoC (fst (last (snd e) (0%R, RtoC 0))))).
Definition layer_size (e : R * C * list (R * C)) (l : nat) : R :=
  let re := nth l (snd e) (0%R, RtoC 0) in
  Cmod (Cmult (Cmult (RtoC (fst (fst e))) (@csqrt R ROps (snd re))) (RtoC (fst re))).
Definition inner_size (e : R * C * list (R * C)) (l : nat) : R :=
  let re := nth l (snd e) (0%R, RtoC 0) in
  Cmod (Cmult (Cmult (RtoC (fst (fst e))) (@csqrt R ROps (snd re))) (RtoC (prev (fun j => fst (nth j (snd e) (0%R, RtoC 0))) l))).
Definition count (x : R) : Z := Rround (@wiscombe_raw R ROps x).

Section M.
  Variables (sj sy jr : @bessel_t R).
  Notation mie := (mie_coefficients sj sy jr).

  Definition auto_n (c : @call R) (b : @config R) : result Z :=
    if String.eqb (lower (a_backend c)) "pena" then pena2009 (c_k0 b) (c_r b) (c_eps b) (c_env b)
    else
      let* r_outer := broadcast_to [dim_size 0 (c_r b); dim_size 1 (c_k0 b)] (unsqueeze_last (select 1 (dim_size 1 (c_r b) - 1) (c_r b))) in
      let* rk := tbin rmul r_outer (c_k0 b) in
      let* ka := tbin cmul (tmap cofr rk) (tmap csqrt (c_env b)) in
      wiscombe ka.
  Lemma mie_n_max (c : @call R) o r eps b : mie c = Ok o -> inputs_of c = Ok (r, eps) -> broadcast_mie_layers (a_k0 c) r eps (a_env c) = Ok b ->
    (match a_n_max c with Some n => Ok n | None => auto_n c b end) = Ok (o_n_max o).
  Proof.
    intros H Hi Hb. unfold mie_coefficients in H. destruct (negb _); [discriminate|].
    unfold inputs_of in Hi. rewrite Hi in H. cbn [bind fst snd] in H. rewrite Hb in H. cbn [bind] in H.
    destruct (guard_err _ _); [|discriminate]. cbn [bind] in H.
    destruct (broadcast_to _ _) as [rc|]; [|discriminate]. cbn [bind] in H.
    destruct (if 1 <? dim_size 1 (c_r b) then _ else Ok rc) as [rs|]; [|discriminate]. cbn [bind] in H.
    unfold auto_n in *.
    destruct (match a_n_max c with Some n => Ok n | None => _ end) as [n|]; [|discriminate]. cbn [bind] in H.
    destruct (n <? 0)%Z; [discriminate|].
    destruct (tbin cmul _ _) as [k|]; [|discriminate]. cbn [bind] in H.
    match type of H with bind ?X _ = _ => destruct X as [[[aa bb] ii]|]; [|discriminate] end. cbn [bind] in H.
    injection H as <-. reflexivity.
  Qed.

  Section Valid.
    Variables (c : @call R) (r : tensor R) (eps : tensor C) (K P L : nat) (ef : nat -> nat -> nat -> list nat) (vf : nat -> list nat) (b : @config R).
    Hypothesis (Hd : denotes b (a_k0 c) r eps (a_env c) K P L ef vf) (HP : 0 < P) (HL : 0 < L) (HK : 0 < K).
    Notation el p k := (element (a_k0 c) r eps (a_env c) ef vf L p k).

    Lemma el_nth p k l : l < L -> nth l (snd (el p k)) (0%R, RtoC 0) = (at_ r (r_ix (shp r) p l), at_ eps (ef p l k)).
    Proof. intros. unfold element. cbn [snd]. now rewrite nth_map_seq. Qed.
    Lemma el_last p k : last (snd (el p k)) (0%R, RtoC 0) = (at_ r (r_ix (shp r) p (L - 1)), at_ eps (ef p (L - 1) k)).
    Proof.
      unfold element. cbn [snd]. destruct L as [|L']; [lia|]. rewrite seq_S, map_app. cbn [map plus]. rewrite last_last.
      replace (S L' - 1) with L' by lia. reflexivity.
    Qed.
    Lemma outer_size_el p k : outer_size (el p k) = Cmod (Cmult (Cmult (RtoC (nth k (entries (a_k0 c)) 0%R)) (@csqrt R ROps (at_ (a_env c) (vf k)))) (RtoC (at_ r (r_ix (shp r) p (L - 1))))).
    Proof. unfold outer_size. rewrite el_last. reflexivity. Qed.

    Lemma auto_pena : lower (a_backend c) = "pena"%string ->
      exists xo m1 m2, max_over2 xo P K (fun p k => outer_size (el p k)) /\
        max_over3 m1 P L K (fun p l k => layer_size (el p k) l) /\ max_over3 m2 P L K (fun p l k => inner_size (el p k) l) /\
        auto_n c b = Ok (Rround (Rmax (IZR (count xo)) (Rmax m1 m2) + 15)).
    Proof.
      intros Hb. unfold auto_n. rewrite Hb. cbn [String.eqb Ascii.eqb Bool.eqb].
      destruct Hd as (A1 & A2 & A3 & A4 & _).
      destruct (pena2009_ok _ _ _ _ P L K _ _ _ _ A1 A2 A3 A4 HP HL HK) as (xo & m1 & m2 & X1 & X2 & X3 & ->).
      exists xo, m1, m2. split; [|split; [|split; [|reflexivity]]].
      - destruct X1 as [X1 (p & k & Hp & Hk & X1e)]. split.
        + intros p' k' Hp' Hk'. rewrite outer_size_el. apply (X1 p' k' Hp' Hk').
        + exists p, k. rewrite outer_size_el. auto.
      - destruct X2 as [X2 (p & l & k & Hp & Hl & Hk & X2e)]. split.
        + intros p' l' k' Hp' Hl' Hk'. unfold layer_size. rewrite el_nth by assumption. apply (X2 p' l' k' Hp' Hl' Hk').
        + exists p, l, k. unfold layer_size. rewrite el_nth by assumption. auto.
      - assert (E : forall p l k, l < L -> inner_size (el p k) l =
          Cmod (Cmult (Cmult (RtoC (nth k (entries (a_k0 c)) 0%R)) (@csqrt R ROps (at_ eps (ef p l k)))) (RtoC (prev (fun l => at_ r (r_ix (shp r) p l)) l)))).
        { intros p l k Hl. unfold inner_size. rewrite el_nth by assumption. cbn [fst snd]. destruct l as [|j]; [reflexivity|].
          cbn [prev]. rewrite el_nth by lia. reflexivity. }
        destruct X3 as [X3 (p & l & k & Hp & Hl & Hk & X3e)]. split.
        + intros p' l' k' Hp' Hl' Hk'. rewrite E by assumption. apply (X3 p' l' k' Hp' Hl' Hk').
        + exists p, l, k. rewrite E by assumption. auto.
    Qed.
    Lemma auto_wiscombe : lower (a_backend c) <> "pena"%string ->
      exists xo, max_over2 xo P K (fun p k => outer_size (el p k)) /\ auto_n c b = Ok (count xo).
    Proof.
      intros Hb. unfold auto_n. destruct (String.eqb_spec (lower (a_backend c)) "pena") as [E|_]; [contradiction|].
      destruct Hd as (A1 & A2 & A3 & A4 & _). unfold dim_size. rewrite (proj1 A1), (proj1 A2). cbn [nth].
      assert (HL1 : L - 1 < L) by lia.
      destruct (is2_broadcast_col _ P K _ (is2_unl _ _ _ (is1_select _ _ _ _ (L - 1) HL1 A2))) as (ro & -> & Jro). cbn [bind].
      destruct (tbin_21 rmul _ _ _ _ _ _ Jro A1) as (rk & -> & Jrk). cbn [bind].
      destruct (tbin_21 cmul _ _ _ _ _ _ (is2_tmap (@cofr R ROps) _ _ _ _ Jrk) (is2_tmap csqrt _ _ _ _ A4)) as (ka & -> & Jka). cbn [bind].
      unfold wiscombe.
      destruct (tmax_is2 _ _ _ _ (is2_tmap (@cabs R ROps) _ _ _ _ Jka) HP HK) as (xo & -> & Hxo). cbn [bind].
      exists xo. split; [|reflexivity].
      assert (E : forall p k, outer_size (el p k) =
         @cabs R ROps (cmul (cofr (rmul (at_ r (r_ix (shp r) p (L - 1))) (nth k (entries (a_k0 c)) 0%R))) (csqrt (at_ (a_env c) (vf k))))).
      { intros p k. rewrite outer_size_el. toC. apply f_equal. cbn [rmul ROps]. rewrite RtoC_mult. ring. }
      destruct Hxo as [X (p & k & Hp & Hk & Xe)]. split.
      - intros p' k' Hp' Hk'. rewrite E. apply (X p' k' Hp' Hk').
      - exists p, k. rewrite E. auto.
    Qed.
  End Valid.

  (* every element's needs are covered *)
  Definition covers (backend : string) (n : Z) (e : R * C * list (R * C)) (L : nat) : Prop :=
    (count (outer_size e) <= n)%Z /\ (1 <= n)%Z /\
    (backend = "pena"%string -> (16 <= n)%Z /\ (count (outer_size e) + 15 <= n)%Z /\ forall l, l < L -> (layer_size e l + 14 <= IZR n)%R).

  Lemma Rround_shift x (n : Z) : (IZR n <= x)%R -> (n <= Rround x)%Z.
  Proof. intros. apply Rround_ge. lra. Qed.

  Lemma auto_covers (c : @call R) o r eps K P L ef vf :
    mie c = Ok o -> a_n_max c = None -> inputs_of c = Ok (r, eps) -> valid (a_k0 c) r eps (a_env c) K P L ef vf ->
    0 < P -> 0 < L -> 0 < K ->
    forall p k, p < P -> k < K -> covers (lower (a_backend c)) (o_n_max o) (element (a_k0 c) r eps (a_env c) ef vf L p k) L.
  Proof.
    intros Ho Hn Hi Hv HP HL HK p k Hp Hk.
    destruct (broadcast_accepts _ _ _ _ _ _ _ _ _ Hv) as (b & Hb & Hd).
    pose proof (mie_n_max c o r eps b Ho Hi Hb) as Hm. rewrite Hn in Hm.
    set (e := element _ _ _ _ _ _ _ p k).
    assert (Hx0 : (0 <= outer_size e)%R) by apply Cmod_ge_0.
    destruct (String.eqb_spec (lower (a_backend c)) "pena") as [Ep|Ep].
    - destruct (auto_pena c r eps K P L ef vf b Hd HP HL HK Ep) as (xo & m1 & m2 & X1 & X2 & _ & E).
      rewrite Hm in E. injection E as ->.
      pose proof (proj1 X1 p k Hp Hk) as Hxo. cbv beta in Hxo. fold e in Hxo.
      pose proof (wiscombe_mono (outer_size e) xo (conj Hx0 Hxo)) as Hc. fold (count xo) (count (outer_size e)) in Hc.
      assert (H1 : (1 <= count xo)%Z).
      { apply Rround_shift. apply wiscombe_ge. lra. }
      assert (Hbig : (count xo + 15 <= Rround (Rmax (IZR (count xo)) (Rmax m1 m2) + 15))%Z).
      { apply Rround_shift. rewrite plus_IZR. pose proof (Rmax_l (IZR (count xo)) (Rmax m1 m2)). lra. }
      split; [lia|]. split; [lia|]. intros _. split; [lia|]. split; [lia|]. intros l Hl.
      pose proof (proj1 X2 p l k Hp Hl Hk) as Hm1. cbv beta in Hm1. fold e in Hm1.
      pose proof (Rround_bounds (Rmax (IZR (count xo)) (Rmax m1 m2) + 15)).
      pose proof (Rmax_r (IZR (count xo)) (Rmax m1 m2)). pose proof (Rmax_l m1 m2). lra.
    - destruct (auto_wiscombe c r eps K P L ef vf b Hd HP HL HK Ep) as (xo & X1 & E).
      rewrite Hm in E. injection E as ->.
      pose proof (proj1 X1 p k Hp Hk) as Hxo. cbv beta in Hxo. fold e in Hxo.
      split; [now apply wiscombe_mono|]. split; [|contradiction].
      apply Rround_shift. apply wiscombe_ge. lra.
  Qed.

  Lemma auto_monotone (c c' : @call R) o o' r eps K P L ef vf r' eps' K' P' ef' vf' :
    mie c = Ok o -> mie c' = Ok o' -> lower (a_backend c) = lower (a_backend c') -> a_n_max c = None -> a_n_max c' = None ->
    inputs_of c = Ok (r, eps) -> valid (a_k0 c) r eps (a_env c) K P L ef vf ->
    inputs_of c' = Ok (r', eps') -> valid (a_k0 c') r' eps' (a_env c') K' P' L ef' vf' ->
    0 < P -> 0 < L -> 0 < K ->
    (forall p k, p < P -> k < K -> exists p' k', p' < P' /\ k' < K' /\
       element (a_k0 c) r eps (a_env c) ef vf L p k = element (a_k0 c') r' eps' (a_env c') ef' vf' L p' k') ->
    (o_n_max o <= o_n_max o')%Z.
  Proof.
    intros Ho Ho' Hbk Hn Hn' Hi Hv Hi' Hv' HP HL HK Hsub.
    destruct (Hsub 0 0 HP HK) as (p0 & k0 & Hp0 & Hk0 & _).
    assert (HP' : 0 < P') by lia. assert (HK' : 0 < K') by lia.
    destruct (broadcast_accepts _ _ _ _ _ _ _ _ _ Hv) as (b & Hb & Hd).
    destruct (broadcast_accepts _ _ _ _ _ _ _ _ _ Hv') as (b' & Hb' & Hd').
    pose proof (mie_n_max c o r eps b Ho Hi Hb) as Hm. rewrite Hn in Hm.
    pose proof (mie_n_max c' o' r' eps' b' Ho' Hi' Hb') as Hm'. rewrite Hn' in Hm'.
    assert (Pos : forall v P K f, max_over2 v P K (fun p k => outer_size (f p k)) -> (0 <= v)%R).
    { intros v P0 K0 f [_ (p & k & _ & _ & <-)]. apply Cmod_ge_0. }
    destruct (String.eqb_spec (lower (a_backend c)) "pena") as [Ep|Ep].
    - assert (Ep' : lower (a_backend c') = "pena"%string) by congruence.
      destruct (auto_pena c r eps K P L ef vf b Hd HP HL HK Ep) as (xo & m1 & m2 & X1 & X2 & X3 & E).
      destruct (auto_pena c' r' eps' K' P' L ef' vf' b' Hd' HP' HL HK' Ep') as (xo' & m1' & m2' & Y1 & Y2 & Y3 & E').
      rewrite Hm in E. injection E as ->. rewrite Hm' in E'. injection E' as ->.
      apply Rround_mono.
      assert (Hx : (xo <= xo')%R).
      { apply (max_over2_le _ _ _ _ _ _ _ _ X1 Y1). intros p k Hp Hk. destruct (Hsub p k Hp Hk) as (p' & k' & Hp' & Hk' & He).
        exists p', k'. rewrite He. repeat split; auto. lra. }
      assert (Hm1 : (m1 <= m1')%R).
      { apply (max_over3_le _ _ _ _ _ _ _ _ _ _ X2 Y2). intros p l k Hp Hl Hk. destruct (Hsub p k Hp Hk) as (p' & k' & Hp' & Hk' & He).
        exists p', l, k'. rewrite He. repeat split; auto. lra. }
      assert (Hm2 : (m2 <= m2')%R).
      { apply (max_over3_le _ _ _ _ _ _ _ _ _ _ X3 Y3). intros p l k Hp Hl Hk. destruct (Hsub p k Hp Hk) as (p' & k' & Hp' & Hk' & He).
        exists p', l, k'. rewrite He. repeat split; auto. lra. }
      assert (Hc : (IZR (count xo) <= IZR (count xo'))%R) by (apply IZR_le, wiscombe_mono; split; [eapply Pos; exact X1|exact Hx]).
      assert (Rmax (IZR (count xo)) (Rmax m1 m2) <= Rmax (IZR (count xo')) (Rmax m1' m2'))%R; [|lra].
      apply Rmax_lub; [eapply Rle_trans; [exact Hc|apply Rmax_l]|].
      eapply Rle_trans; [|apply Rmax_r]. apply Rmax_lub; [eapply Rle_trans; [exact Hm1|apply Rmax_l]|eapply Rle_trans; [exact Hm2|apply Rmax_r]].
    - assert (Ep' : lower (a_backend c') <> "pena"%string) by congruence.
      destruct (auto_wiscombe c r eps K P L ef vf b Hd HP HL HK Ep) as (xo & X1 & E).
      destruct (auto_wiscombe c' r' eps' K' P' L ef' vf' b' Hd' HP' HL HK' Ep') as (xo' & Y1 & E').
      rewrite Hm in E. injection E as ->. rewrite Hm' in E'. injection E' as ->.
      apply wiscombe_mono. split; [eapply Pos; exact X1|].
      apply (max_over2_le _ _ _ _ _ _ _ _ X1 Y1). intros p k Hp Hk. destruct (Hsub p k Hp Hk) as (p' & k' & Hp' & Hk' & He).
      exists p', k'. rewrite He. repeat split; auto. lra.
  Qed.

  (* pena calls with automatic truncation do return *)
  Lemma max2_unique v w P K f : max_over2 v P K f -> max_over2 w P K f -> v = w.
  Proof.
    intros H1 H2. apply Rle_antisym; [eapply max_over2_le; [exact H1|exact H2|]|eapply max_over2_le; [exact H2|exact H1|]];
      intros p k Hp Hk; exists p, k; repeat split; auto; lra.
  Qed.
  Lemma max3_unique v w P L K f : max_over3 v P L K f -> max_over3 w P L K f -> v = w.
  Proof.
    intros H1 H2. apply Rle_antisym; [eapply max_over3_le; [exact H1|exact H2|]|eapply max_over3_le; [exact H2|exact H1|]];
      intros p l k Hp Hl Hk; exists p, l, k; repeat split; auto; lra.
  Qed.
  Lemma auto_pena_returns (c : @call R) r eps K P L ef vf :
    backend_is c "pena" -> a_internal c = false -> a_n_max c = None -> inputs_of c = Ok (r, eps) ->
    valid (a_k0 c) r eps (a_env c) K P L ef vf -> 0 < P -> 0 < L -> 0 < K ->
    exists o, mie c = Ok o.
  Proof.
    intros Hb Hint Hn Hi Hv HP HL HK.
    destruct (broadcast_accepts _ _ _ _ _ _ _ _ _ Hv) as (b & Hbb & Hd).
    destruct (auto_pena c r eps K P L ef vf b Hd HP HL HK Hb) as (xo & m1 & m2 & X1 & X2 & X3 & E).
    assert (H0 : (0 <= xo)%R). { destruct X1 as [_ (p & k & _ & _ & <-)]. apply Cmod_ge_0. }
    assert (H1 : (1 <= count xo)%Z) by (apply Rround_shift; apply wiscombe_ge; exact H0).
    assert (Hbig : (count xo + 15 <= Rround (Rmax (IZR (count xo)) (Rmax m1 m2) + 15))%Z).
    { apply Rround_shift. rewrite plus_IZR. pose proof (Rmax_l (IZR (count xo)) (Rmax m1 m2)). lra. }
    destruct (pena_tail sj sy jr c r eps K P L ef vf (Rround (Rmax (IZR (count xo)) (Rmax m1 m2) + 15)) Hb Hint Hi Hv HL ltac:(lia)) as (o & -> & _).
    2:{ eauto. }
    right. split; [exact Hn|]. intros b' Hd'.
    destruct (auto_pena c r eps K P L ef vf b' Hd' HP HL HK Hb) as (xo' & m1' & m2' & Y1 & Y2 & Y3 & E').
    rewrite (max2_unique _ _ _ _ _ X1 Y1), (max3_unique _ _ _ _ _ _ X2 Y2), (max3_unique _ _ _ _ _ _ X3 Y3). rewrite <- E'.
    unfold auto_n. unfold backend_is in Hb. rewrite Hb. reflexivity.
  Qed.
End M.
