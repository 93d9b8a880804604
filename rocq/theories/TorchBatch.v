(** The torch backend on batches: every element is the scalar core-shell
    algorithm, with recurrence depths taken from the maxima over the batch. *)
From Coq Require Import Reals ZArith List Bool String Arith Lia Lra.
From Coquelicot Require Import Coquelicot.
From Verif Require Import Ops ROps Tensor TensorProofs ModelSpecial ModelMie ModelBatch BroadcastSpec BroadcastProofs BatchReal TruncProofs TruncReal.
Import ListNotations.
Open Scope nat_scope.
Open Scope list_scope.

Notation elem := (R * C * list (R * C))%type.
Definition e_k (e : elem) : cplx R := cmul (cofr (fst (fst e))) (@csqrt R ROps (snd (fst e))).
Definition e_first (e : elem) : R * C := hd (0%R, RtoC 0) (snd e).
Definition e_last (e : elem) : R * C := last (snd e) (0%R, RtoC 0).
Definition e_x (e : elem) : cplx R := cmul (e_k e) (cofr (fst (e_first e))).
Definition e_y (e : elem) : cplx R := cmul (e_k e) (cofr (fst (e_last e))).
Definition e_m1 (e : elem) : cplx R := cdiv (@csqrt R ROps (snd (e_first e))) (csqrt (snd (fst e))).
Definition e_m2 (e : elem) : cplx R := cdiv (@csqrt R ROps (snd (e_last e))) (csqrt (snd (fst e))).
(** the four Bessel arguments whose recurrences have their own depth *)
Definition arg_y (e : elem) : cplx R := e_y e.
Definition arg_m1x (e : elem) : cplx R := cmul (e_m1 e) (e_x e).
Definition arg_m2x (e : elem) : cplx R := cmul (e_m2 e) (e_x e).
Definition arg_m2y (e : elem) : cplx R := cmul (e_m2 e) (e_y e).
Definition torch_coeffs (n_max dy d1 d2 d3 : nat) (e : elem) (n : nat) : @coeffs R :=
  miecoef_core (radial_of7 (e_x e) (e_y e) (e_m1 e) (e_m2 e)
    (sph_jn_via_rec n_max dy (arg_y e)) (sph_jn_via_rec n_max d1 (arg_m1x e)) (sph_jn_via_rec n_max d2 (arg_m2x e)) (sph_jn_via_rec n_max d3 (arg_m2y e))
    (sph_yn (arg_y e)) (sph_yn (arg_m2x e)) (sph_yn (arg_m2y e)) n).

Lemma jn_rec_ok n z P K f : is2 z P K f -> 0 < P -> 0 < K ->
  exists v, max_over2 v P K (fun p k => @cabs R ROps (f p k)) /\
    @jn_rec_t R ROps n z = Ok (orders_t n (fun z => sph_jn_via_rec n (n_add_auto v) z) z).
Proof.
  intros I HP HK. destruct (tmax_is2 _ _ _ _ (is2_tmap (@cabs R ROps) _ _ _ _ I) HP HK) as (v & Hv & Hm).
  exists v. split; [exact Hm|]. unfold jn_rec_t. rewrite Hv. cbn [bind]. unfold atleast_1d. now rewrite (proj1 I).
Qed.

Section M.
  Variables (sj sy jr : @bessel_t R).
  Notation mie := (mie_coefficients sj sy jr).

  Lemma torch_tail_full (c : @call R) r eps K P L ef vf n :
    backend_is c "torch" -> lower (a_which_jn c) = "recurrence"%string -> inputs_of c = Ok (r, eps) ->
    valid (a_k0 c) r eps (a_env c) K P L ef vf -> 1 <= L <= 2 -> 0 < P -> 0 < K -> (1 <= n)%Z -> a_n_max c = Some n ->
    let el p k := element (a_k0 c) r eps (a_env c) ef vf L p k in
    exists o zy z1 z2 z3, mie c = Ok o /\ o_n_max o = n /\
      max_over2 zy P K (fun p k => @cabs R ROps (arg_y (el p k))) /\ max_over2 z1 P K (fun p k => @cabs R ROps (arg_m1x (el p k))) /\
      max_over2 z2 P K (fun p k => @cabs R ROps (arg_m2x (el p k))) /\ max_over2 z3 P K (fun p k => @cabs R ROps (arg_m2y (el p k))) /\
      let co i p k := torch_coeffs (Z.to_nat n) (n_add_auto zy) (n_add_auto z1) (n_add_auto z2) (n_add_auto z3) (el p k) (S i) in
      is3 (o_a o) (Z.to_nat n) P K (fun i p k => an (co i p k)) /\ is3 (o_b o) (Z.to_nat n) P K (fun i p k => bn (co i p k)) /\
      (a_internal c = true -> exists ct, o_internal o = Some ct /\ is3 ct (Z.to_nat n) P K co).
  Proof.
    intros Hb Hw Hi Hv HL HP HK Hn Hnm el. unfold mie_coefficients.
    assert (Hk : known (lower (a_backend c))) by (unfold known; auto).
    rewrite (proj2 (existsb_known _) Hk). cbn [negb].
    unfold inputs_of in Hi. rewrite Hi. cbn [bind fst snd].
    destruct (broadcast_accepts _ _ _ _ _ _ _ _ _ Hv) as (b & -> & Hd). cbn [bind].
    destruct Hd as (Ik0 & Ir & Ie & Iv & In).
    unfold dim_size. rewrite (proj1 Ir), (proj1 Ik0). cbn [nth].
    destruct (Nat.ltb_spec 0 L) as [_|]; [|lia]. cbn [guard_err bind].
    assert (HL0 : 0 < L) by lia. assert (HL1 : L - 1 < L) by lia.
    destruct (is2_broadcast_col _ P K _ (is2_unl _ _ _ (is1_select _ _ _ _ 0 HL0 Ir))) as (rc & -> & Jrc). cbn [bind].
    assert (HrS : exists rs, (if 1 <? L then broadcast_to [P; K] (unsqueeze_last (select 1 (L - 1) (c_r b))) else Ok rc) = Ok rs /\
                    is2 rs P K (fun p _ => at_ r (r_ix (shp r) p (L - 1)))).
    { destruct (Nat.ltb_spec 1 L) as [E|E].
      - destruct (is2_broadcast_col _ P K _ (is2_unl _ _ _ (is1_select _ _ _ _ (L - 1) HL1 Ir))) as (rs & -> & J). eauto.
      - assert (L = 1) as -> by lia. exists rc. split; [reflexivity|exact Jrc]. }
    destruct HrS as (rs & -> & Jrs). cbn [bind].
    assert (Jec : is2 (select 1 0 (c_eps b)) P K (fun p k => at_ eps (ef p 0 k))) by exact (is2_select _ _ _ _ _ 0 HL0 Ie).
    assert (Jes : is2 (if 1 <? L then select 1 (L - 1) (c_eps b) else select 1 0 (c_eps b)) P K (fun p k => at_ eps (ef p (L - 1) k))).
    { destruct (Nat.ltb_spec 1 L) as [E|E]; [exact (is2_select _ _ _ _ _ (L - 1) HL1 Ie)|]. assert (L = 1) as -> by lia. exact Jec. }
    rewrite Hnm. cbn [bind]. destruct (Z.ltb_spec n 0) as [Hbad|_]; [lia|].
    rewrite Hb. cbn [String.eqb Ascii.eqb Bool.eqb].
    destruct (tbin_22 cmul _ _ _ _ _ _ (is2_tmap (@cofr R ROps) _ _ _ _ Ik0) In) as (kk & -> & Jk). cbn [bind].
    destruct (Nat.ltb_spec 2 L) as [?|_]; [lia|].
    destruct (tbin_12 cmul _ _ _ _ _ _ Jk (is2_tmap (@cofr R ROps) _ _ _ _ Jrc)) as (x & -> & Jx). cbn [bind].
    destruct (tbin_12 cmul _ _ _ _ _ _ Jk (is2_tmap (@cofr R ROps) _ _ _ _ Jrs)) as (y & -> & Jy). cbn [bind].
    destruct (tbin_21 cdiv _ _ _ _ _ _ (is2_tmap (@csqrt R ROps) _ _ _ _ Jec) In) as (mc & -> & Jmc). cbn [bind].
    destruct (tbin_21 cdiv _ _ _ _ _ _ (is2_tmap (@csqrt R ROps) _ _ _ _ Jes) In) as (ms & -> & Jms). cbn [bind].
    rewrite Hw. cbn [String.eqb Ascii.eqb Bool.eqb].
    assert (Hf : forall p k, e_first (el p k) = (at_ r (r_ix (shp r) p 0), at_ eps (ef p 0 k))).
    { intros p k. unfold e_first, el, element. cbn [snd]. destruct L as [|L']; [lia|]. reflexivity. }
    assert (Hl : forall p k, e_last (el p k) = (at_ r (r_ix (shp r) p (L - 1)), at_ eps (ef p (L - 1) k))).
    { intros p k. unfold e_last, el, element. cbn [snd]. destruct L as [|L']; [lia|]. rewrite seq_S, map_app. cbn [map plus]. rewrite last_last.
      replace (S L' - 1) with L' by lia. reflexivity. }
    assert (Kx : is2 x P K (fun p k => e_x (el p k))).
    { eapply is2_ext; [|exact Jx]. intros p k _ _. unfold e_x, e_k. rewrite Hf. reflexivity. }
    assert (Ky : is2 y P K (fun p k => e_y (el p k))).
    { eapply is2_ext; [|exact Jy]. intros p k _ _. unfold e_y, e_k. rewrite Hl. reflexivity. }
    assert (Kc : is2 mc P K (fun p k => e_m1 (el p k))).
    { eapply is2_ext; [|exact Jmc]. intros p k _ _. unfold e_m1. rewrite Hf. reflexivity. }
    assert (Ks : is2 ms P K (fun p k => e_m2 (el p k))).
    { eapply is2_ext; [|exact Jms]. intros p k _ _. unfold e_m2. rewrite Hl. reflexivity. }
    clear Jx Jy Jmc Jms.
    unfold miecoef_t. destruct (Z.ltb_spec n 0) as [Hbad|_]; [lia|].
    destruct (tbin_22 cmul _ _ _ _ _ _ Kc Kx) as (m1x & -> & K1). cbn [bind].
    destruct (tbin_22 cmul _ _ _ _ _ _ Ks Kx) as (m2x & -> & K2). cbn [bind].
    destruct (tbin_22 cmul _ _ _ _ _ _ Ks Ky) as (m2y & -> & K3). cbn [bind].
    destruct (jn_rec_ok (Z.to_nat n) _ _ _ _ Ky HP HK) as (zy & My & ->). cbn [bind].
    destruct (jn_rec_ok (Z.to_nat n) _ _ _ _ K1 HP HK) as (z1 & M1 & ->).
    destruct (jn_rec_ok (Z.to_nat n) _ _ _ _ K2 HP HK) as (z2 & M2 & ->).
    destruct (jn_rec_ok (Z.to_nat n) _ _ _ _ K3 HP HK) as (z3 & M3 & ->).
    assert (Ayn : forall z f, is2 z P K f -> @yn_t R ROps (Z.to_nat n) z = Ok (orders_t (Z.to_nat n) sph_yn z)).
    { intros z f I. unfold yn_t, atleast_1d. now rewrite (proj1 I). }
    rewrite (Ayn _ _ Ky), (Ayn _ _ K2), (Ayn _ _ K3). cbn [bind].
    destruct (Nat.ltb_spec 0 (Z.to_nat n)) as [_|]; [|lia]. cbn [guard_err bind].
    eexists _, zy, z1, z2, z3. split; [reflexivity|]. cbn [o_n_max o_a o_b]. split; [reflexivity|].
    split; [exact My|]. split; [exact M1|]. split; [exact M2|]. split; [exact M3|]. cbv zeta.
    assert (E : forall i p k, p < P -> k < K ->
      (@radial_of7 R ROps (at_ x [p; k]) (at_ y [p; k]) (at_ mc [p; k]) (at_ ms [p; k])
        (fun n0 => sph_jn_via_rec (Z.to_nat n) (n_add_auto zy) (at_ y [p; k]) n0)
        (fun n0 => sph_jn_via_rec (Z.to_nat n) (n_add_auto z1) (at_ m1x [p; k]) n0)
        (fun n0 => sph_jn_via_rec (Z.to_nat n) (n_add_auto z2) (at_ m2x [p; k]) n0)
        (fun n0 => sph_jn_via_rec (Z.to_nat n) (n_add_auto z3) (at_ m2y [p; k]) n0)
        (fun n0 => sph_yn (at_ y [p; k]) n0) (fun n0 => sph_yn (at_ m2x [p; k]) n0) (fun n0 => sph_yn (at_ m2y [p; k]) n0) (S i)) =
      radial_of7 (e_x (el p k)) (e_y (el p k)) (e_m1 (el p k)) (e_m2 (el p k))
        (sph_jn_via_rec (Z.to_nat n) (n_add_auto zy) (arg_y (el p k))) (sph_jn_via_rec (Z.to_nat n) (n_add_auto z1) (arg_m1x (el p k)))
        (sph_jn_via_rec (Z.to_nat n) (n_add_auto z2) (arg_m2x (el p k))) (sph_jn_via_rec (Z.to_nat n) (n_add_auto z3) (arg_m2y (el p k)))
        (sph_yn (arg_y (el p k))) (sph_yn (arg_m2x (el p k))) (sph_yn (arg_m2y (el p k))) (S i)).
    { intros i p k Hp Hk'. rewrite (proj2 Kx), (proj2 Ky), (proj2 Kc), (proj2 Ks), (proj2 K1), (proj2 K2), (proj2 K3) by assumption. reflexivity. }
    split; [|split]; [| |intros Hin; rewrite Hin; cbn [o_internal]; eexists; split; [reflexivity|]];
      (split; [cbn [tmap shp]; now rewrite (proj1 Ky)|]); intros i p k Hi' Hp Hk'; cbn [tmap at_ tl hd]; unfold orders_t; cbn [at_ tl hd];
      rewrite E by assumption; reflexivity.
  Qed.
  Lemma torch_tail (c : @call R) r eps K P L ef vf n :
    backend_is c "torch" -> lower (a_which_jn c) = "recurrence"%string -> inputs_of c = Ok (r, eps) ->
    valid (a_k0 c) r eps (a_env c) K P L ef vf -> 1 <= L <= 2 -> 0 < P -> 0 < K -> (1 <= n)%Z -> a_n_max c = Some n ->
    let el p k := element (a_k0 c) r eps (a_env c) ef vf L p k in
    exists o zy z1 z2 z3, mie c = Ok o /\ o_n_max o = n /\
      max_over2 zy P K (fun p k => @cabs R ROps (arg_y (el p k))) /\ max_over2 z1 P K (fun p k => @cabs R ROps (arg_m1x (el p k))) /\
      max_over2 z2 P K (fun p k => @cabs R ROps (arg_m2x (el p k))) /\ max_over2 z3 P K (fun p k => @cabs R ROps (arg_m2y (el p k))) /\
      let co i p k := torch_coeffs (Z.to_nat n) (n_add_auto zy) (n_add_auto z1) (n_add_auto z2) (n_add_auto z3) (el p k) (S i) in
      is3 (o_a o) (Z.to_nat n) P K (fun i p k => an (co i p k)) /\ is3 (o_b o) (Z.to_nat n) P K (fun i p k => bn (co i p k)).
  Proof.
    intros Hb Hw Hi Hv HL HP HK Hn Hnm el.
    destruct (torch_tail_full c r eps K P L ef vf n Hb Hw Hi Hv HL HP HK Hn Hnm) as (o & zy & z1 & z2 & z3 & H1 & H2 & H3 & H4 & H5 & H6 & H7 & H8 & _).
    exists o, zy, z1, z2, z3. exact (conj H1 (conj H2 (conj H3 (conj H4 (conj H5 (conj H6 (conj H7 H8))))))).
  Qed.
End M.

Lemma Rtrunc_lt (x : R) (n : Z) : (0 <= x < IZR n)%R -> (0 <= Rtrunc x < n)%Z.
Proof.
  intros [H0 H1]. unfold Rtrunc. destruct (Rle_dec 0 x) as [_|]; [|contradiction].
  destruct (base_Int_part x) as [A B]. split.
  - assert (-1 < Int_part x)%Z; [apply lt_IZR; lra|lia].
  - apply lt_IZR. lra.
Qed.
Lemma n_add_small (v : R) : (0 <= v < 22 / 3)%R -> @n_add_auto R ROps v = 10.
Proof.
  intros H. unfold n_add_auto. cbn [rtrunc rmul rdiv rofZ ROps].
  pose proof (Rtrunc_lt (3 / 2 * v) 11 ltac:(lra)) as Ht. rewrite Z.max_l by lia. reflexivity.
Qed.
(** equal elements get equal coefficients when the batches have the same depths *)
Lemma torch_batch_same_depth sj sy jr (c c' : @call R) r eps K P L ef vf r' eps' K' P' L' ef' vf' n :
  backend_is c "torch" -> lower (a_which_jn c) = "recurrence"%string -> backend_is c' "torch" -> lower (a_which_jn c') = "recurrence"%string ->
  a_n_max c = Some n -> a_n_max c' = Some n -> (1 <= n)%Z ->
  inputs_of c = Ok (r, eps) -> valid (a_k0 c) r eps (a_env c) K P L ef vf -> 1 <= L <= 2 -> 0 < P -> 0 < K ->
  inputs_of c' = Ok (r', eps') -> valid (a_k0 c') r' eps' (a_env c') K' P' L' ef' vf' -> 1 <= L' <= 2 -> 0 < P' -> 0 < K' ->
  let el p k := element (a_k0 c) r eps (a_env c) ef vf L p k in
  let el' p k := element (a_k0 c') r' eps' (a_env c') ef' vf' L' p k in
  (* all four arguments stay below 22/3 everywhere in both batches: depth 10 *)
  (forall p k, p < P -> k < K -> forall f, In f [arg_y; arg_m1x; arg_m2x; arg_m2y] -> (Cmod (f (el p k)) < 22 / 3)%R) ->
  (forall p k, p < P' -> k < K' -> forall f, In f [arg_y; arg_m1x; arg_m2x; arg_m2y] -> (Cmod (f (el' p k)) < 22 / 3)%R) ->
  exists o o', mie_coefficients sj sy jr c = Ok o /\ mie_coefficients sj sy jr c' = Ok o' /\
    forall p k p' k', p < P -> k < K -> p' < P' -> k' < K' -> el p k = el' p' k' ->
      forall i, i < Z.to_nat n ->
        at_ (o_a o) [i; p; k] = at_ (o_a o') [i; p'; k'] /\ at_ (o_b o) [i; p; k] = at_ (o_b o') [i; p'; k'].
Proof.
  intros Hb Hw Hb' Hw' Hn Hn' Hn1 Hi Hv HL HP HK Hi' Hv' HL' HP' HK' el el' Hs Hs'.
  destruct (torch_tail sj sy jr c _ _ _ _ _ _ _ n Hb Hw Hi Hv HL HP HK Hn1 Hn) as (o & zy & z1 & z2 & z3 & -> & _ & My & M1 & M2 & M3 & Ia & Ib).
  destruct (torch_tail sj sy jr c' _ _ _ _ _ _ _ n Hb' Hw' Hi' Hv' HL' HP' HK' Hn1 Hn') as (o' & zy' & z1' & z2' & z3' & -> & _ & My' & M1' & M2' & M3' & Ia' & Ib').
  cbv zeta in *. fold el in My, M1, M2, M3, Ia, Ib. fold el' in My', M1', M2', M3', Ia', Ib'.
  assert (G : forall v P0 K0 (f : nat -> nat -> R), max_over2 v P0 K0 f -> (forall p k, p < P0 -> k < K0 -> (0 <= f p k < 22/3)%R) -> @n_add_auto R ROps v = 10).
  { intros v P0 K0 f [_ (p & k & Hp & Hk & <-)] H. apply n_add_small. auto. }
  assert (B : forall f p k, In f [arg_y; arg_m1x; arg_m2x; arg_m2y] -> p < P -> k < K -> (0 <= @cabs R ROps (f (el p k)) < 22 / 3)%R)
    by (intros f p k Hf Hp Hk; split; [apply Cmod_ge_0|now apply Hs]).
  assert (B' : forall f p k, In f [arg_y; arg_m1x; arg_m2x; arg_m2y] -> p < P' -> k < K' -> (0 <= @cabs R ROps (f (el' p k)) < 22 / 3)%R)
    by (intros f p k Hf Hp Hk; split; [apply Cmod_ge_0|now apply Hs']).
  rewrite (G _ _ _ _ My) in Ia, Ib by (intros; apply B; [cbn; tauto|assumption..]).
  rewrite (G _ _ _ _ M1) in Ia, Ib by (intros; apply B; [cbn; tauto|assumption..]).
  rewrite (G _ _ _ _ M2) in Ia, Ib by (intros; apply B; [cbn; tauto|assumption..]).
  rewrite (G _ _ _ _ M3) in Ia, Ib by (intros; apply B; [cbn; tauto|assumption..]).
  rewrite (G _ _ _ _ My') in Ia', Ib' by (intros; apply B'; [cbn; tauto|assumption..]).
  rewrite (G _ _ _ _ M1') in Ia', Ib' by (intros; apply B'; [cbn; tauto|assumption..]).
  rewrite (G _ _ _ _ M2') in Ia', Ib' by (intros; apply B'; [cbn; tauto|assumption..]).
  rewrite (G _ _ _ _ M3') in Ia', Ib' by (intros; apply B'; [cbn; tauto|assumption..]).
  exists o, o'. split; [reflexivity|]. split; [reflexivity|]. intros p k p' k' Hp Hk Hp' Hk' He i Hlt.
  rewrite (proj2 Ia), (proj2 Ia'), (proj2 Ib), (proj2 Ib') by assumption. unfold el, el' in *. cbv beta in *. rewrite He. split; reflexivity.
Qed.
