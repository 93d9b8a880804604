(** Near fields of whole calls: mie_coefficients(return_internal=True) followed
    by the field evaluation. *)
From Coq Require Import Reals ZArith List Bool String Arith Lia Lra.
From Coquelicot Require Import Coquelicot.
From Verif Require Import Ops ROps Tensor TensorProofs TensorView ModelSpecial ModelMie CLemmas ModelBatch BroadcastSpec BroadcastProofs BatchReal TruncProofs TorchBatch ModelJn JnProofs ModelNear ModelNearLegacy StackConsequences CTrig ExampleBatch NearLegacySpec NearLegacyProofs NearLegacyEval.
Import ListNotations.
Open Scope nat_scope.
Open Scope list_scope.

Lemma ok_inv {A} (x y : A) : Ok x = Ok y -> x = y.
Proof. intros H. now inversion H. Qed.
Section M.
  Variables (sj sy jr : @bessel_t R).
  Notation mie := (mie_coefficients sj sy jr).
  Definition el c r eps ef vf L p k : R * C * list (R * C) := element (a_k0 c) r eps (a_env c) ef vf L p k.

  (* everything nearfields reads from a result of mie_coefficients *)
  Lemma mie_record (c : @call R) o r eps K P L ef vf : mie c = Ok o -> a_internal c = true -> inputs_of c = Ok (r, eps) ->
    valid (a_k0 c) r eps (a_env c) K P L ef vf ->
    exists co, o_internal o = Some co /\ shp co = [Z.to_nat (o_n_max o); P; K] /\ (1 <= o_n_max o)%Z /\ 1 <= L /\
      is2 (c_k0 (o_cfg o)) 1 K (fun _ k => nth k (entries (a_k0 c)) 0%R) /\ is2 (c_n_env (o_cfg o)) 1 K (fun _ k => csqrt (at_ (a_env c) (vf k))) /\
      is2 (o_k o) 1 K (fun _ k => cmul (cofr (nth k (entries (a_k0 c)) 0%R)) (csqrt (at_ (a_env c) (vf k)))) /\
      is2 (o_r_c o) P K (fun p _ => at_ r (r_ix (shp r) p 0)) /\ is2 (o_r_s o) P K (fun p _ => at_ r (r_ix (shp r) p (L - 1))) /\
      is2 (o_eps_c o) P K (fun p k => at_ eps (ef p 0 k)) /\ is2 (o_eps_s o) P K (fun p k => at_ eps (ef p (L - 1) k)).
  Proof.
    intros Hm Hint Hi Hv. unfold mie_coefficients in Hm.
    destruct (existsb _ _); [|discriminate]. cbn [negb] in Hm. unfold inputs_of in Hi. rewrite Hi in Hm. cbn [bind fst snd] in Hm.
    destruct (broadcast_accepts _ _ _ _ _ _ _ _ _ Hv) as (b & Eb & Hd). rewrite Eb in Hm. cbn [bind] in Hm.
    destruct Hd as (Ik0 & Ir & Ie & Iv & In). cbv zeta in Hm.
    unfold dim_size in Hm. rewrite (proj1 Ir), (proj1 Ik0) in Hm. cbn [nth] in Hm.
    destruct (Nat.ltb_spec 0 L) as [HL0|]; [|discriminate]. cbn [guard_err bind] in Hm.
    assert (HL1 : L - 1 < L) by lia.
    destruct (is2_broadcast_col _ P K _ (is2_unl _ _ _ (is1_select _ _ _ _ 0 HL0 Ir))) as (rc & Erc & Jrc). rewrite Erc in Hm. cbn [bind] in Hm.
    assert (HrS : exists rs, (if 1 <? L then broadcast_to [P; K] (unsqueeze_last (select 1 (L - 1) (c_r b))) else Ok rc) = Ok rs /\
                    is2 rs P K (fun p _ => at_ r (r_ix (shp r) p (L - 1)))).
    { destruct (Nat.ltb_spec 1 L) as [E|E].
      - destruct (is2_broadcast_col _ P K _ (is2_unl _ _ _ (is1_select _ _ _ _ (L - 1) HL1 Ir))) as (rs & -> & J). eauto.
      - assert (L = 1) as -> by lia. exists rc. split; [reflexivity|exact Jrc]. }
    destruct HrS as (rs & Ers & Jrs). rewrite Ers in Hm. cbn [bind] in Hm.
    assert (Jec : is2 (select 1 0 (c_eps b)) P K (fun p k => at_ eps (ef p 0 k))) by exact (is2_select _ _ _ _ _ 0 HL0 Ie).
    assert (Jes : is2 (if 1 <? L then select 1 (L - 1) (c_eps b) else select 1 0 (c_eps b)) P K (fun p k => at_ eps (ef p (L - 1) k))).
    { destruct (Nat.ltb_spec 1 L) as [E|E]; [exact (is2_select _ _ _ _ _ (L - 1) HL1 Ie)|]. assert (L = 1) as -> by lia. exact Jec. }
    apply bind_inv in Hm. destruct Hm as (n & _ & Hm). destruct (n <? 0)%Z; [discriminate|].
    destruct (tbin_22 cmul _ _ _ _ _ _ (is2_tmap (@cofr R ROps) _ _ _ _ Ik0) In) as (kk & Ek & Jk). rewrite Ek in Hm. cbn [bind] in Hm.
    apply bind_inv in Hm. destruct Hm as (((a & bb) & i) & Hab & Hm). apply ok_inv in Hm. subst o.
    cbn [o_internal o_n_max o_cfg o_k o_r_c o_r_s o_eps_c o_eps_s].
    destruct (String.eqb (lower (a_backend c)) "pena") eqn:Hp.
    { exfalso. rewrite Hint in Hab. unfold miecoef_pena_t in Hab. discriminate. }
    destruct (2 <? L); [discriminate|].
    destruct (tbin_12 cmul _ _ _ _ _ _ Jk (is2_tmap (@cofr R ROps) _ _ _ _ Jrc)) as (x & Ex & Jx). rewrite Ex in Hab. cbn [bind] in Hab.
    destruct (tbin_12 cmul _ _ _ _ _ _ Jk (is2_tmap (@cofr R ROps) _ _ _ _ Jrs)) as (y & Ey & Jy). rewrite Ey in Hab. cbn [bind] in Hab.
    apply bind_inv in Hab. destruct Hab as (mc & _ & Hab). apply bind_inv in Hab. destruct Hab as (ms & _ & Hab).
    apply bind_inv in Hab. destruct Hab as (co & Hco & Hab). rewrite Hint in Hab. apply ok_inv in Hab. injection Hab as _ _ <-.
    exists co. split; [reflexivity|].
    unfold miecoef_t in Hco. destruct (n <? 0)%Z; [discriminate|].
    repeat (apply bind_inv in Hco; let q := fresh "q" in let Hq := fresh "Hq" in destruct Hco as (q & Hq & Hco)).
    apply ok_inv in Hco. subst co. cbn [shp]. rewrite (proj1 Jy). split; [reflexivity|].
    assert (Hn1 : 0 < Z.to_nat n). { match goal with H : guard_err (0 <? _) _ = Ok _ |- _ => destruct (Nat.ltb_spec 0 (Z.to_nat n)); [assumption|discriminate] end. }
    split; [lia|]. split; [lia|]. split; [exact Ik0|]. split; [exact In|]. split; [exact Jk|]. split; [exact Jrc|]. split; [exact Jrs|]. split; [exact Jec|exact Jes].
  Qed.

  (** ** no near field for 2, 4, 5, ... wavelengths *)
  Lemma near_call_fails pi e10 E0 probe c r eps K P L ef vf : inputs_of c = Ok (r, eps) -> valid (a_k0 c) r eps (a_env c) K P L ef vf ->
    K <> 1 -> K <> 3 -> forall f, near_call e10 sj sy jr pi E0 probe c <> Ok f.
  Proof.
    intros Hi Hv H1 H3 f Hf. unfold near_call in Hf. apply bind_inv in Hf. destruct Hf as (o & Ho & Hf).
    destruct (mie_record _ _ _ _ _ _ _ _ _ Ho eq_refl Hi Hv) as (co & _ & _ & _ & _ & _ & _ & _ & _ & _ & Jec & _).
    apply legacy_last in Hf. rewrite (proj1 Jec) in Hf. unfold ld in Hf. cbn in Hf. lia.
  Qed.

  (** one particle, one or three wavelengths *)
  Lemma csqrt_Re (z : cplx R) : (0 <= fst (@csqrt R ROps z))%R.
  Proof.
    unfold csqrt. cbn. repeat match goal with |- context [if ?b then _ else _] => destruct b end; cbn; try lra; apply sqrt_pos.
  Qed.
  Lemma rho_big k0 (z : cplx R) r : (0 <= k0)%R -> (0 <= r)%R -> (/ 100000000 <= Cmod (rho_at k0 (csqrt z) r))%R.
  Proof.
    intros Hk Hr. pose proof (csqrt_Re z) as Hs. set (s := csqrt z) in *. clearbody s.
    apply Rle_trans with (fst (rho_at k0 s r)).
    - destruct s as [a b]. cbn [fst] in Hs. unfold rho_at, cmul, cadd, cofr, rtenth. cbn.
      assert (0 <= k0 * a * r)%R by (apply Rmult_le_pos; [apply Rmult_le_pos|]; lra). lra.
    - apply Rle_trans with (Rabs (fst (rho_at k0 s r))); [apply Rle_abs|]. apply (Rle_trans _ _ _ (Rmax_l _ _) (Rmax_Cmod _)).
  Qed.
  Lemma yn_bessel_ok N : bessel_ok N (@yn_t R ROps) (fun _ => @sph_yn R ROps).
  Proof. intros z _. exists 0. eexists. split; [reflexivity|]. split; [reflexivity|]. reflexivity. Qed.
  Lemma jn_bessel_ok pi N : bessel_ok N (@sph_jn_torch R ROps pi (AStr "auto")) (fun e z i => @sph_jn_ratio R ROps N e z i).
  Proof. intros z Hf. destruct (jn_auto_ok pi N z Hf) as (e & v & H1 & H2 & _ & H4). exists e, v. split; [exact H1|]. split; [exact H2|]. intros i ix _. apply H4. Qed.
  Lemma R_pos e10 (probe : tensor R) i : (0 <= R_ e10 probe i)%R.
  Proof. unfold R_, spherical. cbn [at_ hd]. unfold xyz_to_sph, norm3. cbn [fst]. apply sqrt_pos. Qed.

  (** ** one particle *)
  Definition optics_el (e : R * C * list (R * C)) : optics :=
    {| w_k0 := fst (fst e); w_core := csqrt (snd (hd (0%R, RtoC 0) (snd e))); w_shell := csqrt (snd (last (snd e) (0%R, RtoC 0)));
       w_env := csqrt (snd (fst e)); w_rc := fst (hd (0%R, RtoC 0) (snd e)); w_rs := fst (last (snd e) (0%R, RtoC 0)) |}.
  (* the returned dictionary holds the fields E, H (per point and order) *)
  Definition is_near (N Q : nat) (pt : nat -> R * R * R) (E0 : cplx R) (w : optics) (f : @fields R) (E H : nat -> nat -> V3) : Prop :=
    let th i := snd (fst (pt i)) in let ph i := snd (pt i) in let r i := fst (fst (pt i)) in
    shp (f_Es f) = [1; 1; Q; 3] /\ shp (f_Hs f) = [1; 1; Q; 3] /\ shp (f_Et f) = [1; 1; Q; 3] /\ shp (f_Ht f) = [1; 1; Q; 3] /\
    shp (f_Ei f) = [1; 1; Q; 3] /\ shp (f_Hi f) = [1; 1; Q; 3] /\
    forall i c, i < Q -> c < 3 ->
      at_ (f_Es f) [0; 0; i; c] = total (th i) (ph i) (E i) N c /\ at_ (f_Hs f) [0; 0; i; c] = total (th i) (ph i) (H i) N c /\
      ((w_rs w < r i)%R ->
        at_ (f_Et f) [0; 0; i; c] = cadd (total (th i) (ph i) (E i) N c) (comp c (E_inc w (r i) (th i) E0)) /\
        at_ (f_Ht f) [0; 0; i; c] = cadd (total (th i) (ph i) (H i) N c) (comp c (H_inc w (r i) (th i) E0))) /\
      ((r i <= w_rs w)%R -> at_ (f_Et f) [0; 0; i; c] = total (th i) (ph i) (E i) N c /\ at_ (f_Ht f) [0; 0; i; c] = total (th i) (ph i) (H i) N c).
  Lemma total_ext th ph F G N c : (forall n, n < N -> F (S n) = G (S n)) -> total th ph F N c = total th ph G N c.
  Proof. intros H. unfold total. f_equal. apply map_ext_in. intros n Hn. apply in_seq in Hn. now rewrite H by lia. Qed.
  Lemma is_near_ext N Q pt E0 w f E H E' H' : (forall i n, n < N -> E i (S n) = E' i (S n)) -> (forall i n, n < N -> H i (S n) = H' i (S n)) ->
    is_near N Q pt E0 w f E H -> is_near N Q pt E0 w f E' H'.
  Proof.
    intros HE HH (S1 & S2 & S3 & S4 & S5 & S6 & V). unfold is_near. cbv zeta. repeat (split; [assumption|]). intros i c Hi Hc.
    specialize (V i c Hi Hc). cbv zeta in V. rewrite <- (total_ext _ _ (E i) (E' i)) by (intros; now apply HE). rewrite <- (total_ext _ _ (H i) (H' i)) by (intros; now apply HH). exact V.
  Qed.
  Lemma E_sph_co w r th ph E0 co co' jc js jo y n : co n = co' n -> E_sph w r th ph E0 co jc js jo y n = E_sph w r th ph E0 co' jc js jo y n.
  Proof. intros H. unfold E_sph, E_core, E_shell, E_out. now rewrite H. Qed.
  Lemma H_sph_co w r th ph E0 co co' jc js jo y n : co n = co' n -> H_sph w r th ph E0 co jc js jo y n = H_sph w r th ph E0 co' jc js jo y n.
  Proof. intros H. unfold H_sph, H_core, H_shell, H_out. now rewrite H. Qed.

  Lemma max1 v f : max_over2 v 1 1 f -> v = f 0 0.
  Proof. intros (_ & p & k & Hp & Hk & E). assert (p = 0) as -> by lia. assert (k = 0) as -> by lia. now symmetry. Qed.
  Section One.
    Variables (pi : string -> result Z) (e10 : R) (E0 : cplx R) (probe : tensor R) (Q : nat).
    Variables (c : @call R) (r : tensor R) (eps : tensor C) (K L : nat) (ef : nat -> nat -> nat -> list nat) (vf : nat -> list nat) (n : Z).
    Hypotheses (Hb : backend_is c "torch") (Hw : lower (a_which_jn c) = "recurrence"%string) (Hn : a_n_max c = Some n) (Hn1 : (1 <= n)%Z).
    Hypotheses (Hi : inputs_of c = Ok (r, eps)) (Hv : valid (a_k0 c) r eps (a_env c) K 1 L ef vf) (HL : 1 <= L <= 2).
    Hypotheses (Hk0 : forall k, k < K -> (0 <= nth k (entries (a_k0 c)) 0)%R) (Hp : shp probe = [Q; 3]).
    Let e k := element (a_k0 c) r eps (a_env c) ef vf L 0 k.
    Let pt i := at_ (spherical e10 probe) [i].
    Lemma near_call_ok : K = 1 \/ K = 3 -> exists f dc ds do_, near_call e10 sj sy jr pi E0 probe c = Ok f /\
      (forall k i, k < K -> i < Q -> at_ (f_Hi f) [0; k; i; 1] = cmul (cmul E0 (csqrt (snd (fst (e 0))))) (phase (optics_el (e k)) (fst (fst (pt i))) (snd (fst (pt i))))) /\
      (K = 1 ->
        let N := Z.to_nat n in let co := torch_coeffs N (n_add_auto (Cmod (arg_y (e 0)))) (n_add_auto (Cmod (arg_m1x (e 0)))) (n_add_auto (Cmod (arg_m2x (e 0)))) (n_add_auto (Cmod (arg_m2y (e 0)))) (e 0) in
        is_near N Q pt E0 (optics_el (e 0)) f
          (fun i m => E_sph (optics_el (e 0)) (fst (fst (pt i))) (snd (fst (pt i))) (snd (pt i)) E0 co (sph_jn_ratio N dc) (sph_jn_ratio N ds) (sph_jn_ratio N do_) sph_yn m)
          (fun i m => H_sph (optics_el (e 0)) (fst (fst (pt i))) (snd (fst (pt i))) (snd (pt i)) E0 co (sph_jn_ratio N dc) (sph_jn_ratio N ds) (sph_jn_ratio N do_) sph_yn m)).
    Proof.
      intros HK. assert (HK0 : 0 < K) by lia.
      destruct (torch_tail_full sj sy jr (with_internal c) r eps K 1 L ef vf n Hb Hw Hi Hv HL ltac:(lia) HK0 Hn1 Hn) as (o & zy & z1 & z2 & z3 & Ho & Hon & My & M1 & M2 & M3 & _ & _ & Hct).
      destruct (Hct eq_refl) as (ct & Hint & Ict). clear Hct.
      destruct (mie_record _ _ _ _ _ _ _ _ _ Ho eq_refl Hi Hv) as (co & Hint' & Sco & _ & _ & Jk0 & Jne & Jk & Jrc & Jrs & Jec & Jes).
      assert (co = ct) as -> by congruence. clear Hint'. rewrite Hon in Sco.
      cbn [with_internal a_k0 a_env] in *.
      assert (Ef : forall k, hd (0%R, RtoC 0) (snd (e k)) = (at_ r (r_ix (shp r) 0 0), at_ eps (ef 0 0 k))).
      { intros k. unfold e, element. cbn [snd]. destruct L as [|L']; [lia|]. reflexivity. }
      assert (El : forall k, last (snd (e k)) (0%R, RtoC 0) = (at_ r (r_ix (shp r) 0 (L - 1)), at_ eps (ef 0 (L - 1) k))).
      { intros k. unfold e, element. cbn [snd]. destruct L as [|L']; [lia|]. rewrite seq_S, map_app. cbn [map plus]. rewrite last_last.
        replace (S L' - 1) with L' by lia. reflexivity. }
      assert (Ew : forall k, k < K -> optics_of o k = optics_el (e k)).
      { intros k Hk. unfold optics_of, optics_el, k0_, nc_, ns_, ne_, rc_, rs_. rewrite Ef, El.
        rewrite (proj2 Jk0), (proj2 Jne), (proj2 Jrc), (proj2 Jrs), (proj2 Jec), (proj2 Jes) by lia. reflexivity. }
      assert (HN : 1 <= Z.to_nat n) by lia.
      destruct (legacy_eval (Z.to_nat n) K Q (sph_jn_torch pi (AStr "auto")) yn_t _ _ HN HK (jn_bessel_ok pi _) (yn_bessel_ok _) e10 E0 probe o ct Hint) as (f & Ef1 & Vh & V1); auto.
      - rewrite Hon. lia.
      - exact (proj1 Jk).
      - exact (proj1 Jk0).
      - exact (proj1 Jne).
      - exact (proj1 Jrc).
      - exact (proj1 Jrs).
      - exact (proj1 Jec).
      - exact (proj1 Jes).
      - intros k Hk. unfold k0_, ne_. rewrite (proj2 Jk), (proj2 Jk0), (proj2 Jne) by lia. reflexivity.
      - intros k k' i Hk Hk' Hq. assert (Hk0' : (0 <= k0_ o k)%R) by (unfold k0_; rewrite (proj2 Jk0) by lia; now apply Hk0).
        pose proof (R_pos e10 probe i) as HR. split; [|split]; [now apply rho_big|now apply rho_big|].
        unfold ne_. rewrite (proj2 Jne) by lia. now apply rho_big.
      - intros k Hk. unfold rc_, rs_. rewrite (proj2 Jrc), (proj2 Jrs) by lia. destruct (Nat.eq_dec L 1) as [E|E]; [rewrite E; apply Rle_refl|].
        assert (E2 : L - 1 = 1) by lia. rewrite E2. left. apply (v_inc _ _ _ _ _ _ _ _ _ Hv); lia.
      - unfold near_call. rewrite Ho. cbn [bind].
        assert (V2 : forall k i, k < K -> i < Q -> at_ (f_Hi f) [0; k; i; 1] = cmul (cmul E0 (csqrt (snd (fst (e 0))))) (phase (optics_el (e k)) (fst (fst (pt i))) (snd (fst (pt i))))).
        { intros k i Hk Hq. rewrite Vh by assumption. rewrite Ew by assumption. unfold ne_. rewrite (proj2 Jne) by lia. reflexivity. }
        destruct HK as [E|E].
        + destruct (V1 E) as (dc & ds & do_ & Vr). exists f, dc, ds, do_. split; [exact Ef1|]. split; [exact V2|]. intros _.
          rewrite E in My, M1, M2, M3. apply max1 in My. apply max1 in M1. apply max1 in M2. apply max1 in M3. rewrite cabs_C in My, M1, M2, M3.
          cbv zeta. unfold result_of in Vr. rewrite (Ew 0) in Vr by lia. rewrite E in Vr.
          refine (is_near_ext _ _ _ _ _ _ _ _ _ _ _ _ Vr); intros i m Hm; [apply E_sph_co|apply H_sph_co]; unfold co_of; cbn [pred]; rewrite (proj2 Ict) by lia; rewrite My, M1, M2, M3; reflexivity.
        + exists f, 0, 0, 0. split; [exact Ef1|]. split; [exact V2|]. intros; lia.
    Qed.
  End One.

  (** ** joint calls against single-wavelength calls *)
  Section Joint.
    Variables (pi : string -> result Z) (e10 : R) (E0 : cplx R) (probe : tensor R) (Q : nat).
    Variables (c : @call R) (r : tensor R) (eps : tensor C) (K L : nat) (ef : nat -> nat -> nat -> list nat) (vf : nat -> list nat) (n : Z).
    Hypotheses (Hb : backend_is c "torch") (Hw : lower (a_which_jn c) = "recurrence"%string) (Hn : a_n_max c = Some n) (Hn1 : (1 <= n)%Z).
    Hypotheses (Hi : inputs_of c = Ok (r, eps)) (Hv : valid (a_k0 c) r eps (a_env c) K 1 L ef vf) (HL : 1 <= L <= 2).
    Hypotheses (Hk0 : forall k, k < K -> (0 <= nth k (entries (a_k0 c)) 0)%R) (Hp : shp probe = [Q; 3]).
    Let e k := element (a_k0 c) r eps (a_env c) ef vf L 0 k.
    Let pt i := at_ (spherical e10 probe) [i].
    Lemma single_near k : k < K -> exists f, near_call e10 sj sy jr pi E0 probe (single_call c (e k)) = Ok f /\
      forall i, i < Q -> at_ (f_Hi f) [0; 0; i; 1] = cmul (cmul E0 (csqrt (snd (fst (e k))))) (phase (optics_el (e k)) (fst (fst (pt i))) (snd (fst (pt i)))).
    Proof.
      intros Hk. destruct (single_valid c r eps K 1 L ef vf 0 k Hv ltac:(lia) Hk) as (r' & eps' & ef' & vf' & Hi' & Hv' & He).
      destruct (near_call_ok pi e10 E0 probe Q (single_call c (e k)) r' eps' 1 L ef' vf' n Hb Hw Hn Hn1 Hi' Hv' HL) as (f & _ & _ & _ & Hf & Vf & _); auto.
      - intros k' Hk'. assert (k' = 0) as -> by lia. exact (Hk0 k Hk).
      - exists f. split; [exact Hf|]. intros i Hq. rewrite Vf by lia. unfold e. now rewrite He.
    Qed.
    Lemma joint_fails : K <> 1 -> K <> 3 -> (forall f, near_call e10 sj sy jr pi E0 probe c <> Ok f) /\
      forall k, k < K -> exists f, near_call e10 sj sy jr pi E0 probe (single_call c (e k)) = Ok f.
    Proof.
      intros H1 H3. split; [now apply near_call_fails with (1 := Hi) (2 := Hv)|]. intros k Hk. destruct (single_near k Hk) as (f & Hf & _). now exists f.
    Qed.
    Lemma phase_neq0 w rr th : phase w rr th <> RtoC 0.
    Proof. apply Cexp_neq0. Qed.
    Lemma joint_three : K = 3 -> exists f, near_call e10 sj sy jr pi E0 probe c = Ok f /\
      forall k, k < 3 -> exists fk, near_call e10 sj sy jr pi E0 probe (single_call c (e k)) = Ok fk /\
        (E0 <> RtoC 0 -> at_ (a_env c) (vf k) <> at_ (a_env c) (vf 0) -> forall i, i < Q -> at_ (f_Hi f) [0; k; i; 1] <> at_ (f_Hi fk) [0; 0; i; 1]).
    Proof.
      intros HK. destruct (near_call_ok pi e10 E0 probe Q c r eps K L ef vf n Hb Hw Hn Hn1 Hi Hv HL Hk0 Hp (or_intror HK)) as (f & _ & _ & _ & Hf & Vf & _).
      exists f. split; [exact Hf|]. intros k Hk. destruct (single_near k ltac:(lia)) as (fk & Hfk & Vk). exists fk. split; [exact Hfk|].
      intros HE Hne i Hq E. rewrite Vf in E by lia. rewrite Vk in E by assumption. unfold e, pt in E.
      set (p := phase _ _ _) in E. assert (Hp0 : p <> RtoC 0) by apply phase_neq0. clearbody p.
      unfold element in E. cbn [fst snd] in E. apply Hne. rewrite <- (csqrt_sqr (at_ (a_env c) (vf k))), <- (csqrt_sqr (at_ (a_env c) (vf 0))).
      set (s0 := @csqrt R ROps (at_ (a_env c) (vf 0)) : C) in *. set (s1 := @csqrt R ROps (at_ (a_env c) (vf k)) : C) in *.
      change (@eq C (E0 * s0 * p)%C (E0 * s1 * p)%C) in E.
      assert (Es : s0 = s1).
      { transitivity (((E0 * s0 * p) / (E0 * p))%C); [field; split; assumption|]. rewrite E. field. split; assumption. }
      now rewrite Es.
    Qed.
  End Joint.
End M.

(** ** concrete calls: a sphere of radius 1/2 and eps = 4, two wavelengths; three wavelengths in a dispersive environment *)
Definition two_wl : @call R := layer_call (rv [1; 2]%R) (rv [1 / 2]%R) (cv [4]%R) (cs 1) "torch" (Some 1%Z).
Definition three_wl : @call R := layer_call (rv [1; 2; 3]%R) (rv [1 / 2]%R) (cv [4]%R) (cv [1; 2; 3]%R) "torch" (Some 1%Z).
Definition one_point : tensor R := rm [[1; 1; 1]%R].
Lemma two_valid : valid (a_k0 two_wl) (rv [1 / 2]%R) (cv [4]%R) (a_env two_wl) 2 1 1 (fun _ l _ => [l]) (fun _ => []).
Proof. split; try reflexivity. intros p l Hp Hl. lia. Qed.
Lemma three_valid : valid (a_k0 three_wl) (rv [1 / 2]%R) (cv [4]%R) (a_env three_wl) 3 1 1 (fun _ l _ => [l]) (fun k => [k]).
Proof. split; try reflexivity. intros p l Hp Hl. lia. Qed.
Lemma two_refutes sj sy jr pi e10 E0 : let e k := element (a_k0 two_wl) (rv [1 / 2]%R) (cv [4]%R) (a_env two_wl) (fun _ l _ => [l]) (fun _ => []) 1 0 k in
  (forall f, near_call e10 sj sy jr pi E0 one_point two_wl <> Ok f) /\
  (exists f, near_call e10 sj sy jr pi E0 one_point (single_call two_wl (e 0)) = Ok f) /\
  (exists f, near_call e10 sj sy jr pi E0 one_point (single_call two_wl (e 1)) = Ok f).
Proof.
  intros e. destruct (joint_fails sj sy jr pi e10 E0 one_point 1 two_wl _ _ 2 1 _ _ 1%Z eq_refl eq_refl eq_refl ltac:(lia) eq_refl two_valid ltac:(lia)) as [A B]; try lia; try reflexivity.
  - intros k Hk. destruct k as [|[|k]]; [| |lia]; cbn; lra.
  - split; [exact A|]. split; apply B; lia.
Qed.
Lemma three_refutes sj sy jr pi e10 : let e k := element (a_k0 three_wl) (rv [1 / 2]%R) (cv [4]%R) (a_env three_wl) (fun _ l _ => [l]) (fun k => [k]) 1 0 k in
  exists f f1, near_call e10 sj sy jr pi (RtoC 1) one_point three_wl = Ok f /\ near_call e10 sj sy jr pi (RtoC 1) one_point (single_call three_wl (e 1)) = Ok f1 /\
    at_ (f_Hi f) [0; 1; 0; 1] <> at_ (f_Hi f1) [0; 0; 0; 1].
Proof.
  intros e. destruct (joint_three sj sy jr pi e10 (RtoC 1) one_point 1 three_wl _ _ 3 1 _ _ 1%Z eq_refl eq_refl eq_refl ltac:(lia) eq_refl three_valid ltac:(lia)) as (f & Hf & V); try lia; try reflexivity.
  - intros k Hk. destruct k as [|[|[|k]]]; [| | |lia]; cbn; lra.
  - destruct (V 1 ltac:(lia)) as (f1 & Hf1 & N). exists f, f1. split; [exact Hf|]. split; [exact Hf1|]. apply N; [| |lia].
    + intros E. injection E. lra.
    + cbn. intros E. injection E. lra.
Qed.
