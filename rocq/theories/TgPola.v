(** Polarisabilities, combined structures, scattered fields, block matrices. *)
From Coq Require Import Reals ZArith List Bool String Arith Lia Lra.
From Coquelicot Require Import Complex.
From Verif Require Import Ops ROps CLemmas Tensor TensorProofs ModelMaterial ModelSpecial ModelMie ModelBatch ModelObs BroadcastSpec BatchReal
  StackConsequences FarFieldProofs ModelParticle ParticleSpec ParticleEnd ModelTg TgSpec TgProofs.
Import ListNotations.
Open Scope nat_scope.
Open Scope list_scope.

(** ** polarisability *)
Lemma tbin_11 {A B D} (f : A -> B -> D) t u K : shp t = [K] -> shp u = [K] ->
  exists w, tbin f t u = Ok w /\ shp w = [K] /\ forall k, k < K -> at_ w [k] = f (at_ t [k]) (at_ u [k]).
Proof.
  intros Ht Hu. unfold tbin. rewrite Ht, Hu. unfold bcast_shape. cbn [rev app bcast_rev option_map]. rewrite bd_same. cbn [option_map rev app].
  eexists. split; [reflexivity|]. split; [reflexivity|]. intros k Hk. cbn [at_]. unfold bcast_ix. cbn [List.length Nat.sub skipn clip].
  destruct (Nat.eqb_spec K 1) as [->|]; [assert (k = 0) as -> by lia|]; reflexivity.
Qed.
Lemma tbin_1b {A B D} (f : A -> B -> D) t u K : shp t = [K] -> shp u = [1] ->
  exists w, tbin f t u = Ok w /\ shp w = [K] /\ forall k, k < K -> at_ w [k] = f (at_ t [k]) (at_ u [0]).
Proof.
  intros Ht Hu. unfold tbin. rewrite Ht, Hu. unfold bcast_shape. cbn [rev app bcast_rev option_map]. rewrite bd_1r. cbn [option_map rev app].
  eexists. split; [reflexivity|]. split; [reflexivity|]. intros k Hk. cbn [at_]. unfold bcast_ix. cbn [List.length Nat.sub skipn clip Nat.eqb].
  destruct (Nat.eqb_spec K 1) as [->|]; [assert (k = 0) as -> by lia|]; reflexivity.
Qed.

Lemma Cmult_neq0 (a b : C) : a <> RtoC 0 -> b <> RtoC 0 -> (a * b)%C <> RtoC 0.
Proof. apply Cmult_neq_0. Qed.
Lemma pola_e (a : C) (k0 : R) (n : C) : k0 <> 0%R -> n <> RtoC 0 ->
  cdiv (cdiv (cmul (cdiv (cmul ci (cofr (rofZ 3))) (cofr rtwo)) a) (cofr (rmul k0 (rmul k0 k0)))) (cpow n 1) = alpha_e a k0 n.
Proof.
  intros Hk Hn. unfold alpha_e. cbn [cpow]. toC. change (@cofr R ROps (rmul k0 (rmul k0 k0))) with (RtoC (k0 * (k0 * k0))).
  change (@rofZ R ROps 3) with 3%R. change (@rtwo R ROps) with 2%R. rewrite !RtoC_mult, RtoC_div by lra.
  assert (RtoC k0 <> RtoC 0) by now apply RtoC_neq. assert (RtoC 2 <> RtoC 0) by (apply RtoC_neq; lra). match goal with |- ?x = ?y => change (@eq C x y) end. field. repeat split; assumption.
Qed.
Lemma pola_m (a : C) (k0 : R) (n : C) : k0 <> 0%R -> n <> RtoC 0 ->
  cdiv (cdiv (cmul (cdiv (cmul ci (cofr (rofZ 3))) (cofr rtwo)) a) (cofr (rmul k0 (rmul k0 k0)))) (cpow n 3) = alpha_m a k0 n.
Proof.
  intros Hk Hn. unfold alpha_m. cbn [cpow]. toC. change (@cofr R ROps (rmul k0 (rmul k0 k0))) with (RtoC (k0 * (k0 * k0))).
  change (@rofZ R ROps 3) with 3%R. change (@rtwo R ROps) with 2%R. rewrite !RtoC_mult, RtoC_div by lra.
  assert (RtoC k0 <> RtoC 0) by now apply RtoC_neq. assert (RtoC 2 <> RtoC 0) by (apply RtoC_neq; lra). match goal with |- ?x = ?y => change (@eq C x y) end. field. repeat split; assumption.
Qed.

Lemma pola_ok (e : nat) (al : C -> R -> C -> C) (x : tensor (cplx R)) K N (f : nat -> nat -> C) (wls : list R) (n : tensor (cplx R)) (v : C) :
  (forall a k0 n, k0 <> 0%R -> n <> RtoC 0 -> cdiv (cdiv (cmul (cdiv (cmul ci (cofr (rofZ 3))) (cofr rtwo)) a) (cofr (rmul k0 (rmul k0 k0)))) (cpow n e) = al a k0 n) ->
  List.length wls = K -> (forall k, k < K -> (0 < nth k wls 0)%R) -> v <> RtoC 0 -> 1 <= N ->
  is2 x K N f -> (shp n = [K] /\ (forall k, k < K -> at_ n [k] = csqrt v)) \/ (shp n = [1] /\ at_ n [0] = csqrt v) ->
  exists w, pola e x (k0_of wls) n = Ok w /\ shp w = [K] /\ forall k, k < K -> at_ w [k] = al (f k 0) (2 * PI / nth k wls 0)%R (csqrt v).
Proof.
  intros Hal HK Hw Hv HN [Hs Ha] Hn. unfold pola.
  assert (S1 : shp (tmap (fun z => cmul (cdiv (cmul ci (cofr (rofZ 3))) (cofr rtwo)) z) (select 1 0 x)) = [K]).
  { cbn [shp tmap select]. rewrite Hs. reflexivity. }
  assert (S2 : shp (tmap (fun k => @cofr R ROps (rmul k (rmul k k))) (k0_of wls)) = [K]). { cbn. now rewrite HK. }
  destruct (tbin_11 cdiv _ _ K S1 S2) as (u & -> & Su & Au). cbn [bind].
  assert (Hk : forall k, k < K -> (2 * PI / nth k wls 0)%R <> 0%R).
  { intros k Hk. specialize (Hw k Hk). pose proof PI_RGT_0. apply Rgt_not_eq, Rdiv_lt_0_compat; lra. }
  assert (Au' : forall k, k < K -> at_ u [k] = cdiv (cmul (cdiv (cmul ci (cofr (rofZ 3))) (cofr rtwo)) (f k 0)) (cofr (rmul (2 * PI / nth k wls 0)%R (rmul (2 * PI / nth k wls 0)%R (2 * PI / nth k wls 0)%R)))).
  { intros k Hk0. rewrite Au by exact Hk0. cbn [at_ tmap select insert_at firstn skipn app]. rewrite Ha by lia. reflexivity. }
  assert (S3 : csqrt v <> RtoC 0) by now apply csqrt_neq0.
  destruct Hn as [[Sn An]|[Sn An]].
  - destruct (tbin_11 cdiv u (tmap (fun z => cpow z e) n) K Su Sn) as (w & Ew & Sw & Aw). exists w. split; [exact Ew|]. split; [exact Sw|].
    intros k Hk0. rewrite Aw, Au' by exact Hk0. cbn [at_ tmap]. rewrite An by exact Hk0. now apply Hal; [apply Hk|].
  - destruct (tbin_1b cdiv u (tmap (fun z => cpow z e) n) K Su Sn) as (w & Ew & Sw & Aw). exists w. split; [exact Ew|]. split; [exact Sw|].
    intros k Hk0. rewrite Aw, Au' by exact Hk0. cbn [at_ tmap]. rewrite An. now apply Hal; [apply Hk|].
Qed.

Lemma combine_seq {A} (d : A) (l : list A) : combine l (seq 0 (List.length l)) = map (fun k => (nth k l d, k)) (seq 0 (List.length l)).
Proof.
  assert (G : forall n, combine l (seq n (List.length l)) = map (fun k => (nth (k - n) l d, k)) (seq n (List.length l))).
  { induction l as [|x l IH]; intros n; [reflexivity|]. cbn [List.length seq combine map]. rewrite Nat.sub_diag. cbn [nth]. f_equal. rewrite IH.
    apply map_ext_in. intros k Hk. apply in_seq in Hk. f_equal. replace (k - n) with (S (k - S n)) by lia. reflexivity. }
  rewrite G. apply map_ext_in. intros k _. now rewrite Nat.sub_0_r.
Qed.
Lemma filter_map {A B} (g : A -> B) (p : B -> bool) (l : list A) : filter p (map g l) = map g (filter (fun x => p (g x)) l).
Proof. induction l as [|x l IH]; [reflexivity|]. cbn. destruct (p (g x)); cbn; now rewrite IH. Qed.
Lemma violations_eq (tol : R) (t : tensor (cplx R)) K N f wls : List.length wls = K -> is2 t K N f -> 2 <= N -> violations tol t wls = exceeding tol (fun k => f k 1) wls.
Proof.
  intros HK [_ Ha] HN. unfold violations, exceeding. rewrite (combine_seq 0%R), filter_map, map_map. cbn [fst snd].
  f_equal. apply filter_ext_in. intros k Hk. apply in_seq in Hk. rewrite Ha by lia. toC. cbn [rltb ROps]. unfold Rltb.
  destruct (Rlt_dec tol (Cmod (f k 1))); reflexivity.
Qed.

Section E.
  Variables (sj sy jr : @bessel_t R) (d : device) (p : @particle R) (h : @heap R) (wls : list R) (is : list nat) (L : nat) (rs : list R)
    (lf : nat -> nat -> C) (v : C).
  Hypothesis S : setting sj sy jr d p h wls is L rs lf v.
  Hypothesis Hv : v <> RtoC 0.
  Let K := List.length wls.
  Lemma eff_pola_ok ne b tol r0 r : env_arg v ne -> backend_fits b L -> centre_ok r0 r ->
    exists h' h3 E o, eff_pola sj sy jr p wls ne b tol r0 h = (h', Ok E) /\
      run_call sj sy jr p (k0_of wls) None (tg_kwargs p b 2) h = (h3, Ok o) /\
      is3 (ep_alpha E) K 6 6 (alpha6 (fun k => alpha_e (at_ (o_a o) [0; 0; k]) (2 * PI / nth k wls 0)%R (csqrt v))
                                     (fun k => alpha_m (at_ (o_b o) [0; 0; k]) (2 * PI / nth k wls 0)%R (csqrt v))) /\
      (lower (resolve_backend p b) = "pena"%string -> forall k, k < K ->
        (at_ (o_a o) [0; 0; k], at_ (o_b o) [0; 0; k]) = scalar_pena 2 (sphere_at wls rs lf v k) 1) /\
      ep_r0 E = r /\ shp (ep_radius E) = [] /\ at_ (ep_radius E) [] = nth (L - 1) rs 0%R /\
      ep_warn_a E = exceeding tol (fun k => at_ (o_a o) [1; 0; k]) wls /\ ep_warn_b E = exceeding tol (fun k => at_ (o_b o) [1; 0; k]) wls.
  Proof.
    intros Hne Hb Hr.
    assert (exists eps : tensor (cplx R) -> tensor (cplx R), (forall t, shp t = [K] -> (forall k, k < K -> at_ t [k] = v) -> env_override t ne = Ok (eps t)) /\
      forall t, shp t = [K] -> (forall k, k < K -> at_ t [k] = v) -> (shp (tmap csqrt (eps t)) = [K] /\ (forall k, k < K -> at_ (tmap csqrt (eps t)) [k] = csqrt v)) \/ (shp (tmap csqrt (eps t)) = [1] /\ at_ (tmap csqrt (eps t)) [0] = csqrt v)) as (eps & He & Hn).
    { destruct ne as [|z|u]; [|elim Hne|].
      - exists (fun t => t). split; [exact (none_ok _ _ _ _ _ _ _ _ _ _ _ _ S)|]. intros t St At. left. split; [exact St|]. intros k Hk. cbn [at_ tmap]. now rewrite At.
      - destruct Hne as [Su Au]. exists (fun _ => tmap csqr u). assert (Fu : first_entry u = at_ u [0]). { unfold first_entry, ndim. now rewrite Su. }
        split; [|]. 
        + apply (tensor_ok _ _ _ _ _ _ _ _ _ _ _ _ S u); [unfold numel; now rewrite Su|unfold ndim; rewrite Su; cbn; lia|now rewrite Fu].
        + intros t _ _. right. split; [exact Su|]. cbn [at_ tmap]. f_equal. exact Au. }
    destruct (mie_ab_layout _ _ _ _ _ _ _ _ _ _ _ _ S ne 2 b eps ltac:(lia) Hb He) as (h' & h3 & m & o & t & Em & Er & Ia & Ib & Hp & St & At & _ & En & Sr & Ar & _).
    change (Z.to_nat 2) with 2 in *. fold K in Ia, Ib, Hp.
    destruct (se_wls _ _ _ _ _ _ _ _ _ _ _ _ S) as [_ Hw].
    destruct (pola_ok 1 alpha_e (m_a m) K 2 _ wls (m_n_env m) v (fun a k n => pola_e a k n) eq_refl Hw Hv ltac:(lia) Ia) as (pE & EE & SE & AE).
    { rewrite En. now apply Hn. }
    destruct (pola_ok 3 alpha_m (m_b m) K 2 _ wls (m_n_env m) v (fun a k n => pola_m a k n) eq_refl Hw Hv ltac:(lia) Ib) as (mH & EH & SH & AH).
    { rewrite En. now apply Hn. }
    assert (Ec : centre r0 = Ok r). { unfold centre. destruct r0 as [t0|]; [destruct Hr as [Hr ->]; now rewrite Hr|]. rewrite Hr. reflexivity. }
    exists h', h3. eexists. exists o. split; [|split; [exact Er|]].
    - unfold eff_pola. unfold bnd at 1. rewrite Em. unfold bnd, lift. rewrite EE, EH. unfold fits. rewrite SE, SH. unfold K. cbn [shape_eqb]. rewrite !Nat.eqb_refl. cbn [andb negb].
      rewrite Ec. reflexivity.
    - cbn [ep_alpha ep_r0 ep_radius ep_warn_a ep_warn_b]. split; [split; [reflexivity|]|].
      + intros k i j Hk Hi Hj. cbn [at_]. unfold alpha6. destruct (i =? j); [|reflexivity]. destruct (i <? 3).
        * rewrite AE by exact Hk. cbn beta. apply injective_projections; cbn; ring.
        * rewrite AH by exact Hk. cbn beta. apply injective_projections; cbn; ring.
      + split; [|split; [reflexivity|split; [exact Sr|split; [exact Ar|split]]]].
        * intros Hq k Hk. destruct (Hp Hq) as [[_ Pa] [_ Pb]]. destruct Ia as [_ Ia]. destruct Ib as [_ Ib]. specialize (Pa k 0 Hk ltac:(lia)). specialize (Pb k 0 Hk ltac:(lia)).
          rewrite Ia in Pa by lia. rewrite Ib in Pb by lia. rewrite (surjective_pairing (scalar_pena _ _ _)). now rewrite Pa, Pb.
        * now apply violations_eq with (N := 2) (K := K) (f := fun k i => at_ (o_a o) [i; 0; k]).
        * now apply violations_eq with (N := 2) (K := K) (f := fun k i => at_ (o_b o) [i; 0; k]).
  Qed.
End E.

(** ** extinction of the point dipoles *)
Lemma im_alpha_e (a1 : C) (k0 n : R) : k0 <> 0%R -> n <> 0%R -> snd (alpha_e a1 k0 (RtoC n)) = (3 / 2 * fst a1 / (k0 * k0 * k0 * n))%R.
Proof.
  intros Hk Hn. unfold alpha_e. rewrite <- RtoC_mult. assert (H : (k0 * k0 * k0 * n)%R <> 0%R) by (repeat apply Rmult_integral_contrapositive_currified; assumption).
  set (q := (k0 * k0 * k0 * n)%R) in *. unfold Cdiv. rewrite <- RtoC_inv by exact H. cbn. field. exact H.
Qed.
Lemma im_alpha_m (b1 : C) (k0 n : R) : k0 <> 0%R -> n <> 0%R -> snd (alpha_m b1 k0 (RtoC n)) = (3 / 2 * fst b1 / (k0 * k0 * k0 * (n * n * n)))%R.
Proof.
  intros Hk Hn. unfold alpha_m. rewrite <- !RtoC_mult. assert (H : (k0 * k0 * k0 * (n * n * n))%R <> 0%R) by (repeat apply Rmult_integral_contrapositive_currified; assumption).
  set (q := (k0 * k0 * k0 * (n * n * n))%R) in *. unfold Cdiv. rewrite <- RtoC_inv by exact H. cbn. field. exact H.
Qed.
Lemma extinction_e (a b : nat -> C) (k0 n : R) : k0 <> 0%R -> n <> 0%R ->
  (4 * PI * k0 / n * snd (alpha_e (a 1%nat) k0 (RtoC n)))%R = @cs_ext_multipole R ROps (RtoC (k0 * n)) a b false 1.
Proof.
  intros Hk Hn. rewrite im_alpha_e, cs_ext_mp_real by (try apply Rmult_integral_contrapositive_currified; assumption). cbn [coef INR]. field. auto.
Qed.
Lemma extinction_m (a b : nat -> C) (k0 n : R) : k0 <> 0%R -> n <> 0%R ->
  (4 * PI * k0 * n * snd (alpha_m (b 1%nat) k0 (RtoC n)))%R = @cs_ext_multipole R ROps (RtoC (k0 * n)) a b true 1.
Proof.
  intros Hk Hn. rewrite im_alpha_m, cs_ext_mp_real by (try apply Rmult_integral_contrapositive_currified; assumption). cbn [coef INR]. field. auto.
Qed.

(** lossless particles: the radiation reaction condition *)
Lemma cmod_sqr (z : C) : (Cmod z * Cmod z = fst z * fst z + snd z * snd z)%R.
Proof. unfold Cmod. rewrite sqrt_sqrt; [ring|]. pose proof (pow2_ge_0 (fst z)). pose proof (pow2_ge_0 (snd z)). lra. Qed.
Lemma mod_alpha (x : C) (q : R) : q <> 0%R -> let al := (Ci * RtoC (3 / 2) * x / RtoC q)%C in
  snd al = (3 / 2 * fst x / q)%R /\ (Cmod al * Cmod al = 9 / 4 * (Cmod x * Cmod x) / (q * q))%R.
Proof. intros Hq. cbv zeta. unfold Cdiv. rewrite <- RtoC_inv by exact Hq. rewrite !cmod_sqr. cbn. split; field; exact Hq. Qed.
Lemma reaction (x : C) (q : R) : q <> 0%R -> let al := (Ci * RtoC (3 / 2) * x / RtoC q)%C in
  fst x = (Cmod x * Cmod x)%R <-> snd al = (2 / 3 * q * (Cmod al * Cmod al))%R.
Proof.
  intros Hq al. destruct (mod_alpha x q Hq) as [H1 H2]. fold al in H1, H2. rewrite H1, H2. split.
  - intros H. rewrite <- H. field. exact Hq.
  - intros H. apply (f_equal (fun t => (t * (2 / 3 * q))%R)) in H.
    replace (3 / 2 * fst x / q * (2 / 3 * q))%R with (fst x) in H by (field; exact Hq). rewrite H. field. exact Hq.
Qed.
Lemma reaction_e (a1 : C) (k0 n : R) : k0 <> 0%R -> n <> 0%R ->
  (fst a1 = Cmod a1 * Cmod a1 <-> snd (alpha_e a1 k0 (RtoC n)) = 2 / 3 * (k0 * k0 * k0 * n) * (Cmod (alpha_e a1 k0 (RtoC n)) * Cmod (alpha_e a1 k0 (RtoC n))))%R.
Proof. intros Hk Hn. unfold alpha_e. rewrite <- RtoC_mult. apply reaction. repeat apply Rmult_integral_contrapositive_currified; assumption. Qed.
Lemma reaction_m (b1 : C) (k0 n : R) : k0 <> 0%R -> n <> 0%R ->
  (fst b1 = Cmod b1 * Cmod b1 <-> snd (alpha_m b1 k0 (RtoC n)) = 2 / 3 * (k0 * k0 * k0 * (n * n * n)) * (Cmod (alpha_m b1 k0 (RtoC n)) * Cmod (alpha_m b1 k0 (RtoC n))))%R.
Proof. intros Hk Hn. unfold alpha_m. rewrite <- !RtoC_mult. apply reaction. repeat apply Rmult_integral_contrapositive_currified; assumption. Qed.
