(** Near fields depend on relative refractive indices only (C103). *)
From Coq Require Import Reals ZArith List Bool String Arith Lra Lia.
From Coquelicot Require Import Complex.
From Verif Require Import Ops ROps Tensor CLemmas ModelSpecial ModelMie ModelBatch BroadcastSpec BroadcastProofs BatchReal StackConsequences ScaleProofs ParticleFull ModelObs ModelJn ModelNear ModelNearLegacy ModelNearPena
  NearField MirrorSpec MirrorProofs MirrorEnd ScaleNear.
Import ListNotations.
Open Scope R_scope.

Section Relative.
  Variable q : R.
  Hypothesis Hq : 0 < q.
  Definition times (e : C) : C := (RtoC (q * q) * e)%C.
  Definition denser (re : R * C) : R * C := (fst re, times (snd re)).
  Definition stronger (F : C * C * C) : C * C * C := ((RtoC q * fst (fst F))%C, (RtoC q * snd (fst F))%C, (RtoC q * snd F)%C).

  Lemma sqrt_times e : @csqrt R ROps (times e) = (RtoC q * @csqrt R ROps e)%C.
  Proof. apply csqrt_scale. exact Hq. Qed.
  Lemma index_q (k0 : R) (m : C) : @cmul R ROps (cofr (k0 / q)) (RtoC q * m)%C = cmul (cofr k0) m.
  Proof.
    toC. match goal with |- @eq _ ?a ?b => change (@eq C a b) end. replace k0 with (q * (k0 / q)) at 2 by (field; lra). rewrite !RtoC_mult. ring.
  Qed.
  Section Fields.
    Variables (N n_add : nat) (k0 : R) (env : C) (core : R * C) (shells : list (R * C)) (E0 : C) (P : @point R).
    Hypothesis Henv : env <> RtoC 0.
    Notation core' := (denser core).
    Notation shells' := (map denser shells).
    Lemma radii_q : @radii R core' shells' = radii core shells.
    Proof. unfold radii. cbn [map]. rewrite map_map. reflexivity. Qed.
    Lemma medium_q li : @n_medium R ROps (times env) core' shells' li = (RtoC q * n_medium env core shells li)%C.
    Proof.
      unfold n_medium. rewrite radii_q. destruct (Nat.eqb li _); [apply sqrt_times|].
      change (core' :: shells') with (map denser (core :: shells)). rewrite map_nth. apply sqrt_times.
    Qed.
    Lemma amplitudes_q n : @amplitudes R ROps N n_add (k0 / q) (times env) core' shells' n = amplitudes N n_add k0 env core shells n.
    Proof.
      unfold amplitudes. rewrite (layer_relative q k0 env core Hq Henv : layer_of (k0 / q) (times env) core' = _), map_map.
      f_equal. apply map_ext. intros re. exact (layer_relative q k0 env re Hq Henv).
    Qed.
    Lemma vsh_q m r th ph b n : @vsh_pena R ROps N n_add (k0 / q) (RtoC q * m)%C r th ph b n = vsh_pena N n_add k0 m r th ph b n.
    Proof. unfold vsh_pena, rho_at. now rewrite index_q. Qed.
    Lemma E_order_q li n : @E_order R ROps N n_add (k0 / q) (times env) core' shells' E0 P li n = E_order N n_add k0 env core shells E0 P li n.
    Proof. unfold E_order. rewrite radii_q, amplitudes_q, medium_q. now rewrite !vsh_q. Qed.
    Lemma H_region_q m out A V1 V3 n : @H_region R ROps E0 (RtoC q * m)%C out A V1 V3 n = @vscale R ROps (RtoC q) (H_region E0 m out A V1 V3 n).
    Proof.
      unfold H_region. destruct out; rewrite vscale_scale; f_equal; toC; match goal with |- @eq _ ?a ?b => change (@eq C a b) end; ring.
    Qed.
    Lemma H_order_q li n : @H_order R ROps N n_add (k0 / q) (times env) core' shells' E0 P li n = @vscale R ROps (RtoC q) (H_order N n_add k0 env core shells E0 P li n).
    Proof. unfold H_order. rewrite radii_q, amplitudes_q, medium_q, !vsh_q. apply H_region_q. Qed.
    Lemma cart_q f : @to_cartesian R ROps N core' shells' P f = to_cartesian N core shells P f.
    Proof. unfold to_cartesian, masked. now rewrite radii_q. Qed.
    Lemma phase_q : @ModelNear.phase R ROps (k0 / q) (times env) P = ModelNear.phase k0 env P.
    Proof. unfold ModelNear.phase, k_env. rewrite sqrt_times, index_q. reflexivity. Qed.
    Lemma outside_q : @ModelNear.outside R ROps core' shells' P = ModelNear.outside core shells P.
    Proof. unfold ModelNear.outside. now rewrite radii_q. Qed.
    Lemma E_s_q : @E_s R ROps N n_add (k0 / q) (times env) core' shells' E0 P = E_s N n_add k0 env core shells E0 P.
    Proof.
      unfold E_s. rewrite cart_q. unfold to_cartesian. f_equal. apply map_ext. intros n. f_equal. unfold masked. apply fold_ext. intros x li. now rewrite E_order_q.
    Qed.
    Lemma H_s_q : @H_s R ROps N n_add (k0 / q) (times env) core' shells' E0 P = stronger (H_s N n_add k0 env core shells E0 P).
    Proof. unfold H_s. rewrite cart_q. apply (cart_scale N core shells (RtoC q) P). intros li n. apply H_order_q. Qed.
    Lemma fields_q :
      @E_i R ROps (k0 / q) (times env) E0 P = E_i k0 env E0 P /\ @H_i R ROps (k0 / q) (times env) E0 P = stronger (H_i k0 env E0 P) /\
      @E_s R ROps N n_add (k0 / q) (times env) core' shells' E0 P = E_s N n_add k0 env core shells E0 P /\
      @H_s R ROps N n_add (k0 / q) (times env) core' shells' E0 P = stronger (H_s N n_add k0 env core shells E0 P) /\
      @E_t R ROps N n_add (k0 / q) (times env) core' shells' E0 P = E_t N n_add k0 env core shells E0 P /\
      @H_t R ROps N n_add (k0 / q) (times env) core' shells' E0 P = stronger (H_t N n_add k0 env core shells E0 P).
    Proof.
      assert (Ei : @E_i R ROps (k0 / q) (times env) E0 P = E_i k0 env E0 P) by (unfold E_i; now rewrite phase_q).
      assert (Hi : @H_i R ROps (k0 / q) (times env) E0 P = stronger (H_i k0 env E0 P)).
      { unfold H_i, stronger. rewrite phase_q, sqrt_times. cbn [fst snd]. generalize (@ModelNear.phase R ROps k0 env P) (@csqrt R ROps env). intros f g. toC.
        (apply f_equal2; [apply f_equal2|]); match goal with |- @eq _ ?a ?b => change (@eq C a b) end; ring. }
      unfold E_t, H_t. rewrite Ei, Hi, E_s_q, H_s_q, outside_q. repeat split. destruct (ModelNear.outside core shells P); [|reflexivity].
      unfold vadd, stronger, v1, v2, v3. cbn [fst snd]. toC. (apply f_equal2; [apply f_equal2|]); match goal with |- @eq _ ?a ?b => change (@eq C a b) end; ring.
    Qed.
  End Fields.

  Lemma element_q k0 r eps env ef vf L p k : (1 <= L)%nat ->
    let e := element k0 r eps env ef vf L p k in let e' := element (tmap (down q) k0) r (tmap times eps) (tmap times env) ef vf L p k in
    fst (fst e') = fst (fst e) / q /\ snd (fst e') = times (snd (fst e)) /\ core_of e' = denser (core_of e) /\ shells_of e' = map denser (shells_of e).
  Proof.
    intros HL. unfold element, core_of, shells_of. cbn [fst snd shp at_ tmap]. rewrite entries_tmap.
    replace 0 with (down q 0) at 1 by (unfold down, Rdiv; ring). rewrite map_nth. destruct L as [|L]; [lia|]. cbn [seq map hd tl]. repeat split. rewrite map_map. reflexivity.
  Qed.
  Lemma valid_q k0 r eps env K P L ef vf : valid k0 r eps env K P L ef vf -> valid (tmap (down q) k0) r (tmap times eps) (tmap times env) K P L ef vf.
  Proof. intros [H1 H2 H3 H4 H5]. split; assumption. Qed.

  Section Call.
    Variables (sj sy jr : @bessel_t R) (e10 : R) (E0 : C) (probe : tensor R) (Q : nat) (c c' : @call R) (o o' : @output R) (r : tensor R) (eps : tensor C) (K P L : nat)
      (ef : nat -> nat -> nat -> list nat) (vf : nat -> list nat).
    Hypothesis Hm : mie_coefficients sj sy jr (without_internal c) = Ok o.
    Hypothesis Hm' : mie_coefficients sj sy jr (without_internal c') = Ok o'.
    Hypothesis Hb : backend_is c "pena".
    Hypothesis Hb' : backend_is c' "pena".
    Hypothesis Hin : inputs_of c = Ok (r, eps).
    Hypothesis Hin' : inputs_of c' = Ok (r, tmap times eps).
    Hypothesis Hk' : a_k0 c' = tmap (down q) (a_k0 c).
    Hypothesis He' : a_env c' = tmap times (a_env c).
    Hypothesis Hv : valid (a_k0 c) r eps (a_env c) K P L ef vf.
    Hypothesis Hn : (1 <= o_n_max o)%Z.
    Hypothesis Hn' : o_n_max o' = o_n_max o.
    Hypothesis HP : (1 <= P)%nat.
    Hypothesis HL : (1 <= L)%nat.
    Hypothesis Hp : shp probe = [Q; 3]%nat.
    Lemma call_q : exists f f', near_call_pena e10 sj sy jr E0 probe c = Ok f /\ near_call_pena e10 sj sy jr E0 probe c' = Ok f' /\
      forall p k i, (p < P)%nat -> (k < K)%nat -> (i < Q)%nat -> at_ (a_env c) (vf k) <> RtoC 0 ->
        row (f_Ei f') p k i = row (f_Ei f) p k i /\ row (f_Hi f') p k i = stronger (row (f_Hi f) p k i) /\
        row (f_Es f') p k i = row (f_Es f) p k i /\ row (f_Hs f') p k i = stronger (row (f_Hs f) p k i) /\
        row (f_Et f') p k i = row (f_Et f) p k i /\ row (f_Ht f') p k i = stronger (row (f_Ht f) p k i).
    Proof.
      destruct (rows_of sj sy jr e10 E0 probe Q c o r eps K P L ef vf Hm Hb Hin Hv Hn HP Hp) as (f & Hf & H).
      assert (Hv' : valid (a_k0 c') r (tmap times eps) (a_env c') K P L ef vf) by (rewrite Hk', He'; now apply valid_q).
      assert (Hn1 : (1 <= o_n_max o')%Z) by (rewrite Hn'; exact Hn).
      destruct (rows_of sj sy jr e10 E0 probe Q c' o' r (tmap times eps) K P L ef vf Hm' Hb' Hin' Hv' Hn1 HP Hp) as (f' & Hf' & H').
      exists f, f'. split; [exact Hf|]. split; [exact Hf'|]. intros p k i Hpp Hk Hi Hx.
      specialize (H p k i Hpp Hk Hi). specialize (H' p k i Hpp Hk Hi). cbv zeta in H, H'. rewrite Hk', He', Hn' in H'.
      destruct (element_q (a_k0 c) r eps (a_env c) ef vf L p k HL) as (E1 & E2 & E3 & E4). cbv zeta in E1, E2, E3, E4. rewrite E1, E2, E3, E4 in H'.
      destruct H as (-> & -> & -> & -> & -> & ->). destruct H' as (-> & -> & -> & -> & -> & ->). apply fields_q. exact Hx.
    Qed.
  End Call.
End Relative.
Lemma call_relative q : 0 < q -> forall sj sy jr e10 E0 probe Q (c c' : @call R) n r eps K P L ef vf,
  backend_is c "pena" -> backend_is c' "pena" -> a_n_max c = Some n -> a_n_max c' = Some n -> (1 <= n)%Z ->
  inputs_of c = Ok (r, eps) -> inputs_of c' = Ok (r, tmap (times q) eps) -> a_k0 c' = tmap (fun k => k / q) (a_k0 c) -> a_env c' = tmap (times q) (a_env c) ->
  valid (a_k0 c) r eps (a_env c) K P L ef vf -> (1 <= P)%nat -> (1 <= L)%nat -> shp probe = [Q; 3]%nat ->
  exists f f', near_call_pena e10 sj sy jr E0 probe c = Ok f /\ near_call_pena e10 sj sy jr E0 probe c' = Ok f' /\
    forall p k i, (p < P)%nat -> (k < K)%nat -> (i < Q)%nat -> at_ (a_env c) (vf k) <> RtoC 0 ->
      row (f_Ei f') p k i = row (f_Ei f) p k i /\ row (f_Hi f') p k i = stronger q (row (f_Hi f) p k i) /\
      row (f_Es f') p k i = row (f_Es f) p k i /\ row (f_Hs f') p k i = stronger q (row (f_Hs f) p k i) /\
      row (f_Et f') p k i = row (f_Et f) p k i /\ row (f_Ht f') p k i = stronger q (row (f_Ht f) p k i).
Proof.
  intros Hq sj sy jr e10 E0 probe Q c c' n r eps K P L ef vf Hb Hb' Hn Hn' H1 Hi Hi' Hk He Hv HP HL Hp.
  destruct (pena_tail sj sy jr (without_internal c) r eps K P L ef vf n Hb eq_refl Hi Hv HL H1 (or_introl Hn)) as (o & Ho & Eo & _).
  assert (Hv' : valid (a_k0 c') r (tmap (times q) eps) (a_env c') K P L ef vf) by (rewrite Hk, He; now apply valid_q).
  destruct (pena_tail sj sy jr (without_internal c') r (tmap (times q) eps) K P L ef vf n Hb' eq_refl Hi' Hv' HL H1 (or_introl Hn')) as (o' & Ho' & Eo' & _).
  apply (call_q q Hq sj sy jr e10 E0 probe Q c c' o o' r eps K P L ef vf); try assumption; congruence.
Qed.
