(** The statements of PropsTg. *)
From Coq Require Import Reals ZArith List Bool String Arith Lia Lra.
From Coquelicot Require Import Complex.
From Verif Require Import Ops ROps CLemmas Tensor TensorProofs ModelMaterial MaterialSpec ModelSpecial ModelMie ModelBatch BroadcastSpec BatchReal
  ModelParticle ParticleSpec ModelTg TgSpec TgProofs TgPola TgCombine ExampleTg.
Import ListNotations.
Open Scope nat_scope.
Open Scope list_scope.

Lemma automatic_supported sj sy jr d p h wls is L rs lf v : setting sj sy jr d p h wls is L rs lf v -> forall n, (1 <= n)%Z ->
  exists h' o fa fb, run_call sj sy jr p (k0_of wls) None (tg_kwargs p None n) h = (h', Ok o) /\
    is3 (o_a o) (Z.to_nat n) 1 (List.length wls) fa /\ is3 (o_b o) (Z.to_nat n) 1 (List.length wls) fb.
Proof.
  intros St n Hn. destruct (mie_ab_ok _ _ _ _ _ _ _ _ _ _ _ _ St NNone n None (fun t => t) Hn I (none_ok _ _ _ _ _ _ _ _ _ _ _ _ St)) as (h' & h3 & o & fa & fb & t & E3 & Ia & Ib & _).
  exists h3, o, fa, fb. auto.
Qed.
Lemma explicit_respected (p : @particle R) s n : resolve_backend p (Some s) = s /\ k_backend (tg_kwargs p (Some s) n) = s.
Proof. split; reflexivity. Qed.
Lemma layout_two_or_more sj sy jr d p h wls is L rs lf v : setting sj sy jr d p h wls is L rs lf v ->
  forall n b, (2 <= n)%Z -> backend_fits b L ->
  exists h' h3 m o, mie_ab sj sy jr p wls NNone n b h = (h', Ok m) /\ run_call sj sy jr p (k0_of wls) None (tg_kwargs p b n) h = (h3, Ok o) /\
    is2 (m_a m) (List.length wls) (Z.to_nat n) (fun k i => at_ (o_a o) [i; 0; k]) /\ is2 (m_b m) (List.length wls) (Z.to_nat n) (fun k i => at_ (o_b o) [i; 0; k]) /\
    (lower (resolve_backend p b) = "pena"%string ->
      is2 (m_a m) (List.length wls) (Z.to_nat n) (fun k i => fst (scalar_pena (Z.to_nat n) (sphere_at wls rs lf v k) (S i))) /\
      is2 (m_b m) (List.length wls) (Z.to_nat n) (fun k i => snd (scalar_pena (Z.to_nat n) (sphere_at wls rs lf v k) (S i)))) /\
    shp (m_r m) = [] /\ at_ (m_r m) [] = nth (L - 1) rs 0%R /\ m_wls m = wls.
Proof.
  intros St n b Hn Hb. destruct (mie_ab_layout _ _ _ _ _ _ _ _ _ _ _ _ St NNone n b (fun t => t) Hn Hb (none_ok _ _ _ _ _ _ _ _ _ _ _ _ St))
    as (h' & h3 & m & o & t & Em & Er & Ia & Ib & Hp & _ & _ & _ & _ & Sr & Ar & Wr).
  exists h', h3, m, o. repeat (split; [assumption|]). assumption.
Qed.
Lemma one_entry_same sj sy jr d p h wls is L rs lf v : setting sj sy jr d p h wls is L rs lf v ->
  forall (u : tensor (cplx R)) n b, shp u = [1] -> (at_ u [0] * at_ u [0])%C = v -> (2 <= n)%Z -> backend_fits b L ->
  exists h1 h2 m1 m2, mie_ab sj sy jr p wls (NTen u) n b h = (h1, Ok m1) /\ mie_ab sj sy jr p wls NNone n b h = (h2, Ok m2) /\
    shp (m_a m1) = shp (m_a m2) /\ shp (m_b m1) = shp (m_b m2) /\
    (forall k i, k < List.length wls -> i < Z.to_nat n -> at_ (m_a m1) [k; i] = at_ (m_a m2) [k; i] /\ at_ (m_b m1) [k; i] = at_ (m_b m2) [k; i]) /\
    shp (m_eps m1) = [1] /\ at_ (m_eps m1) [0] = v.
Proof.
  intros St u n b Su Au Hn Hb. assert (Fu : first_entry u = at_ u [0]). { unfold first_entry, ndim. now rewrite Su. }
  assert (Hu : forall t : tensor (cplx R), shp t = [List.length wls] -> (forall k, k < List.length wls -> at_ t [k] = v) -> env_override t (NTen u) = Ok (tmap csqr u)).
  { apply (tensor_ok _ _ _ _ _ _ _ _ _ _ _ _ St u); [unfold numel; now rewrite Su|unfold ndim; rewrite Su; cbn; lia|now rewrite Fu]. }
  destruct (mie_ab_layout _ _ _ _ _ _ _ _ _ _ _ _ St (NTen u) n b (fun _ => tmap csqr u) Hn Hb Hu)
    as (h1 & h3 & m1 & o1 & t1 & Em1 & Er1 & Ia1 & Ib1 & _ & _ & _ & Ee & _).
  destruct (mie_ab_layout _ _ _ _ _ _ _ _ _ _ _ _ St NNone n b (fun t => t) Hn Hb (none_ok _ _ _ _ _ _ _ _ _ _ _ _ St))
    as (h2 & h4 & m2 & o2 & t2 & Em2 & Er2 & Ia2 & Ib2 & _).
  rewrite Er1 in Er2. injection Er2 as _ <-. exists h1, h2, m1, m2. split; [exact Em1|]. split; [exact Em2|].
  destruct Ia1 as [Sa1 Aa1], Ia2 as [Sa2 Aa2], Ib1 as [Sb1 Ab1], Ib2 as [Sb2 Ab2]. split; [congruence|]. split; [congruence|]. split.
  - intros k i Hk Hi. rewrite Aa1, Aa2, Ab1, Ab2 by assumption. split; reflexivity.
  - rewrite Ee. split; [exact Su|exact Au].
Qed.
Lemma preparation_number sj sy jr d p h wls is L rs lf v : setting sj sy jr d p h wls is L rs lf v -> forall z er,
  snd (tg_env p wls (NNum z) h) = Err er -> er = TypeError /\ (z * z)%C = v \/ er = AssertionError /\ (z * z)%C <> v.
Proof.
  intros St z er H. destruct (tg_env_ok _ _ _ _ _ _ _ _ _ _ _ _ St (NNum z)) as (h1 & t & _ & _ & Sh & At & Et).
  rewrite Et, (env_cases t _ v _ Sh (K_pos _ _ _ _ _ _ _ _ _ _ _ _ St) At) in H. cbn [snd] in H. destruct (ceqb v (csqr z)) eqn:E; injection H as <-; [left|right]; (split; [reflexivity|]).
  - apply ceqb_iff in E. now rewrite E.
  - intros Hz. assert (F : @ceqb R ROps v (csqr z) = true) by (apply ceqb_iff; now rewrite <- Hz). congruence.
Qed.
Lemma preparation_fails sj sy jr d p h wls is L rs lf v : setting sj sy jr d p h wls is L rs lf v -> forall z, exists er,
  snd (tg_env p wls (NNum z) h) = Err er.
Proof.
  intros St z. destruct (tg_env_ok _ _ _ _ _ _ _ _ _ _ _ _ St (NNum z)) as (h1 & t & _ & _ & Sh & At & Et).
  rewrite Et, (env_cases t _ v _ Sh (K_pos _ _ _ _ _ _ _ _ _ _ _ _ St) At). cbn [snd]. destruct (ceqb v (csqr z)); eexists; reflexivity.
Qed.
Lemma combine_rejects {T G E D : Type} (ss : list (@gpm T G E D)) env dev :
  (ss = [] -> combine_gpm ss env dev = Err ValueError) /\
  ((exists s l, In s ss /\ gp_dict s = Several l /\ List.length l <> 1) ->
   (forall s s', In s ss -> In s' ss -> shp (gp_r0 s) = shp (gp_r0 s')) -> combine_gpm ss env dev = Err ValueError) /\
  (forall s s', In s ss -> In s' ss -> shp (gp_r0 s) <> shp (gp_r0 s') -> combine_gpm ss env dev = Err RuntimeError).
Proof. split; [intros ->; reflexivity|]. split; [apply combine_bad|]. intros s s' H1 H2 H3. exact (combine_shapes ss s s' env dev H1 H2 H3). Qed.
Lemma zero_fill_back mask (vals : list C) : count_occ bool_dec mask true = List.length vals ->
  exists r, @zero_fill R ROps (List.length mask) mask vals = Ok r /\ map snd (filter fst (combine mask r)) = vals.
Proof.
  intros H. destruct (zero_fill_ok (List.length mask) mask vals (le_n _) ltac:(lia)) as (r & E & Hr & Ha). exists r. split; [exact E|]. now apply filter_rank with (List.length mask).
Qed.

(** a sphere of one layer at three wavelengths *)
Lemma one_sphere sj sy jr : exists p h is lf, setting sj sy jr "cpu"%string p h [400; 500; 600]%R is 1 [100%R] lf (RtoC 2 * RtoC 2)%C.
Proof.
  destruct (layered_setting sj sy jr [100]%R [RtoC 3] (RtoC 2) [400; 500; 600]%R) as (h & p & is & _ & St); try easy.
  - intros [|l] H; cbn in *; lra || lia.
  - intros [|[|[|k]]] H; cbn in *; lra || lia.
  - eauto.
Qed.
Lemma number_witness sj sy jr : exists p h wls is rs lf v z,
  setting sj sy jr "cpu"%string p h wls is 1 rs lf v /\ (z * z)%C = v /\ snd (mie_ab sj sy jr p wls (NNum z) 10 None h) = Err TypeError.
Proof.
  destruct (one_sphere sj sy jr) as (p & h & is & lf & St). exists p, h. do 6 eexists. split; [exact St|]. split; [reflexivity|]. now apply (override_number _ _ _ _ _ _ _ _ _ _ _ _ St).
Qed.
Lemma one_order_witness sj sy jr : exists p h wls is rs lf v h' m,
  setting sj sy jr "cpu"%string p h wls is 1 rs lf v /\ mie_ab sj sy jr p wls NNone 1 None h = (h', Ok m) /\ List.length wls = 3 /\ shp (m_a m) <> [3; 1].
Proof.
  destruct (one_sphere sj sy jr) as (p & h & is & lf & St). destruct (mie_ab_single _ _ _ _ _ _ _ _ _ _ _ _ St None I) as [H _]. destruct (H ltac:(cbn; lia)) as (h' & h3 & m & o & Em & _ & [Sa _] & _).
  exists p, h. do 5 eexists. exists h', m. split; [exact St|]. split; [exact Em|]. split; [reflexivity|]. rewrite Sa. discriminate.
Qed.
