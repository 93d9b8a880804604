(** Training data of the GPM extraction. *)
From Coq Require Import Reals ZArith List Bool String Arith Lia Lra.
From Coquelicot Require Import Coquelicot.
From Verif Require Import Ops ROps CLemmas Tensor TensorProofs ModelMaterial MaterialSpec ModelSpecial ModelMie ModelBatch ModelObs BroadcastSpec BatchReal
  ModelJn ModelNear ModelNearLegacy ModelNearPena NearLegacySpec NearField ModelParticle ParticleSpec ParticleProofs ParticleRun ParticleHist ParticleEnd
  ModelParticleNear ParticleNear ModelTg TgSpec TgProofs ModelGpm ModelGeom GeomSpec RotProofs IllumProofs GpmSpec.
Import ListNotations.
Open Scope nat_scope.
Open Scope list_scope.

(** ** squeezed field tensors: (Q, 3), or (3,) for a single point *)
Definition is_sq (Q : nat) (t : tensor C) (g : nat -> cvec) : Prop :=
  (Q <> 1 /\ shp t = [Q; 3] /\ forall i c, i < Q -> c < 3 -> at_ t [i; c] = comp c (g i)) \/
  (Q = 1 /\ shp t = [3] /\ forall c, c < 3 -> at_ t [c] = comp c (g 0)).
Lemma squeeze_sq Q (t : tensor C) g : shp t = [1; 1; Q; 3] -> (forall i c, i < Q -> c < 3 -> at_ t [0; 0; i; c] = comp c (g i)) -> is_sq Q (squeeze t) g.
Proof.
  intros Hs H. unfold squeeze. rewrite Hs. unfold squeeze_shape. cbn [filter Nat.eqb negb unsqueeze_ix hd tl].
  destruct (Nat.eqb_spec Q 1) as [->|HQ]; cbn [negb]; [right|left]; (split; [easy|]); cbn [shp at_]; (split; [reflexivity|]).
  - intros c Hc. cbn [hd tl]. apply H; lia.
  - intros i c Hi Hc. cbn [hd tl]. now apply H.
Qed.
Ltac cases3 c := destruct c as [|[|[|c]]]; [| | |exfalso; lia].
Lemma comp_field_mul (F : cvec) (m : mat) c : c < 3 -> comp c (@field_mul R ROps F m) =
  cadd (cadd (cmul (comp 0 F) (cofr (m_at m 0 c))) (cmul (comp 1 F) (cofr (m_at m 1 c)))) (cmul (comp 2 F) (cofr (m_at m 2 c))).
Proof. intros Hc. destruct F as [[x y] z], m as [[[[a b] c'] [[d e] f]] [[g h] i]]. cases3 c; reflexivity. Qed.
Lemma cmatmul_sq Q t g (m : mat) : is_sq Q t g -> exists u, @cmatmul R ROps t m = Ok u /\ is_sq Q u (fun i => @field_mul R ROps (g i) m).
Proof.
  intros [(HQ & Hs & H)|(HQ & Hs & H)]; unfold cmatmul, matmul3; change (@shp (cplx R) t) with (@shp C t); rewrite Hs; cbn [rev List.app Nat.eqb]; eexists; (split; [reflexivity|]); [left|right]; (split; [exact HQ|]); cbn [shp at_]; (split; [reflexivity|]).
  - intros i c Hi Hc. unfold ndim. change (@shp (cplx R) t) with (@shp C t). rewrite Hs. cbn [List.length Nat.sub set_at nth]. rewrite !H by lia. now rewrite comp_field_mul.
  - intros c Hc. unfold ndim. change (@shp (cplx R) t) with (@shp C t). rewrite Hs. cbn [List.length Nat.sub set_at nth]. rewrite !H by lia. now rewrite comp_field_mul.
Qed.
Lemma rmatmul_pt Q (t : tensor R) (m : mat) : shp t = [Q; 3] -> exists u, @rmatmul R ROps t m = Ok u /\ shp u = [Q; 3] /\ forall i, pt u i = app (tr m) (pt t i).
Proof.
  intros Hs. unfold rmatmul, matmul3. rewrite Hs. cbn [rev List.app Nat.eqb]. eexists. split; [reflexivity|]. split; [reflexivity|]. intros i. rewrite <- row_mul_app.
  unfold pt. cbn [at_]. unfold ndim. rewrite Hs. cbn [List.length Nat.sub set_at nth].
  destruct m as [[[[a b] c] [[d e] f]] [[g h] j]]. reflexivity.
Qed.
Lemma sq_entries Q t g : is_sq Q t g -> forall z, In z (entries t) <-> exists i, i < Q /\ In z (comps (g i)).
Proof.
  assert (Hin : forall (F : cvec) z, In z (comps F) <-> exists c, c < 3 /\ z = comp c F).
  { intros [[x y] w] z. cbn. split.
    - intros [<-|[<-|[<-|[]]]]; [exists 0|exists 1|exists 2]; (split; [lia|reflexivity]).
    - intros (c & Hc & ->). cases3 c; cbn; tauto. }
  intros [(HQ & Hs & H)|(HQ & Hs & H)] z; unfold entries; rewrite in_map_iff, Hs; split.
  - intros (ix & <- & Hix). apply in_indices in Hix. destruct ix as [|i [|c [|? ?]]]; cbn in Hix; try tauto. exists i. split; [tauto|]. apply Hin. exists c. split; [tauto|]. apply H; tauto.
  - intros (i & Hi & Hz). apply Hin in Hz. destruct Hz as (c & Hc & ->). exists [i; c]. split; [now apply H|]. apply in_indices. cbn. auto.
  - intros (ix & <- & Hix). apply in_indices in Hix. destruct ix as [|c [|? ?]]; cbn in Hix; try tauto. exists 0. split; [lia|]. apply Hin. exists c. split; [tauto|]. apply H; tauto.
  - intros (i & Hi & Hz). assert (i = 0) as -> by lia. apply Hin in Hz. destruct Hz as (c & Hc & ->). exists [c]. split; [now apply H|]. apply in_indices. cbn. auto.
Qed.
Lemma sq_tmap Q t g (f : C -> C) (h : cvec -> cvec) : (forall F c, c < 3 -> comp c (h F) = f (comp c F)) -> is_sq Q t g -> is_sq Q (tmap f t) (fun i => h (g i)).
Proof.
  intros Hf [(HQ & Hs & H)|(HQ & Hs & H)]; [left|right]; (split; [exact HQ|]); (split; [exact Hs|]); cbn [tmap at_].
  - intros i c Hi Hc. rewrite H, Hf by assumption. reflexivity.
  - intros c Hc. rewrite H, Hf by assumption. reflexivity.
Qed.
Lemma sq_broadcast Q t g : is_sq Q t g -> exists u, broadcast_to [Q; 3] t = Ok u /\ forall i c, i < Q -> c < 3 -> at_ u [i; c] = comp c (g i).
Proof.
  intros [(HQ & Hs & H)|(HQ & Hs & H)]; unfold broadcast_to, bcast_shape; rewrite Hs.
  - cbn [rev List.app bcast_rev]. unfold bcast_dim. rewrite !Nat.eqb_refl. cbn [option_map rev List.app shape_eqb]. rewrite Nat.eqb_refl. cbn [andb Nat.eqb].
    eexists. split; [reflexivity|]. intros i c Hi Hc. cbn [at_]. unfold bcast_ix. cbn [List.length Nat.sub skipn clip Nat.eqb]. rewrite (proj2 (Nat.eqb_neq Q 1) HQ). now apply H.
  - subst Q. cbn. eexists. split; [reflexivity|]. intros i c Hi Hc. cbn [at_]. unfold bcast_ix. cbn. assert (i = 0) as -> by lia. now apply H.
Qed.

(** ** the common norm *)
Lemma tmax_sq Q t g : is_sq Q t g -> 1 <= Q -> exists m, tmax (tmap cabs t) = Ok m /\
  (forall i z, i < Q -> In z (comps (g i)) -> (Cmod z <= m)%R) /\ exists i z, i < Q /\ In z (comps (g i)) /\ Cmod z = m.
Proof.
  intros Hs HQ. unfold tmax. pose proof (sq_entries Q t g Hs) as H.
  assert (E : entries (tmap cabs t) = map Cmod (entries t)). { unfold entries, tmap. cbn [shp at_]. rewrite map_map. apply map_ext. intros ix. now rewrite cabs_C. }
  rewrite E. destruct (entries t) as [|z0 zs] eqn:Ee.
  - exfalso. destruct (g 0) as [[x y] w] eqn:Eg. apply (proj2 (H x)). exists 0. split; [lia|]. rewrite Eg. now left.
  - cbn [map]. eexists. split; [reflexivity|]. destruct (fold_rmax_ge (map Cmod zs) (Cmod z0)) as [G1 G2]. split.
    + intros i z Hi Hz. assert (Hin : In z (z0 :: zs)) by (apply H; eauto). destruct Hin as [->|Hin]; [exact G1|]. apply G2. now apply in_map.
    + destruct (fold_rmax_in (map Cmod zs) (Cmod z0)) as [->|Hin].
      * destruct (proj1 (H z0) (or_introl eq_refl)) as (i & Hi & Hz). eauto.
      * apply in_map_iff in Hin. destruct Hin as (z & <- & Hz). destruct (proj1 (H z) (or_intror Hz)) as (i & Hi & Hz'). exists i, z. auto.
Qed.
Definition tenth30 : @rtenth R ROps 30 = (/ 10 ^ 30)%R.
Proof. unfold rtenth. cbn [rdiv rone rofZ ROps]. unfold Rdiv. rewrite Rmult_1_l. f_equal. rewrite <- pow_IZR. reflexivity. Qed.
Lemma rmax_R a b : @rmax R ROps a b = Rmax a b.
Proof. unfold rmax, Rmax. cbn [rleb ROps]. unfold Rleb. now destruct (Rle_dec a b). Qed.
(* [c] is the common factor of the four fields of one illumination *)
Lemma normalise_sq Q M t1 t2 t3 t4 es hs ei hi : 1 <= Q -> 1 <= M -> is_sq Q t1 es -> is_sq Q t2 hs -> is_sq M t3 ei -> is_sq M t4 hi ->
  exists c u1 u2 u3 u4, scaled Q M es hs ei hi c /\ @normalise_t R ROps [t1; t2; t3; t4] = Ok [u1; u2; u3; u4] /\
    is_sq Q u1 (fun i => scale_v c (es i)) /\ is_sq Q u2 (fun i => scale_v c (hs i)) /\ is_sq M u3 (fun i => scale_v c (ei i)) /\ is_sq M u4 (fun i => scale_v c (hi i)).
Proof.
  intros HQ HM S1 S2 S3 S4.
  destruct (tmax_sq _ _ _ S1 HQ) as (m1 & E1 & U1 & i1 & z1 & I1 & Z1 & A1), (tmax_sq _ _ _ S2 HQ) as (m2 & E2 & U2 & i2 & z2 & I2 & Z2 & A2),
    (tmax_sq _ _ _ S3 HM) as (m3 & E3 & U3 & i3 & z3 & I3 & Z3 & A3), (tmax_sq _ _ _ S4 HM) as (m4 & E4 & U4 & i4 & z4 & I4 & Z4 & A4).
  set (n := Rmax (Rmax (Rmax (Rmax m1 m2) m3) m4) (/ 10 ^ 30)).
  assert (En : @field_norm R ROps [t1; t2; t3; t4] = Ok n).
  { unfold field_norm. cbn [map_res]. rewrite E1, E2, E3, E4. cbn [bind tl hd fold_left]. rewrite !rmax_R, tenth30. reflexivity. }
  assert (Hp : (0 < / 10 ^ 30)%R) by (apply Rinv_0_lt_compat, pow_lt; lra).
  assert (Hn : (/ 10 ^ 30 <= n)%R) by apply Rmax_r.
  assert (B : (m1 <= n /\ m2 <= n /\ m3 <= n /\ m4 <= n)%R).
  { unfold n. pose proof (Rmax_l m1 m2). pose proof (Rmax_r m1 m2). pose proof (Rmax_l (Rmax m1 m2) m3). pose proof (Rmax_r (Rmax m1 m2) m3).
    pose proof (Rmax_l (Rmax (Rmax m1 m2) m3) m4). pose proof (Rmax_r (Rmax (Rmax m1 m2) m3) m4). pose proof (Rmax_l (Rmax (Rmax (Rmax m1 m2) m3) m4) (/ 10 ^ 30)). lra. }
  exists (/ n)%R.
  assert (Hle : forall x, (x <= n -> / n * x <= 1)%R). { intros x Hx. apply Rmult_le_reg_l with n; [lra|]. rewrite <- Rmult_assoc, Rinv_r by lra. lra. }
  assert (Hsc : forall (F : cvec) c, c < 3 -> comp c (scale_v (/ n) F) = @cdiv R ROps (comp c F) (cofr n)).
  { intros [[x y] w] c Hc. assert (Hn0 : RtoC n <> RtoC 0) by (apply RtoC_neq; lra). unfold scale_v, csc. cases3 c; cbn [comp v1 v2 v3 fst snd]; rewrite RtoC_inv by lra; toC; match goal with |- ?x = ?y => change (@eq C x y) end; field; exact Hn0. }
  do 4 eexists. split; [|split; [unfold normalise_t; rewrite En; cbn [bind map]; reflexivity|]].
  - split; [|split; [|split]].
    + split; [apply Rinv_0_lt_compat; lra|]. rewrite <- (Rinv_inv (10 ^ 30)). apply Rinv_le_contravar; assumption.
    + intros i z Hi [Hz|Hz]; apply Hle; [specialize (U1 i z Hi Hz)|specialize (U2 i z Hi Hz)]; lra.
    + intros i z Hi [Hz|Hz]; apply Hle; [specialize (U3 i z Hi Hz)|specialize (U4 i z Hi Hz)]; lra.
    + assert (Hc : n = (/ 10 ^ 30)%R \/ n = m1 \/ n = m2 \/ n = m3 \/ n = m4).
      { unfold n, Rmax. repeat match goal with |- context [Rle_dec ?a ?b] => destruct (Rle_dec a b) end; auto. }
      assert (H1 : (/ n * n = 1)%R) by (apply Rinv_l; lra).
      destruct Hc as [Hc|Hc]; [left; rewrite Hc; apply Rinv_inv|right].
      destruct Hc as [Hc|[Hc|[Hc|Hc]]]; [exists i1, z1|exists i2, z2|exists i3, z3|exists i4, z4]; (split; [congruence|]); auto 6.
  - repeat split; (eapply sq_tmap; [|eassumption]); intros; now apply Hsc.
Qed.
