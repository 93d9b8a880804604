(** C105: automatic support points of the GPM extraction. *)
From Coq Require Import Reals ZArith List Bool String Arith Lra Lia.
From Coquelicot Require Import Complex.
From Verif Require Import Ops ROps Tensor ModelMaterial ModelSpecial ModelMie ModelBatch ModelNear NearField NearLegacySpec IllumProofs ModelParticle ParticleSpec
  ModelParticleNear ModelTg TgSpec TgProofs ModelGeom ModelGpm GpmSpec AutogradSpec ModelSupport SupportSpec SupportProofs SupportEnd PropsTg.
Import ListNotations.
Open Scope R_scope.

(** for every number of points and every radius: that many different points,
    centred, all inside the sphere with a margin of a tenth of its radius *)
Theorem C105_points : forall z r, (1 <= z)%Z -> 0 < r -> exists l, @support_points R ROps z r = Ok l /\ good_support (Z.to_nat z) r l.
Proof. exact support_good. Qed.
Print Assumptions C105_points.

(** the sequence behind them: reversed digits *)
Theorem C105_sequence : forall b q r, (2 <= b)%nat -> (r < b)%nat ->
  @van_der_corput R ROps b 0 = 0 /\ @van_der_corput R ROps b (b * q + r) = (INR r + @van_der_corput R ROps b q) / INR b.
Proof. exact (fun b q r Hb Hr => conj (V_0 b) (V_step b q r Hb Hr)). Qed.
Print Assumptions C105_sequence.

(** counts below one are rejected *)
Theorem C105_rejected : forall z r, (z <= 0)%Z -> @support_points R ROps z r = Err ValueError.
Proof. exact support_none. Qed.
Print Assumptions C105_rejected.

(** the extraction called with a number of points (an int, a float rounded
    down, or None for 36) obtains the training data of C89 at such points *)
Theorem C105_extraction : forall sj sy jr e10 pi d p h wls is L rs lf v, setting sj sy jr d p h wls is L rs lf v -> forall n b N probe Q z a,
  (1 <= n)%Z -> lower (resolve_backend p b) = "pena"%string -> (-1 <= N)%Z -> shp probe = [Q; 3]%nat -> (1 <= Q)%nat -> (1 <= z)%Z -> 0 < nth (L - 1) rs 0 ->
  a = SInt z \/ (exists x, a = SFloat x /\ IZR z <= x < IZR z + 1) \/ (a = SNone /\ z = 36%Z) ->
  exists g h' ts l, good_support (Z.to_nat z) (nth (L - 1) rs 0) l /\ shp g = [Z.to_nat z; 3]%nat /\ (forall i, (i < Z.to_nat z)%nat -> pt g i = nth i l (0, 0, 0)) /\
  gpm_extract e10 sj sy jr pi p wls NNone N probe a (Some n) b h = (h', Ok ts) /\ List.length ts = List.length wls /\
  forall k t, nth_error ts k = Some t -> tr_wl t = nth k wls 0 /\ tr_env t = fst v /\
    trained (pena_fields (Z.to_nat n) 15 e10 (2 * PI / nth k wls 0)%R v (nth 0 rs 0%R, lf 0%nat k) (map (fun l => (nth l rs 0%R, lf l k)) (seq 1 (L - 1))) (RtoC 1)) (Z.to_nat N) Q (Z.to_nat z) probe g t.
Proof. exact extract_fields. Qed.
Print Assumptions C105_extraction.

Theorem C105_extraction_rejected : forall sj sy jr e10 pi d p h wls is L rs lf v, setting sj sy jr d p h wls is L rs lf v -> forall n b N probe z, (z <= 0)%Z ->
  snd (gpm_extract e10 sj sy jr pi p wls NNone N probe (SInt z) n b h) = Err ValueError.
Proof. exact extract_none. Qed.
Print Assumptions C105_extraction_rejected.

(** the first four points of the sequence *)
Example C105_first : @halton R ROps 4 = [(0, 0, 0); (1 / 2, 1 / 3, 1 / 5); (1 / 4, 2 / 3, 2 / 5); (3 / 4, 1 / 9, 3 / 5)].
Proof.
  unfold halton. cbn [map seq]. unfold van_der_corput. cbn [vdc_loop Nat.eqb Nat.div Nat.modulo Nat.divmod Nat.sub fst snd].
  cbn [radd rmul rdiv rone rzero ROps]. rewrite !rofn_R. cbn [INR].
  repeat match goal with |- _ :: _ = _ :: _ => apply f_equal2 | |- (_, _) = (_, _) => apply f_equal2 end; try reflexivity; field.
Qed.

(** three layers at two wavelengths, the default number of points *)
Example C105_instance : forall sj sy jr pi, exists p h h' t1 t2 l,
  let probe := mkT [2; 3]%nat (fun ix => match ix with [0; 0]%nat => 150 | [1; 1]%nat => 170 | _ => 20 end) in
  gpm_extract (/ 10) sj sy jr pi p [500; 600] NNone 4 probe SNone (Some 3%Z) None h = (h', Ok [t1; t2]) /\ shp (tr_ei t1) = [24; 36; 3]%nat /\ good_support 36 100 l.
Proof.
  intros sj sy jr pi. destruct (C58_settings_exist sj sy jr [50; 80; 100]%R [RtoC 2; RtoC 3; RtoC 2] (RtoC 1) [500; 600]%R) as (h & p & is & _ & St); try easy.
  { intros [|[|[|l]]] H; cbn in *; lra || lia. }
  { intros [|[|k]] H; cbn in *; lra || lia. }
  set (probe := mkT [2; 3]%nat (fun ix => match ix with [0; 0]%nat => 150 | [1; 1]%nat => 170 | _ => 20 end)).
  destruct (C105_extraction _ _ _ (/ 10)%R pi _ _ _ _ _ _ _ _ _ St 3%Z None 4%Z probe 2%nat 36%Z SNone) as (g & h' & ts & l & Gl & _ & _ & E & Hl & G); try (reflexivity || lia || (cbn; lra) || tauto).
  { unfold resolve_backend. now rewrite (numel_r _ _ _ _ _ _ _ _ _ _ _ _ St). }
  destruct ts as [|t1 [|t2 [|]]]; try discriminate. destruct (G 0%nat t1 eq_refl) as (_ & _ & T1).
  exists p, h, h', t1, t2, l. cbv zeta. split; [exact E|]. split; [exact (proj1 (proj2 (proj2 (td_shapes _ _ _ _ _ _ _ T1))))|exact Gl].
Qed.
