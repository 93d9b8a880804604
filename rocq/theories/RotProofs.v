(** Basis change of fields, rotation matrices, illumination frames and sets. *)
From Coq Require Import Reals ZArith List Bool String Arith Lia Lra.
From Coquelicot Require Import Coquelicot.
From Verif Require Import Ops ROps CLemmas CTrig ModelSpecial ModelMie ModelBatch ModelNear NearField ModelGeom GeomSpec GeomProofs.
Import ListNotations.
Open Scope R_scope.

Ltac pairs := repeat match goal with |- (_, _) = (_, _) => apply injective_projections; cbn [fst snd] end.
Lemma pair3 {A} (a b c d e f : A) : (a, b, c) = (d, e, f) -> a = d /\ b = e /\ c = f.
Proof. intros H. injection H. auto. Qed.

(** ** rotations preserve products *)
Lemma ortho_eqs (m : mat) : mmul (tr m) m = id3 ->
  let '((a, b, c), (d, e, f), (g, h, i)) := m in
  (a * a + d * d + g * g = 1 /\ b * b + e * e + h * h = 1 /\ c * c + f * f + i * i = 1) /\
  (a * b + d * e + g * h = 0 /\ a * c + d * f + g * i = 0 /\ b * c + e * f + h * i = 0).
Proof.
  destruct m as [[[[a b] c] [[d e] f]] [[g h] i]]. unfold mmul, tr, app, dot, id3. intros H.
  apply pair3 in H. destruct H as (H1 & H2 & H3). apply pair3 in H1, H2, H3. lra.
Qed.
Lemma inner_rot m u v : rotation m -> inner (capp m u) (capp m v) = inner u v.
Proof.
  intros (_ & H & _). apply ortho_eqs in H. destruct m as [[[[a b] c] [[d e] f]] [[g h] i]]. destruct u as [[u1 u2] u3], v as [[w1 w2] w3].
  destruct H as ((H1 & H2 & H3) & (H4 & H5 & H6)). unfold inner, capp.
  repeat rewrite Cconj_plus. repeat rewrite Cconj_mult. repeat rewrite Cconj_R.
  transitivity (Cconj u1 * w1 * RtoC (a * a + d * d + g * g) + Cconj u2 * w2 * RtoC (b * b + e * e + h * h) + Cconj u3 * w3 * RtoC (c * c + f * f + i * i) +
    (Cconj u1 * w2 + Cconj u2 * w1) * RtoC (a * b + d * e + g * h) + (Cconj u1 * w3 + Cconj u3 * w1) * RtoC (a * c + d * f + g * i) +
    (Cconj u2 * w3 + Cconj u3 * w2) * RtoC (b * c + e * f + h * i))%C.
  - rewrite ?RtoC_plus, ?RtoC_mult. ring.
  - rewrite H1, H2, H3, H4, H5, H6. ring.
Qed.
Lemma dot_rot m u v : rotation m -> dot (app m u) (app m v) = dot u v.
Proof.
  intros (_ & H & _). apply ortho_eqs in H. destruct m as [[[[a b] c] [[d e] f]] [[g h] i]]. destruct u as [[u1 u2] u3], v as [[w1 w2] w3].
  destruct H as ((H1 & H2 & H3) & (H4 & H5 & H6)). unfold dot, app, dot.
  transitivity (u1 * w1 * (a * a + d * d + g * g) + u2 * w2 * (b * b + e * e + h * h) + u3 * w3 * (c * c + f * f + i * i) +
    (u1 * w2 + u2 * w1) * (a * b + d * e + g * h) + (u1 * w3 + u3 * w1) * (a * c + d * f + g * i) + (u2 * w3 + u3 * w2) * (b * c + e * f + h * i)); [ring|].
  rewrite H1, H2, H3, H4, H5, H6. ring.
Qed.
Lemma app_dots m u : app (tr m) u = (dot (app m (1, 0, 0)) u, dot (app m (0, 1, 0)) u, dot (app m (0, 0, 1)) u).
Proof. destruct m as [[[[a b] c] [[d e] f]] [[g h] i]], u as [[u1 u2] u3]. unfold app, tr, dot. pairs; ring. Qed.
Lemma tr_mmul m n : tr (mmul m n) = mmul (tr n) (tr m).
Proof. destruct m as [[[[a b] c] [[d e] f]] [[g h] i]], n as [[[[a' b'] c'] [[d' e'] f']] [[g' h'] i']]. unfold mmul, tr, app, dot. pairs; ring. Qed.
Lemma app_mmul m n u : app (mmul m n) u = app m (app n u).
Proof. destruct m as [[[[a b] c] [[d e] f]] [[g h] i]], n as [[[[a' b'] c'] [[d' e'] f']] [[g' h'] i']], u as [[x y] z]. unfold mmul, app, tr, dot. pairs; ring. Qed.
Lemma capp_mmul m n u : capp (mmul m n) u = capp m (capp n u).
Proof.
  destruct m as [[[[a b] c] [[d e] f]] [[g h] i]], n as [[[[a' b'] c'] [[d' e'] f']] [[g' h'] i']], u as [[x y] z]. unfold mmul, app, tr, dot, capp. rewrite ?RtoC_plus, ?RtoC_mult.
  pairs; ring.
Qed.
Lemma app_id u : app id3 u = u.
Proof. destruct u as [[x y] z]. unfold app, id3, dot. pairs; ring. Qed.

(** ** field basis change *)
Definition sph_basis (th ph : R) : mat := tr (e_r th ph, e_th th ph, e_ph th ph).
Lemma field_is_capp th ph (E : @vec3 R) : @field_to_xyz R ROps th ph E = capp (sph_basis th ph) E.
Proof.
  destruct E as [[a b] c]. unfold field_to_xyz, sph_basis, tr, e_r, e_th, e_ph, capp, v1, v2, v3. cbn [fst snd rsin rcos ROps].
  pairs; match goal with |- ?x = ?y => change (@eq C x y) end; toC; cbn [ropp rmul rzero ROps]; ring.
Qed.
Lemma basis_rotation th ph : rotation (sph_basis th ph).
Proof.
  pose proof (sin2_cos2 th) as E1. pose proof (sin2_cos2 ph) as E2. unfold Rsqr in *.
  assert (A1 : sin th * sin th = 1 - cos th * cos th) by lra. assert (A2 : sin ph * sin ph = 1 - cos ph * cos ph) by lra.
  unfold rotation, sph_basis, mmul, tr, e_r, e_th, e_ph, app, dot, det, cross, dot, id3. repeat split; pairs; ring [A1 A2].
Qed.
Lemma basis_radial th ph r : @eq (R * R * R) (@sph_to_xyz R ROps r th ph) (app (sph_basis th ph) (r, 0, 0)).
Proof. unfold sph_to_xyz, sph_basis, app, tr, e_r, e_th, e_ph, dot. cbn [rmul rsin rcos ROps]. pairs; ring. Qed.
Lemma field_unit th ph : @field_to_xyz R ROps th ph (RtoC 1, RtoC 0, RtoC 0) = cv_of (e_r th ph) /\ @field_to_xyz R ROps th ph (RtoC 0, RtoC 1, RtoC 0) = cv_of (e_th th ph) /\
  @field_to_xyz R ROps th ph (RtoC 0, RtoC 0, RtoC 1) = cv_of (e_ph th ph).
Proof.
  rewrite !field_is_capp. unfold capp, sph_basis, tr, cv_of, e_r, e_th, e_ph. repeat split; pairs; match goal with |- ?x = ?y => change (@eq C x y) end; ring.
Qed.
Lemma unit_frame th ph : cross (e_r th ph) (e_th th ph) = e_ph th ph /\ dot (e_r th ph) (e_r th ph) = 1.
Proof.
  pose proof (sin2_cos2 th) as E1. pose proof (sin2_cos2 ph) as E2. unfold Rsqr in *.
  assert (A1 : sin th * sin th = 1 - cos th * cos th) by lra. assert (A2 : sin ph * sin ph = 1 - cos ph * cos ph) by lra.
  unfold cross, e_r, e_th, e_ph, dot. split; [pairs|]; ring [A1 A2].
Qed.
Lemma field_products th ph (E F : @vec3 R) : inner (@field_to_xyz R ROps th ph E) (@field_to_xyz R ROps th ph F) = inner E F.
Proof. rewrite !field_is_capp. apply inner_rot, basis_rotation. Qed.

(** ** rotation matrices *)
Lemma rotations a : rotation (@rotation_x R ROps a) /\ rotation (@rotation_y R ROps a) /\ rotation (@rotation_z R ROps a).
Proof.
  pose proof (sin2_cos2 a) as E1. unfold Rsqr in *. assert (A1 : sin a * sin a = 1 - cos a * cos a) by lra.
  unfold rotation, rotation_x, rotation_y, rotation_z, mmul, tr, app, dot, det, cross, dot, id3. cbn [rsin rcos rone rzero ropp ROps].
  repeat split; pairs; ring [A1].
Qed.
Lemma rotation_add a b : mmul (@rotation_x R ROps a) (@rotation_x R ROps b) = @rotation_x R ROps (a + b) /\
  mmul (@rotation_y R ROps a) (@rotation_y R ROps b) = @rotation_y R ROps (a + b) /\ mmul (@rotation_z R ROps a) (@rotation_z R ROps b) = @rotation_z R ROps (a + b).
Proof.
  unfold rotation_x, rotation_y, rotation_z, mmul, tr, app, dot. cbn [rsin rcos rone rzero ropp ROps]. rewrite sin_plus, cos_plus. repeat split; pairs; ring.
Qed.
Lemma rotation_axis a : app (@rotation_x R ROps a) (1, 0, 0) = (1, 0, 0) /\ app (@rotation_y R ROps a) (0, 1, 0) = (0, 1, 0) /\ app (@rotation_z R ROps a) (0, 0, 1) = (0, 0, 1).
Proof. unfold rotation_x, rotation_y, rotation_z, app, dot. cbn [rsin rcos rone rzero ropp ROps]. repeat split; pairs; ring. Qed.
Lemma rotation_sense a : app (@rotation_x R ROps a) (0, 1, 0) = (0, cos a, sin a) /\ app (@rotation_y R ROps a) (0, 0, 1) = (sin a, 0, cos a) /\ app (@rotation_z R ROps a) (1, 0, 0) = (cos a, sin a, 0).
Proof. unfold rotation_x, rotation_y, rotation_z, app, dot. cbn [rsin rcos rone rzero ropp ROps]. repeat split; pairs; ring. Qed.

(** ** illumination frames *)
Lemma runit_unit (v : @rvec3 R) : dot v v = 1 -> @runit R ROps v = v.
Proof.
  destruct v as [[a b] c]. unfold dot, runit, rnorm, x1, x2, x3. cbn [fst snd]. intros H. rewrite norm3_def, H, sqrt_1. cbn [rdiv ROps]. pairs; field.
Qed.
Definition frame_of (e k : vec) : mat := tr (e, cross k e, k).
Lemma frame_dirs_ok al p s : @frame_dirs R ROps al (plane_name p) (pol_name s) = Ok (e_want p s al, k_want p al).
Proof.
  destruct p, s; unfold frame_dirs, plane_name, pol_name, e_want, k_want, comb, first_axis, second_axis, normal_axis; cbn [String.eqb Ascii.eqb Bool.eqb rsin rcos rone rzero ropp ROps];
    repeat f_equal; ring.
Qed.
Lemma want_unit p s al : dot (e_want p s al) (e_want p s al) = 1 /\ dot (k_want p al) (k_want p al) = 1 /\ dot (e_want p s al) (k_want p al) = 0.
Proof.
  pose proof (sin2_cos2 al) as E1. unfold Rsqr in *. assert (A1 : sin al * sin al = 1 - cos al * cos al) by lra.
  destruct p, s; unfold e_want, k_want, comb, first_axis, second_axis, normal_axis, dot; repeat split; ring [A1].
Qed.
Lemma cross_unit u v : dot u u = 1 -> dot v v = 1 -> dot u v = 0 -> dot (cross u v) (cross u v) = 1.
Proof.
  destruct u as [[a b] c], v as [[d e] f]. unfold dot, cross. intros H1 H2 H3.
  replace ((b * f - c * e) * (b * f - c * e) + (c * d - a * f) * (c * d - a * f) + (a * e - b * d) * (a * e - b * d)) with
    ((a * a + b * b + c * c) * (d * d + e * e + f * f) - (a * d + b * e + c * f) * (a * d + b * e + c * f)) by ring. rewrite H1, H2, H3. ring.
Qed.
Lemma dot_sym u v : dot u v = dot v u.
Proof. destruct u as [[a b] c], v as [[d e] f]. unfold dot. ring. Qed.
Lemma pwr_ok al p s : @plane_wave_rotation R ROps al (plane_name p) (pol_name s) = Ok (frame_of (e_want p s al) (k_want p al)).
Proof.
  unfold plane_wave_rotation. rewrite frame_dirs_ok. cbn [bind fst snd]. destruct (want_unit p s al) as (H1 & H2 & H3).
  rewrite (runit_unit (e_want p s al) H1), (runit_unit (k_want p al) H2).
  assert (E : @rneg R ROps (@rcross R ROps (e_want p s al) (k_want p al)) = cross (k_want p al) (e_want p s al)).
  { destruct (e_want p s al) as [[a b] c], (k_want p al) as [[d e] f]. unfold rneg, rcross, cross, x1, x2, x3. cbn [fst snd ropp rmul ROps]. unfold rsub. cbn [radd ropp ROps]. pairs; ring. }
  rewrite E, runit_unit. { unfold frame_of. f_equal. destruct (e_want p s al) as [[a b] c], (cross _ _) as [[g h] i], (k_want p al) as [[d e] f]. reflexivity. }
  apply cross_unit; auto. now rewrite dot_sym.
Qed.
Lemma frame_rotation e k : dot e e = 1 -> dot k k = 1 -> dot e k = 0 -> rotation (frame_of e k) /\
  app (frame_of e k) (0, 0, 1) = k /\ app (frame_of e k) (1, 0, 0) = e /\ app (frame_of e k) (0, 1, 0) = cross k e.
Proof.
  intros He Hk Hek. set (h := cross k e). assert (Hh : dot h h = 1) by (apply cross_unit; auto; now rewrite dot_sym).
  assert (Hhe : dot h e = 0) by (unfold h; destruct e as [[a b] c], k as [[d f] g]; unfold dot, cross; ring).
  assert (Hhk : dot h k = 0) by (unfold h; destruct e as [[a b] c], k as [[d f] g]; unfold dot, cross; ring).
  assert (Hd : dot e (cross h k) = 1).
  { transitivity (dot e e * dot k k - dot e k * dot e k); [|rewrite He, Hk, Hek; ring]. unfold h. destruct e as [[a b] c], k as [[d f] g]. unfold dot, cross. ring. }
  assert (Hm : mmul (tr (frame_of e k)) (frame_of e k) = id3).
  { unfold frame_of. fold h. replace (tr (tr (e, h, k))) with (e, h, k) by (destruct e as [[a b] c], h as [[x y] z], k as [[d f] g]; reflexivity).
    transitivity ((dot e e, dot h e, dot e k), (dot h e, dot h h, dot h k), (dot e k, dot h k, dot k k)).
    - destruct e as [[a b] c], h as [[x y] z], k as [[d f] g]. unfold mmul, tr, app, dot. pairs; ring.
    - rewrite He, Hh, Hk, Hhe, Hek, Hhk. reflexivity. }
  assert (Hdet : det (frame_of e k) = 1).
  { rewrite <- Hd. unfold frame_of. fold h. destruct e as [[a b] c], h as [[x y] z], k as [[d f] g]. unfold det, tr, dot, cross. ring. }
  split; [split; [|split; [exact Hm|exact Hdet]]|].
  - (* a left inverse of a matrix with determinant 1 is a right inverse *)
    clear - Hm Hdet. set (M := frame_of e k) in *. clearbody M. apply ortho_eqs in Hm. destruct M as [[[[a b] c] [[d e'] f]] [[g h] i]].
    destruct Hm as ((H1 & H2 & H3) & (H4 & H5 & H6)). unfold det, dot, cross in Hdet.
    unfold mmul, tr, app, dot, id3.
    (* the transpose equals the adjugate *)
    assert (A : forall u v w, a * u + d * v + g * w = 0 -> b * u + e' * v + h * w = 0 -> c * u + f * v + i * w = 0 -> u = 0 /\ v = 0 /\ w = 0).
    { intros u v w K1 K2 K3. assert (D : a * (e' * i - f * h) + b * (f * g - d * i) + c * (d * h - e' * g) = 1) by exact Hdet.
      assert (Eu : u * (a * (e' * i - f * h) + b * (f * g - d * i) + c * (d * h - e' * g)) = 0).
      { transitivity ((e' * i - f * h) * (a * u + d * v + g * w) + (f * g - d * i) * (b * u + e' * v + h * w) + (d * h - e' * g) * (c * u + f * v + i * w)); [ring|]. rewrite K1, K2, K3. ring. }
      assert (Ev : v * (a * (e' * i - f * h) + b * (f * g - d * i) + c * (d * h - e' * g)) = 0).
      { transitivity ((c * h - b * i) * (a * u + d * v + g * w) + (a * i - c * g) * (b * u + e' * v + h * w) + (b * g - a * h) * (c * u + f * v + i * w)); [ring|]. rewrite K1, K2, K3. ring. }
      assert (Ew : w * (a * (e' * i - f * h) + b * (f * g - d * i) + c * (d * h - e' * g)) = 0).
      { transitivity ((b * f - c * e') * (a * u + d * v + g * w) + (c * d - a * f) * (b * u + e' * v + h * w) + (a * e' - b * d) * (c * u + f * v + i * w)); [ring|]. rewrite K1, K2, K3. ring. }
      rewrite D in Eu, Ev, Ew. lra. }
    assert (B1 := A (a * a + b * b + c * c - 1) (d * a + e' * b + f * c) (g * a + h * b + i * c)).
    assert (B2 := A (a * d + b * e' + c * f) (d * d + e' * e' + f * f - 1) (g * d + h * e' + i * f)).
    assert (B3 := A (a * g + b * h + c * i) (d * g + e' * h + f * i) (g * g + h * h + i * i - 1)).
    destruct B1 as (P1 & P2 & P3).
    1: transitivity (a * (a * a + d * d + g * g - 1) + b * (a * b + d * e' + g * h) + c * (a * c + d * f + g * i)); [ring|rewrite H1, H4, H5; ring].
    1: transitivity (a * (a * b + d * e' + g * h) + b * (b * b + e' * e' + h * h - 1) + c * (b * c + e' * f + h * i)); [ring|rewrite H2, H4, H6; ring].
    1: transitivity (a * (a * c + d * f + g * i) + b * (b * c + e' * f + h * i) + c * (c * c + f * f + i * i - 1)); [ring|rewrite H3, H5, H6; ring].
    destruct B2 as (Q1 & Q2 & Q3).
    1: transitivity (d * (a * a + d * d + g * g - 1) + e' * (a * b + d * e' + g * h) + f * (a * c + d * f + g * i)); [ring|rewrite H1, H4, H5; ring].
    1: transitivity (d * (a * b + d * e' + g * h) + e' * (b * b + e' * e' + h * h - 1) + f * (b * c + e' * f + h * i)); [ring|rewrite H2, H4, H6; ring].
    1: transitivity (d * (a * c + d * f + g * i) + e' * (b * c + e' * f + h * i) + f * (c * c + f * f + i * i - 1)); [ring|rewrite H3, H5, H6; ring].
    destruct B3 as (S1 & S2 & S3).
    1: transitivity (g * (a * a + d * d + g * g - 1) + h * (a * b + d * e' + g * h) + i * (a * c + d * f + g * i)); [ring|rewrite H1, H4, H5; ring].
    1: transitivity (g * (a * b + d * e' + g * h) + h * (b * b + e' * e' + h * h - 1) + i * (b * c + e' * f + h * i)); [ring|rewrite H2, H4, H6; ring].
    1: transitivity (g * (a * c + d * f + g * i) + h * (b * c + e' * f + h * i) + i * (c * c + f * f + i * i - 1)); [ring|rewrite H3, H5, H6; ring].
    pairs; lra.
  - unfold frame_of. fold h. destruct e as [[a b] c], h as [[x y] z], k as [[d f] g]. unfold app, tr, dot. repeat split; pairs; ring.
Qed.
