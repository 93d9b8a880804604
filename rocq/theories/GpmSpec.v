(** What the training data of the GPM extraction has to be. *)
From Coq Require Import Reals ZArith List Bool String Arith Lia Lra.
From Coquelicot Require Import Coquelicot.
From Verif Require Import Ops ROps CLemmas Tensor TensorProofs ModelMaterial MaterialSpec ModelSpecial ModelMie ModelBatch ModelObs BroadcastSpec BatchReal
  ModelJn ModelNear ModelNearLegacy ModelNearPena NearLegacySpec NearField ModelParticle ParticleSpec 
  ModelParticleNear ModelTg TgSpec ModelGpm ModelGeom GeomSpec RotProofs IllumProofs.
Import ListNotations.
Open Scope nat_scope.
Open Scope list_scope.

Definition pt (t : tensor R) (i : nat) : vec := (at_ t [i; 0], at_ t [i; 1], at_ t [i; 2]).
(** one factor [c] brings the largest component of all four fields to modulus one (or is 10^30 for tiny fields) *)
Definition scaled (Q M : nat) (es hs ei hi : nat -> cvec) (c : R) : Prop :=
  (0 < c <= 10 ^ 30)%R /\
  (forall i z, i < Q -> In z (comps (es i)) \/ In z (comps (hs i)) -> (c * Cmod z <= 1)%R) /\
  (forall i z, i < M -> In z (comps (ei i)) \/ In z (comps (hi i)) -> (c * Cmod z <= 1)%R) /\
  ((c = 10 ^ 30)%R \/ exists i z, (c * Cmod z = 1)%R /\ (i < Q /\ (In z (comps (es i)) \/ In z (comps (hs i))) \/ i < M /\ (In z (comps (ei i)) \/ In z (comps (hi i))))).

(** The data for one wavelength: [nf r] are the fields at the point r of the sphere under a wave
    along z polarised along x; row 6 a + 2 (plane) + (0 for s, 1 for p) holds the fields under the
    wave of plane [pl], polarisation [s] and angle 2 pi a / N. *)
Definition plane_no (pl : plane) : nat := match pl with XZ => 0 | YZ => 1 | XY => 2 end.
Definition row_no (a : nat) (pl : plane) (s : bool) : nat := 6 * a + 2 * plane_no pl + (if s then 0 else 1).
Definition at_source (nf : vec -> @four R) (X : @four R -> cvec) (N a : nat) (pl : plane) (s : bool) (r : vec) : cvec :=
  let al := (2 * PI * INR a / INR N)%R in seen (fun r => X (nf r)) (frame_of (e_want pl s al) (k_want pl al)) r.
Record trained (nf : vec -> @four R) (N Q M : nat) (probe gpm : tensor R) (t : @training R) : Prop := {
  td_shapes : shp (tr_es t) = [6 * N; Q; 3] /\ shp (tr_hs t) = [6 * N; Q; 3] /\ shp (tr_ei t) = [6 * N; M; 3] /\ shp (tr_hi t) = [6 * N; M; 3];
  td_rows : forall a pl s, a < N -> exists c,
    scaled Q M (fun q => at_source nf q_Es N a pl s (pt probe q)) (fun q => at_source nf q_Hs N a pl s (pt probe q))
      (fun q => at_source nf q_Ei N a pl s (pt gpm q)) (fun q => at_source nf q_Hi N a pl s (pt gpm q)) c /\
    (forall q cp, q < Q -> cp < 3 ->
      at_ (tr_es t) [row_no a pl s; q; cp] = comp cp (scale_v c (at_source nf q_Es N a pl s (pt probe q))) /\
      at_ (tr_hs t) [row_no a pl s; q; cp] = comp cp (scale_v c (at_source nf q_Hs N a pl s (pt probe q)))) /\
    (forall q cp, q < M -> cp < 3 ->
      at_ (tr_ei t) [row_no a pl s; q; cp] = comp cp (scale_v c (at_source nf q_Ei N a pl s (pt gpm q))) /\
      at_ (tr_hi t) [row_no a pl s; q; cp] = comp cp (scale_v c (at_source nf q_Hi N a pl s (pt gpm q)))) }.
