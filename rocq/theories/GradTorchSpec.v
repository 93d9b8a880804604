(** Specification for C106: where the torch backend is smooth. *)
From Coq Require Import Reals List Arith.
From Coquelicot Require Import Coquelicot.
From Verif Require Import Ops ROps Spec ModelSpecial ModelMie ModelBatch ModelGrad GradSpec TorchSpec.
Import ListNotations.
Open Scope C_scope.

(* all fields of the record of radial functions, all eight coefficients *)
Definition carries_radial (t0 : R) (f : R -> @radial R) (d : @radial dual) : Prop :=
  let cc g e := ccarries t0 (fun t => g (f t)) (e d) in
  (cc m1 m1 /\ cc m2 m2) /\ (cc psi_y psi_y /\ cc dpsi_y dpsi_y /\ cc xi_y xi_y /\ cc dxi_y dxi_y) /\ (cc psi_m1x psi_m1x /\ cc dpsi_m1x dpsi_m1x) /\
  (cc psi_m2x psi_m2x /\ cc dpsi_m2x dpsi_m2x /\ cc chi_m2x chi_m2x /\ cc dchi_m2x dchi_m2x) /\
  (cc psi_m2y psi_m2y /\ cc dpsi_m2y dpsi_m2y /\ cc chi_m2y chi_m2y /\ cc dchi_m2y dchi_m2y).
Definition carries_coeffs (t0 : R) (f : R -> @coeffs R) (d : @coeffs dual) : Prop :=
  let cc g e := ccarries t0 (fun t => g (f t)) (e d) in
  (cc an an /\ cc bn bn) /\ (cc cn cn /\ cc dn dn /\ cc fn fn /\ cc gn gn /\ cc vn vn /\ cc wn wn).

(* an argument above the 1e-10 replacement threshold at which the downward
   recurrence does not end at zero *)
Definition smooth_bessel (n_max depth : nat) (z : C) : Prop :=
  (@rtenth R ROps 10 < Cmod z)%R /\ @jrec_at R ROps z (n_max + depth) 0 <> RtoC 0.
(* one core-shell particle at one wavelength *)
Definition smooth_torch (n_max dy d1 d2 d3 : nat) (k0 : R) (env : C) (core shell : R * C) : Prop :=
  let c := @layer_of R ROps k0 env core in let s := @layer_of R ROps k0 env shell in
  let m1 := fst c in let x := snd c in let m2 := fst s in let y := snd s in
  off_cut env /\ off_cut (snd core) /\ off_cut (snd shell) /\
  smooth_bessel n_max dy y /\ smooth_bessel n_max d1 (m1 * x) /\ smooth_bessel n_max d2 (m2 * x) /\ smooth_bessel n_max d3 (m2 * y) /\
  forall n, (1 <= n <= n_max)%nat ->
    let r := @radial_of7 R ROps x y m1 m2
      (sph_jn_via_rec n_max dy y) (sph_jn_via_rec n_max d1 (m1 * x)) (sph_jn_via_rec n_max d2 (m2 * x)) (sph_jn_via_rec n_max d3 (m2 * y))
      (sph_yn y) (sph_yn (m2 * x)) (sph_yn (m2 * y)) n in
    det_a r <> RtoC 0 /\ det_b r <> RtoC 0.
(* a recurrence depth that does not change near t0 *)
Definition steady (t0 : R) (d : R -> nat) : Prop := locally t0 (fun t => d t = d t0).
