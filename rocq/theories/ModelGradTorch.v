(** Automatic differentiation of the torch backend: multishell.py:24-266 and
    641-799 with backend="torch" (which_jn="recurrence") and the Bessel routines
    special.py:700-783, 925-975 and 338-361 run on dual numbers, cf. ModelGrad.v.
    The recurrence depths (special.py:756-759) are Python integers read off the
    detached tensor values and carry no derivative. *)
From Coq Require Import Reals ZArith List Bool.
From Coquelicot Require Import Coquelicot.
From Verif Require Import Ops ROps Tensor ModelSpecial ModelMie ModelBatch ModelGrad.

(* one particle at one wavelength; a sphere is a shell of the material and
   radius of the core, multishell.py:705-717 *)
Definition grad_torch (n_max dy d1 d2 d3 : nat) (k0 : dual) (eps_env : cplx dual) (core shell : dual * cplx dual) (n : nat) : @coeffs dual :=
  let c := grad_layer k0 eps_env core in let s := grad_layer k0 eps_env shell in
  let m1 := fst c in let x := snd c in let m2 := fst s in let y := snd s in
  @miecoef_core dual DOps (@radial_of7 dual DOps x y m1 m2
    (sph_jn_via_rec n_max dy y) (sph_jn_via_rec n_max d1 (cmul m1 x)) (sph_jn_via_rec n_max d2 (cmul m2 x)) (sph_jn_via_rec n_max d3 (cmul m2 y))
    (sph_yn y) (sph_yn (cmul m2 x)) (sph_yn (cmul m2 y)) n).
