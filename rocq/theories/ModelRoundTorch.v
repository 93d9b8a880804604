(** Model of the torch backend in rounded arithmetic, cf. ModelRound.v:
    multishell.py:24-266 and 641-799 with backend="torch"
    (which_jn="recurrence"), special.py:700-783, 925-975 and 338-361. *)
From Coq Require Import Reals ZArith List Bool.
From Coquelicot Require Import Coquelicot.
From Verif Require Import Ops ROps ModelSpecial ModelMie ModelBatch ModelRound.

(* one particle at one wavelength; a sphere is a shell of the material and
   radius of the core, multishell.py:705-717 *)
Definition round_torch (A : arithmetic) (n_max dy d1 d2 d3 : nat) (k0 : R) (eps_env : C) (core shell : R * C) (n : nat) : @coeffs R :=
  let O := ar_ops A in
  let c := round_layer A k0 eps_env core in let s := round_layer A k0 eps_env shell in
  let m1 := fst c in let x := snd c in let m2 := fst s in let y := snd s in
  @miecoef_core R O (@radial_of7 R O x y m1 m2
    (@sph_jn_via_rec R O n_max dy y) (@sph_jn_via_rec R O n_max d1 (@cmul R O m1 x)) (@sph_jn_via_rec R O n_max d2 (@cmul R O m2 x)) (@sph_jn_via_rec R O n_max d3 (@cmul R O m2 y))
    (@sph_yn R O y) (@sph_yn R O (@cmul R O m2 x)) (@sph_yn R O (@cmul R O m2 y)) n).
