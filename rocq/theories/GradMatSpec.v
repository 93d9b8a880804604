(** Where the permittivity of a material is a differentiable function of the
    wavelength (C95): off the sampling points of a table, off the poles of a formula. *)
From Coq Require Import Reals List.
From Coquelicot Require Import Coquelicot.
From Verif Require Import Ops ROps Tensor ModelMaterial.
Import ListNotations.
Open Scope R_scope.

Inductive sellmeier_pairs : list R -> list (R * R) -> Prop :=
| sp_nil : sellmeier_pairs [] []
| sp_cons : forall b c cs ps, sellmeier_pairs cs ps -> sellmeier_pairs (b :: c :: cs) ((b, c) :: ps).
Definition smooth_mat (m : @db R) (x : R) : Prop :=
  match d_model m with
  | MData => d_wl m <> [] /\ NoDup (d_wl m) /\ length (d_wl m) = length (d_eps m) /\ ~ In x (d_wl m)
  | MSellmeier => exists c0 cs ps, d_coeff m = c0 :: cs /\ sellmeier_pairs cs ps /\ forall bc, In bc ps -> (x / 1000) ^ 2 <> snd bc ^ 2
  | MOther _ => False
  end.
Definition smooth_material (m : @mat R) (x : R) : Prop :=
  match m with Const _ => True | Db b => (d_wl_dev b = d_dev b /\ d_eps_dev b = d_dev b) /\ smooth_mat b x end.
(* the permittivity function of a material: what get_epsilon returns before anything was cached *)
Definition fresh (m : @mat R) : @mat R := match m with Const c => Const c | Db b => Db (with_lookup b []) end.
Definition mat_eps (m : @mat R) (x : R) : C :=
  match snd (@get_epsilon R ROps (fresh m) {| wa_t := scalar_t x; wa_src := None |}) with Ok t => v_eps (at_ t []) | Err _ => RtoC 0 end.
(* a layer of constant radius made of a material, at wavenumber k0 *)
Definition mat_layer (k0 : R) (l : R * @mat R) : R * C := (fst l, mat_eps (snd l) (2 * PI / k0)).
