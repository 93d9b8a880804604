(** Automatic differentiation through the materials: the code of ModelMaterial.v
    on dual numbers (see ModelGrad.v).  The data of a material (materials/mat.py
    295-333: wl_dat, eps_dat, coeff) are constants; the permittivities cached in
    lookup_eps (mat.py:386-397) keep the tangents they were computed with.
    Assigning 0.0 or 1.0 to entries selected by a mask (helper.py:358-360) removes
    their tangent. *)
From Coq Require Import Reals List.
From Coquelicot Require Import Coquelicot.
From Verif Require Import Ops ROps Tensor ModelMaterial ModelGrad.
Import ListNotations.
Open Scope R_scope.

Definition dconst (r : R) : dual := (r, 0).
Definition ccst (c : C) : cplx dual := ((fst c, 0), (snd c, 0)).
Definition lift_rows (t : list (R * C)) : list (dual * cplx dual) := map (fun q => (dconst (fst q), ccst (snd q))) t.
Definition lift_db (m : @db R) (cache : list (dual * @value dual)) : @db dual :=
  {| d_dev := d_dev m; d_model := d_model m; d_wl := map dconst (d_wl m); d_wl_dev := d_wl_dev m;
     d_eps := map ccst (d_eps m); d_eps_dev := d_eps_dev m; d_coeff := map dconst (d_coeff m); d_lookup := cache |}.
Definition dual_wl (x : dual) (s : option nat) : @warg dual := {| wa_t := scalar_t x; wa_src := s |}.
Definition lift_mat (m : @mat R) : @mat dual :=
  match m with
  | Const c => Const {| c_dev := c_dev c; c_eps := ccst (c_eps c); c_tdev := c_tdev c |}
  | Db b => Db (lift_db b [])
  end.
(* main.py:258: wl0 = 2 * torch.pi / k0 *)
Definition grad_wl (k0 : dual) : dual := rdiv (rmul rtwo rpi) k0.
(* main.py:260-265: the permittivity of a freshly loaded material; 0 stands for an exception *)
Definition grad_eps (m : @mat R) (wl : dual) : cplx dual :=
  match snd (@get_epsilon dual DOps (lift_mat m) (dual_wl wl None)) with Ok t => v_eps (at_ t []) | Err _ => ccst 0 end.
Definition grad_mat_layer (k0 : dual) (l : R * @mat R) : dual * cplx dual := (dconst (fst l), grad_eps (snd l) (grad_wl k0)).
