(** Specification for C84 and C85: PyTorch's gradient of a real-valued function of a
    complex tensor.  [g] is the gradient of L at w when along every smooth curve
    through w the derivative of L is the sum over the entries of
    Re(conj(g) * velocity), i.e. g = dL/dRe + i dL/dIm. *)
From Coq Require Import Reals List.
From Coquelicot Require Import Coquelicot.
From Verif Require Import Tensor MaxwellSpec.
Import ListNotations.
Open Scope R_scope.

Fixpoint rsum (l : list R) : R := match l with [] => 0 | x :: l' => x + rsum l' end.
Definition pairing (s : list nat) (g v : list nat -> C) : R :=
  rsum (map (fun ix => Re (Cconj (g ix) * v ix)%C) (indices s)).
Definition has_grad (L : tensor C -> R) (w g : tensor C) : Prop :=
  shp g = shp w /\
  forall (p : R -> tensor C) (v : list nat -> C),
    (forall t, shp (p t) = shp w) -> (forall ix, in_bounds (shp w) ix -> at_ (p 0) ix = at_ w ix) ->
    (forall ix, in_bounds (shp w) ix -> RCderive (fun t => at_ (p t) ix) 0 (v ix)) ->
    is_derive (fun t => L (p t)) 0 (pairing (shp w) (at_ g) v).
(* no entry is zero *)
Definition nonzero (z : tensor C) : Prop := forall ix, in_bounds (shp z) ix -> at_ z ix <> RtoC 0.
(* an example of a loss: the sum of |w|^2 *)
Definition energy (w : tensor C) : R := rsum (map (fun ix => Cmod (at_ w ix) * Cmod (at_ w ix)) (indices (shp w))).
(* limit as the complex step e goes to 0 *)
Definition tends_to (v : C -> C) (l : C) : Prop :=
  forall eps, 0 < eps -> exists d, 0 < d /\ forall e : C, e <> RtoC 0 -> Cmod e < d -> Cmod (v e - l)%C < eps.
(* index into torch.atleast_1d(z) *)
Definition inner (z : tensor C) (ix : list nat) : list nat := match shp z with [] => [0%nat] | _ => ix end.
