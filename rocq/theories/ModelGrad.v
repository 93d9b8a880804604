(** Model of automatic differentiation of the pena pipeline.

    The functions of ModelSpecial.v and ModelMie.v are polymorphic in their
    numbers.  [DOps] runs the very same code on pairs (value, tangent), with the
    derivative formula that torch registers for each elementary operation
    (tools/autograd/derivatives.yaml of PyTorch).  Simplifications: autograd
    runs in reverse mode; in exact arithmetic the result is the same, because
    both multiply the same local derivatives.  Comparisons (the torch.where
    conditions) look at values only and carry no derivative. *)
From Coq Require Import Reals ZArith List Bool.
From Coquelicot Require Import Coquelicot.
From Verif Require Import Ops ROps ModelSpecial ModelMie.
Import ListNotations.
Open Scope R_scope.

Definition dual : Type := (R * R)%type.   (* value, tangent *)

#[global] Instance DOps : RealOps dual := {|
  rzero := (0, 0); rone := (1, 0); rpi := (PI, 0);
  radd := fun x y => (fst x + fst y, snd x + snd y);
  rmul := fun x y => (fst x * fst y, snd x * fst y + fst x * snd y);
  rdiv := fun x y => (fst x / fst y, (snd x * fst y - fst x * snd y) / (fst y * fst y));
  ropp := fun x => (- fst x, - snd x);
  rltb := fun x y => Rltb (fst x) (fst y);
  rleb := fun x y => Rleb (fst x) (fst y);
  reqb := fun x y => Reqb (fst x) (fst y);
  rofZ := fun z => (IZR z, 0);
  rsqrt := fun x => (sqrt (fst x), snd x / (2 * sqrt (fst x)));
  rsin := fun x => (sin (fst x), snd x * cos (fst x));
  rcos := fun x => (cos (fst x), snd x * - sin (fst x));
  rexp := fun x => (exp (fst x), snd x * exp (fst x));
  rln := fun x => (ln (fst x), snd x / fst x);
  racos := fun x => (acos (fst x), - snd x / sqrt (1 - fst x * fst x));
  ratan2 := fun y x => (Ratan2 (fst y) (fst x), (fst x * snd y - fst y * snd x) / (fst x * fst x + fst y * fst y));
  rcbrt := fun x => (Rcbrt (fst x), snd x / (3 * (Rcbrt (fst x) * Rcbrt (fst x))));
  rround := fun x => Rround (fst x);
  rtrunc := fun x => Rtrunc (fst x) |}.

(* value and tangent of a complex dual number *)
Definition dval (z : cplx dual) : C := (fst (fst z), fst (snd z)).
Definition dtan (z : cplx dual) : C := (snd (fst z), snd (snd z)).
Definition mkd (v t : C) : cplx dual := ((fst v, fst t), (snd v, snd t)).

(* torch.sqrt on complex tensors is one operation with derivative grad / (2 sqrt z),
   not the real formula behind [csqrt] *)
Definition dsqrt (z : cplx dual) : cplx dual :=
  let s := @csqrt R ROps (dval z) in mkd s (dtan z / (RtoC 2 * s))%C.

(* torch.abs on complex tensors followed by ** 2 (multishell.py:864, 973-976):
   the derivative of abs is Re(conj z dz) / |z|, and 0 at z = 0 *)
(* [rsqr (cabs z)] with [DOps] computes exactly that: at z = 0 the quotient by
   2 sqrt 0 is 0 *)

(* multishell.py:324-325, 633, 742 on dual numbers, cf. [layer_of] *)
Definition grad_layer (k0 : dual) (eps_env : cplx dual) (re : dual * cplx dual) : cplx dual * cplx dual :=
  let n_env := dsqrt eps_env in
  (cdiv (dsqrt (snd re)) n_env, cmul (cmul (cofr k0) n_env) (cofr (fst re))).

(* multishell.py:742: k = k0 * n_env *)
Definition grad_k (k0 : dual) (eps_env : cplx dual) : cplx dual := cmul (cofr k0) (dsqrt eps_env).

(* multishell.py:641-799, backend="pena", cf. [mie_pena]; n_add is 15 in the code *)
Definition grad_pena (n_max n_add : nat) (k0 : dual) (eps_env : cplx dual) (core : dual * cplx dual)
    (shells : list (dual * cplx dual)) (n : nat) : cplx dual * cplx dual :=
  @pena_ab dual DOps n_max n_add (grad_layer k0 eps_env core) (map (grad_layer k0 eps_env) shells) n.
