(** Model of the pena pipeline in rounded arithmetic.

    The functions of ModelSpecial.v and ModelMie.v are polymorphic in their
    numbers; here they run on the operations of an arbitrary machine arithmetic
    on real numbers.  torch.sqrt of a complex number is one operation of its own.
    Simplifications: the kernels of complex multiplication, division and
    absolute value are the textbook formulas of Ops.v, torch.sum adds from the
    left, no overflow and no underflow (unbounded exponents, no NaN). *)
From Coq Require Import Reals ZArith List Bool.
From Coquelicot Require Import Coquelicot.
From Verif Require Import Ops ROps ModelSpecial ModelMie.
Import ListNotations.
Open Scope R_scope.

Record arithmetic := { ar_ops : RealOps R; ar_root : C -> C }.

(* multishell.py:324-325, 633, 742, cf. [layer_of] *)
Definition round_layer (A : arithmetic) (k0 : R) (eps_env : C) (re : R * C) : C * C :=
  let n_env := ar_root A eps_env in
  (@cdiv R (ar_ops A) (ar_root A (snd re)) n_env, @cmul R (ar_ops A) (@cmul R (ar_ops A) (@cofr R (ar_ops A) k0) n_env) (@cofr R (ar_ops A) (fst re))).
(* multishell.py:742: k = k0 * n_env *)
Definition round_k (A : arithmetic) (k0 : R) (eps_env : C) : C := @cmul R (ar_ops A) (@cofr R (ar_ops A) k0) (ar_root A eps_env).
(* multishell.py:641-799, backend="pena", cf. [mie_pena]; n_add is 15 in the code *)
Definition round_pena (A : arithmetic) (n_max n_add : nat) (k0 : R) (eps_env : C) (core : R * C) (shells : list (R * C)) (n : nat) : C * C :=
  @pena_ab R (ar_ops A) n_max n_add (round_layer A k0 eps_env core) (map (round_layer A k0 eps_env) shells) n.
