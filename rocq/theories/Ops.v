(** Numeric interface of the model.

    Every numeric function of the model is written once over the record
    [RealOps T].  Simplification: exact arithmetic, i.e. the dtype/precision
    arguments of the Python code (complex64/complex128) and all rounding are
    ignored. *)
From Coq Require Import ZArith List Bool.
Import ListNotations.

Class RealOps (T : Type) := {
  rzero : T; rone : T; rpi : T;
  radd : T -> T -> T; rmul : T -> T -> T; rdiv : T -> T -> T; ropp : T -> T;
  rltb : T -> T -> bool; rleb : T -> T -> bool; reqb : T -> T -> bool;
  rofZ : Z -> T;
  rsqrt : T -> T; rsin : T -> T; rcos : T -> T; rexp : T -> T; rln : T -> T;
  racos : T -> T; ratan2 : T -> T -> T;
  rcbrt : T -> T;           (* x ** (1/3) for x >= 0 *)
  rround : T -> Z;          (* torch.round: nearest integer, ties to even *)
  rtrunc : T -> Z           (* Python int(): towards zero *)
}.

Section Derived.
  Context {T : Type} {RO : RealOps T}.

  Definition rsub (x y : T) : T := radd x (ropp y).
  Definition rofn (n : nat) : T := rofZ (Z.of_nat n).
  Definition rtwo : T := radd rone rone.
  Definition rsqr (x : T) : T := rmul x (rmul x rone).   (* x ** 2 *)
  Definition rabs (x : T) : T := if rltb x rzero then ropp x else x.
  Definition rmax (x y : T) : T := if rleb x y then y else x.  (* torch.maximum, no NaN *)
  (* 10 ** (-k), for the literals 1e-30, 1e-10, 1e-8, ... *)
  Definition rtenth (k : nat) : T := rdiv rone (rofZ (10 ^ Z.of_nat k)%Z).
  Fixpoint rpow (x : T) (n : nat) : T :=
    match n with O => rone | S m => rmul x (rpow x m) end.

  (** ** Complex numbers: pairs, with exactly Coquelicot's formulas. *)
  Definition cplx : Type := (T * T)%type.
  Definition cofr (x : T) : cplx := (x, rzero).
  Definition czero : cplx := cofr rzero.
  Definition cone : cplx := cofr rone.
  Definition ci : cplx := (rzero, rone).
  Definition cofn (n : nat) : cplx := cofr (rofn n).
  Definition cre (z : cplx) : T := fst z.
  Definition cim (z : cplx) : T := snd z.
  Definition cadd (x y : cplx) : cplx := (radd (fst x) (fst y), radd (snd x) (snd y)).
  Definition copp (x : cplx) : cplx := (ropp (fst x), ropp (snd x)).
  Definition csub (x y : cplx) : cplx := cadd x (copp y).
  Definition cmul (x y : cplx) : cplx :=
    (rsub (rmul (fst x) (fst y)) (rmul (snd x) (snd y)),
     radd (rmul (fst x) (snd y)) (rmul (snd x) (fst y))).
  Definition cinv (x : cplx) : cplx :=
    (rdiv (fst x) (radd (rsqr (fst x)) (rsqr (snd x))),
     rdiv (ropp (snd x)) (radd (rsqr (fst x)) (rsqr (snd x)))).
  Definition cdiv (x y : cplx) : cplx := cmul x (cinv y).
  Definition cabs (x : cplx) : T := rsqrt (radd (rsqr (fst x)) (rsqr (snd x))).
  Definition cconj (x : cplx) : cplx := (fst x, ropp (snd x)).
  Definition csqr (x : cplx) : cplx := cmul x x.
  Definition ceqb (x y : cplx) : bool := reqb (fst x) (fst y) && reqb (snd x) (snd y).
  Fixpoint cpow (z : cplx) (n : nat) : cplx :=
    match n with O => cone | S m => cmul z (cpow z m) end.

  (* torch.exp / sin / cos on complex tensors *)
  Definition rcosh (x : T) : T := rdiv (radd (rexp x) (rexp (ropp x))) rtwo.
  Definition rsinh (x : T) : T := rdiv (rsub (rexp x) (rexp (ropp x))) rtwo.
  Definition cexp (z : cplx) : cplx :=
    (rmul (rexp (fst z)) (rcos (snd z)), rmul (rexp (fst z)) (rsin (snd z))).
  Definition csin (z : cplx) : cplx :=
    (rmul (rsin (fst z)) (rcosh (snd z)), rmul (rcos (fst z)) (rsinh (snd z))).
  Definition ccos (z : cplx) : cplx :=
    (rmul (rcos (fst z)) (rcosh (snd z)), ropp (rmul (rsin (fst z)) (rsinh (snd z)))).
  (* torch.sqrt on complex tensors: principal branch, cut on the negative axis
     (imaginary part +0 there) *)
  Definition csqrt (z : cplx) : cplx :=
    let a := rsqrt (rdiv (radd (cabs z) (fst z)) rtwo) in
    let b := rsqrt (rdiv (rsub (cabs z) (fst z)) rtwo) in
    (a, if rltb (snd z) rzero then ropp b else b).

  (** [torch.where(z.abs() < eps, z + eps, z)], the denominator safeguard used
      all over special.py and multishell.py. *)
  Definition guard (eps : T) (z : cplx) : cplx :=
    if rltb (cabs z) eps then cadd z (cofr eps) else z.

  Definition rsum (l : list T) : T := fold_left radd l rzero.
  Definition csum (l : list cplx) : cplx := fold_left cadd l czero.
End Derived.
Arguments cplx T : clear implicits.

(** ** Exceptions as values *)
Inductive exn := ValueError | TypeError | RuntimeError | IndexError | AssertionError
               | NotImplementedError | AttributeError | KeyError.
Inductive result (A : Type) := Ok (a : A) | Err (e : exn).
Arguments Ok {A} a.
Arguments Err {A} e.
Definition bind {A B} (x : result A) (f : A -> result B) : result B :=
  match x with Ok a => f a | Err e => Err e end.
Notation "'let*' x ':=' a 'in' b" := (bind a (fun x => b))
  (at level 200, x pattern, a at level 100, b at level 200).
Definition guard_err (b : bool) (e : exn) : result unit := if b then Ok tt else Err e.
Fixpoint map_res {A B} (f : A -> result B) (l : list A) : result (list B) :=
  match l with
  | [] => Ok []
  | x :: xs => let* y := f x in let* ys := map_res f xs in Ok (y :: ys)
  end.
