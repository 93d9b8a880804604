(** Specification for the rounding theorems (C97): an arithmetic of relative
    precision u, and what it means that a computed quantity approaches a number
    as the precision grows.  The smoothness conditions are those of GradSpec.v. *)
From Coq Require Import Reals ZArith List Bool.
From Coquelicot Require Import Coquelicot.
From Verif Require Import Ops ROps ModelRound.
Open Scope R_scope.

(* x approximates y with relative error u *)
Definition rel (u x y : R) : Prop := Rabs (x - y) <= u * Rabs y.

Record precise (u : R) (A : arithmetic) : Prop := {
  pr_zero : @rzero R (ar_ops A) = 0; pr_one : @rone R (ar_ops A) = 1;
  pr_opp : forall x, @ropp R (ar_ops A) x = - x;
  pr_ltb : forall x y, @rltb R (ar_ops A) x y = Rltb x y;
  pr_leb : forall x y, @rleb R (ar_ops A) x y = Rleb x y;
  pr_eqb : forall x y, @reqb R (ar_ops A) x y = Reqb x y;
  pr_pi : rel u (@rpi R (ar_ops A)) PI;
  pr_ofZ : forall z, rel u (@rofZ R (ar_ops A) z) (IZR z);
  pr_add : forall x y, rel u (@radd R (ar_ops A) x y) (x + y);
  pr_mul : forall x y, rel u (@rmul R (ar_ops A) x y) (x * y);
  pr_div : forall x y, y <> 0 -> rel u (@rdiv R (ar_ops A) x y) (x / y);
  pr_sqrt : forall x, 0 <= x -> rel u (@rsqrt R (ar_ops A) x) (sqrt x);
  pr_sin : forall x, rel u (@rsin R (ar_ops A) x) (sin x);
  pr_cos : forall x, rel u (@rcos R (ar_ops A) x) (cos x);
  pr_exp : forall x, rel u (@rexp R (ar_ops A) x) (exp x);
  pr_acos : forall x, -1 <= x <= 1 -> rel u (@racos R (ar_ops A) x) (acos x);
  pr_atan2 : forall y x, x <> 0 -> rel u (@ratan2 R (ar_ops A) y x) (Ratan2 y x);
  pr_root : forall z, Cmod (ar_root A z - @csqrt R ROps z)%C <= u * Cmod (@csqrt R ROps z) }.

(* in every sufficiently precise arithmetic *)
Definition eventually (P : arithmetic -> Prop) : Prop := exists u, 0 < u /\ forall A, precise u A -> P A.
Definition settles (q : arithmetic -> R) (x : R) : Prop := forall tol, 0 < tol -> eventually (fun A => Rabs (q A - x) < tol).
Definition csettles (q : arithmetic -> C) (z : C) : Prop := forall tol, 0 < tol -> eventually (fun A => Cmod (q A - z)%C < tol).
Definition settles_shell (q : arithmetic -> R * C) (s : R * C) : Prop :=
  settles (fun A => fst (q A)) (fst s) /\ csettles (fun A => snd (q A)) (snd s).

(* the concrete arithmetic with p fractional bits: every operation is computed exactly and then cut to p bits (towards minus infinity) *)
Definition exponent (x : R) : Z := Int_part (ln (Rabs x) / ln 2).
Definition ulp (p : nat) (x : R) : R := powerRZ 2 (exponent x - Z.of_nat p).
Definition cut (p : nat) (x : R) : R := if Req_EM_T x 0 then 0 else IZR (Int_part (x / ulp p x)) * ulp p x.
Definition binary_ops (p : nat) : RealOps R := {|
  rzero := 0; rone := 1; rpi := cut p PI;
  radd := fun x y => cut p (x + y); rmul := fun x y => cut p (x * y); rdiv := fun x y => cut p (x / y); ropp := Ropp;
  rltb := Rltb; rleb := Rleb; reqb := Reqb;
  rofZ := fun z => cut p (IZR z);
  rsqrt := fun x => cut p (sqrt x); rsin := fun x => cut p (sin x); rcos := fun x => cut p (cos x); rexp := fun x => cut p (exp x);
  rln := fun x => cut p (ln x); racos := fun x => cut p (acos x); ratan2 := fun y x => cut p (Ratan2 y x); rcbrt := fun x => cut p (Rcbrt x);
  rround := Rround; rtrunc := Rtrunc |}.
Definition binary (p : nat) : arithmetic :=
  {| ar_ops := binary_ops p; ar_root := fun z => (cut p (fst (@csqrt R ROps z)), cut p (snd (@csqrt R ROps z))) |}.
(* exact arithmetic is the special case without rounding *)
Definition exact_arithmetic : arithmetic := {| ar_ops := ROps; ar_root := @csqrt R ROps |}.
