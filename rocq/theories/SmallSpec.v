(** Specification for the small-particle theorems (C98): addition that absorbs
    small terms, and rounding to nearest as the standard example. *)
From Coq Require Import Reals ZArith List Bool.
From Coquelicot Require Import Coquelicot.
From Verif Require Import Ops ROps ModelRound RoundSpec.
Open Scope R_scope.

(* adding a term below v times a stored sum does not change the sum *)
Definition absorbing (v : R) (A : arithmetic) : Prop :=
  forall a b y, Rabs y <= v * Rabs (@radd R (ar_ops A) a b) -> @radd R (ar_ops A) (@radd R (ar_ops A) a b) y = @radd R (ar_ops A) a b.

(* every operation is computed exactly and then rounded to the nearest number with p fractional bits *)
Definition near (p : nat) (x : R) : R := if Req_EM_T x 0 then 0 else IZR (Int_part (x / ulp p x + 1 / 2)) * ulp p x.
Definition nearest_ops (p : nat) : RealOps R := {|
  rzero := 0; rone := 1; rpi := near p PI;
  radd := fun x y => near p (x + y); rmul := fun x y => near p (x * y); rdiv := fun x y => near p (x / y); ropp := Ropp;
  rltb := Rltb; rleb := Rleb; reqb := Reqb;
  rofZ := fun z => near p (IZR z);
  rsqrt := fun x => near p (sqrt x); rsin := fun x => near p (sin x); rcos := fun x => near p (cos x); rexp := fun x => near p (exp x);
  rln := fun x => near p (ln x); racos := fun x => near p (acos x); ratan2 := fun y x => near p (Ratan2 y x); rcbrt := fun x => near p (Rcbrt x);
  rround := Rround; rtrunc := Rtrunc |}.
Definition nearest (p : nat) : arithmetic :=
  {| ar_ops := nearest_ops p; ar_root := fun z => (near p (fst (@csqrt R ROps z)), near p (snd (@csqrt R ROps z))) |}.
