(** The instance of [RealOps] on the standard library reals, used by all theorems. *)
From Coq Require Import Reals ZArith Lra Lia Bool List.
From Coquelicot Require Import Coquelicot.
From Verif Require Import Ops.
Open Scope R_scope.

Definition Rltb (x y : R) : bool := if Rlt_dec x y then true else false.
Definition Rleb (x y : R) : bool := if Rle_dec x y then true else false.
Definition Reqb (x y : R) : bool := if Req_EM_T x y then true else false.

(* truncation towards zero, Python int() on floats *)
Definition Rtrunc (x : R) : Z := if Rle_dec 0 x then Int_part x else (- Int_part (- x))%Z.
(* round half to even, torch.round *)
Definition Rround (x : R) : Z :=
  let f := Int_part x in
  let d := x - IZR f in
  if Rlt_dec d (1/2) then f
  else if Rlt_dec (1/2) d then (f + 1)%Z
  else if Z.even f then f else (f + 1)%Z.
(* x ** (1/3) on x >= 0 (the code only applies it to absolute values) *)
Definition Rcbrt (x : R) : R := if Rlt_dec 0 x then Rpower x (1/3) else 0.
(* torch.atan2 *)
Definition Ratan2 (y x : R) : R :=
  if Rlt_dec 0 x then atan (y / x)
  else if Rlt_dec x 0 then (if Rle_dec 0 y then atan (y / x) + PI else atan (y / x) - PI)
  else if Rlt_dec 0 y then PI / 2 else if Rlt_dec y 0 then - (PI / 2) else 0.

#[global] Instance ROps : RealOps R := {|
  rzero := 0; rone := 1; rpi := PI;
  radd := Rplus; rmul := Rmult; rdiv := Rdiv; ropp := Ropp;
  rltb := Rltb; rleb := Rleb; reqb := Reqb;
  rofZ := IZR;
  rsqrt := sqrt; rsin := sin; rcos := cos; rexp := exp; rln := ln;
  racos := acos; ratan2 := Ratan2; rcbrt := Rcbrt; rround := Rround; rtrunc := Rtrunc |}.

(** ** Bridge: the generic complex operations are Coquelicot's. *)
Lemma cadd_C : @cadd R ROps = Cplus. Proof. reflexivity. Qed.
Lemma copp_C : @copp R ROps = Copp. Proof. reflexivity. Qed.
Lemma csub_C : @csub R ROps = Cminus. Proof. reflexivity. Qed.
Lemma cmul_C : @cmul R ROps = Cmult. Proof. reflexivity. Qed.
Lemma cinv_C : @cinv R ROps = Cinv. Proof. reflexivity. Qed.
Lemma cdiv_C : @cdiv R ROps = Cdiv. Proof. reflexivity. Qed.
Lemma cabs_C : @cabs R ROps = Cmod. Proof. reflexivity. Qed.
Lemma cconj_C : @cconj R ROps = Cconj. Proof. reflexivity. Qed.
Lemma cofr_C : @cofr R ROps = RtoC. Proof. reflexivity. Qed.
Lemma czero_C : @czero R ROps = RtoC 0. Proof. reflexivity. Qed.
Lemma cone_C : @cone R ROps = RtoC 1. Proof. reflexivity. Qed.
Lemma ci_C : @ci R ROps = Ci. Proof. reflexivity. Qed.
Lemma rofn_R n : @rofn R ROps n = INR n.
Proof. unfold rofn; cbn. symmetry; apply INR_IZR_INZ. Qed.
Lemma cofn_C n : @cofn R ROps n = RtoC (INR n).
Proof. unfold cofn, cofr. rewrite rofn_R. reflexivity. Qed.

Lemma Rltb_true x y : Rltb x y = true <-> x < y.
Proof. unfold Rltb; destruct (Rlt_dec x y); split; intros; auto; discriminate. Qed.
Lemma Rltb_false x y : Rltb x y = false <-> y <= x.
Proof. unfold Rltb; destruct (Rlt_dec x y); split; intros; auto; try discriminate; lra. Qed.
Lemma Rleb_true x y : Rleb x y = true <-> x <= y.
Proof. unfold Rleb; destruct (Rle_dec x y); split; intros; auto; discriminate. Qed.
Lemma Rleb_false x y : Rleb x y = false <-> y < x.
Proof. unfold Rleb; destruct (Rle_dec x y); split; intros; auto; try discriminate; lra. Qed.
Lemma Reqb_true x y : Reqb x y = true <-> x = y.
Proof. unfold Reqb; destruct (Req_EM_T x y); split; intros; auto; discriminate. Qed.
Lemma Reqb_false x y : Reqb x y = false <-> x <> y.
Proof. unfold Reqb; destruct (Req_EM_T x y); split; intros; auto; try discriminate; contradiction. Qed.

(** The safeguard is the identity when it does not fire. *)
Lemma guard_id (eps : R) (z : C) : eps <= Cmod z -> @guard R ROps eps z = z.
Proof.
  intros H. unfold guard. cbn [rltb ROps].
  replace (Rltb (cabs z) eps) with false; [reflexivity|].
  symmetry. apply Rltb_false. exact H.
Qed.

Lemma rtenth_pos k : 0 < @rtenth R ROps k.
Proof.
  unfold rtenth; cbn. apply Rdiv_lt_0_compat; [lra|].
  apply IZR_lt. apply Z.pow_pos_nonneg; lia.
Qed.

(** rewrite all generic complex operations into Coquelicot's *)
Ltac toC :=
  change (@cadd R ROps) with Cplus in *; change (@copp R ROps) with Copp in *;
  change (@csub R ROps) with Cminus in *; change (@cmul R ROps) with Cmult in *;
  change (@cinv R ROps) with Cinv in *; change (@cdiv R ROps) with Cdiv in *;
  change (@cabs R ROps) with Cmod in *; change (@cofr R ROps) with RtoC in *;
  change (@czero R ROps) with (RtoC 0) in *; change (@cone R ROps) with (RtoC 1) in *;
  change (@ci R ROps) with Ci in *; change (@cconj R ROps) with Cconj in *;
  change (cplx R) with C in *;
  rewrite ?cofn_C in *.
