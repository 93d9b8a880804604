(** Specification of the electromagnetic boundary-value problem of a layered
    sphere at one multipole order, and the "no safeguard fires" conditions.

    A stack is a list of layers (m_l, x_l): relative index and outer size
    parameter.  In every layer the radial function is B psi - A zeta with
    amplitudes (A, B).  Tangential fields at the outer boundary of a layer:
      TM (a_n):  F = B psi - A zeta        continuous,
                 G = B psi' - A zeta'      with G / m continuous,
      TE (b_n):  F / m continuous, G continuous
    (Bohren-Huffman 4.52/8.1 in Riccati-Bessel form). *)
From Coq Require Import Reals List.
From Coquelicot Require Import Coquelicot.
From Verif Require Import Spec.
Import ListNotations.
Open Scope C_scope.

(* radial functions of one order: regular, outgoing, and their derivatives *)
Record radfun := { rf_psi : C -> C; rf_zeta : C -> C; rf_dpsi : C -> C; rf_dzeta : C -> C }.

Definition Fld (rf : radfun) (AB : C * C) (z : C) : C := snd AB * rf_psi rf z - fst AB * rf_zeta rf z.
Definition dFld (rf : radfun) (AB : C * C) (z : C) : C := snd AB * rf_dpsi rf z - fst AB * rf_dzeta rf z.

(* continuity at the sphere of size parameter x between (m, AB) and (m', AB') *)
Definition interface_ok (tm : bool) (x : C) (rf : radfun) (m : C) (AB : C * C)
    (rf' : radfun) (m' : C) (AB' : C * C) : Prop :=
  if tm then Fld rf AB (m * x) = Fld rf' AB' (m' * x) /\ dFld rf AB (m * x) / m = dFld rf' AB' (m' * x) / m'
  else Fld rf AB (m * x) / m = Fld rf' AB' (m' * x) / m' /\ dFld rf AB (m * x) = dFld rf' AB' (m' * x).

(* all interfaces from layer [l] outwards; exterior has relative index 1,
   amplitudes [out], radial functions [rfo] *)
Fixpoint interfaces_ok (tm : bool) (rf rfo : radfun) (l : C * C) (AB : C * C)
    (rest : list ((C * C) * (C * C))) (out : C * C) : Prop :=
  match rest with
  | [] => interface_ok tm (snd l) rf (fst l) AB rfo 1 out
  | (l', AB') :: rest' =>
      interface_ok tm (snd l) rf (fst l) AB rf (fst l') AB' /\
      interfaces_ok tm rf rfo l' AB' rest' out
  end.

(* a solution: one amplitude pair per layer, regular in the core, exterior
   field = (unit incident) psi - a zeta scaled by the incident amplitude *)
Definition solves (tm : bool) (rf rfo : radfun) (l0 : C * C) (rest : list (C * C))
    (AB0 : C * C) (amps : list (C * C)) (scattered incident : C) : Prop :=
  fst AB0 = 0 /\ length amps = length rest /\
  interfaces_ok tm rf rfo l0 AB0 (combine rest amps) (scattered, incident).
