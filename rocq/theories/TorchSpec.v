(** Specification: the core-shell boundary system of Bohren-Huffman section 8.1
    (equal permeabilities), written as equations between the fields of the
    radial-function record. *)
From Coq Require Import Reals.
From Coquelicot Require Import Coquelicot.
From Verif Require Import Ops ROps ModelMie.
Open Scope C_scope.

(* magnetic/electric coefficient quadruples; the four TM equations (a, g, w, d) *)
Definition tm_system (r : @radial R) (a g w d : C) : Prop :=
  g * psi_m2x r - w * chi_m2x r - d * psi_m1x r = 0 /\
  w * m1 r * dchi_m2x r - g * m1 r * dpsi_m2x r + d * m2 r * dpsi_m1x r = 0 /\
  psi_y r - a * xi_y r - g * psi_m2y r + w * chi_m2y r = 0 /\
  m2 r * dpsi_y r - a * m2 r * dxi_y r - g * dpsi_m2y r + w * dchi_m2y r = 0.
(* the four TE equations (b, f, v, c) *)
Definition te_system (r : @radial R) (b f v c : C) : Prop :=
  f * m1 r * psi_m2x r - v * m1 r * chi_m2x r - c * m2 r * psi_m1x r = 0 /\
  v * dchi_m2x r - f * dpsi_m2x r + c * dpsi_m1x r = 0 /\
  m2 r * b * xi_y r - m2 r * psi_y r + f * psi_m2y r - v * chi_m2y r = 0 /\
  b * dxi_y r - dpsi_y r + f * dpsi_m2y r - v * dchi_m2y r = 0.

(* core transfer terms and the two determinants *)
Definition Xa r := m1 r * dchi_m2x r * psi_m1x r - m2 r * chi_m2x r * dpsi_m1x r.
Definition Ya r := m1 r * dpsi_m2x r * psi_m1x r - m2 r * psi_m2x r * dpsi_m1x r.
Definition Xb r := m2 r * dchi_m2x r * psi_m1x r - m1 r * chi_m2x r * dpsi_m1x r.
Definition Yb r := m2 r * dpsi_m2x r * psi_m1x r - m1 r * psi_m2x r * dpsi_m1x r.
Definition det_a r := m2 r * dxi_y r * (psi_m2y r * Xa r - chi_m2y r * Ya r)
                      - xi_y r * (dpsi_m2y r * Xa r - dchi_m2y r * Ya r).
Definition det_b r := dxi_y r * (psi_m2y r * Xb r - chi_m2y r * Yb r)
                      - m2 r * xi_y r * (dpsi_m2y r * Xb r - dchi_m2y r * Yb r).

(* the radial-function record of the core-shell algorithm when the backend
   evaluates the radial functions [rfi] inside and [rfo] outside:
   chi from zeta = psi - i chi, that is chi = i (zeta - psi) *)
From Verif Require Import StackSpec.
Definition radial_from (rfi rfo : radfun) (mc ms x y : C) : @radial R :=
  {| m1 := mc; m2 := ms;
     psi_y := rf_psi rfo y; dpsi_y := rf_dpsi rfo y; xi_y := rf_zeta rfo y; dxi_y := rf_dzeta rfo y;
     psi_m1x := rf_psi rfi (mc * x); dpsi_m1x := rf_dpsi rfi (mc * x);
     psi_m2x := rf_psi rfi (ms * x); dpsi_m2x := rf_dpsi rfi (ms * x);
     chi_m2x := Ci * (rf_zeta rfi (ms * x) - rf_psi rfi (ms * x));
     dchi_m2x := Ci * (rf_dzeta rfi (ms * x) - rf_dpsi rfi (ms * x));
     psi_m2y := rf_psi rfi (ms * y); dpsi_m2y := rf_dpsi rfi (ms * y);
     chi_m2y := Ci * (rf_zeta rfi (ms * y) - rf_psi rfi (ms * y));
     dchi_m2y := Ci * (rf_dzeta rfi (ms * y) - rf_dpsi rfi (ms * y)) |}.
