(** Statements about the near-field amplitudes, regions and incident field. *)
From Coq Require Import Reals List Arith.
From Coquelicot Require Import Coquelicot.
From Verif Require Import Ops ROps Spec StackSpec ModelSpecial ModelMie QuietSpec ModelNear.
Import ListNotations.
Open Scope C_scope.

(* irregular and regular amplitude of one polarisation: TM (a, d), TE (b, c) *)
Definition pair_of (tm : bool) (A : @amps R) : C * C := if tm then (na A, nd A) else (nb A, nc A).
(* relative index of region i of a stack; 1 outside *)
Definition index_at (layers : list (C * C)) (i : nat) : C := fst (nth i layers (RtoC 1, RtoC 0)).
Definition size_at (layers : list (C * C)) (i : nat) : C := snd (nth i layers (RtoC 1, RtoC 0)).
(* multishell.py:1125-1126: the two denominators of one interface are not replaced *)
Definition quiet_step (n_max n_add : nat) (m x : C) (n : nat) : Prop :=
  let z := m * x in let U := @pD1 R ROps n_max n_add z n - @pD3 R ROps n_max n_add z n in
  no_guard (@eps30 R ROps) (@pzeta R ROps n_max n_add z n * U) /\ no_guard (@eps30 R ROps) (@ppsi R ROps n_max n_add z n * U).
Definition quiet_near (n_max n_add : nat) (layers : list (C * C)) (n : nat) : Prop :=
  forall i, (i < length layers)%nat -> quiet_step n_max n_add (index_at layers i) (size_at layers i) n.
(* tangential fields of both polarisations continuous at every interface, with
   respect to the radial functions used on both sides *)
Definition continuous_at (n_max n_add : nat) (layers : list (C * C)) (As : list (@amps R)) (n i : nat) : Prop :=
  forall tm, interface_ok tm (size_at layers i) (rf_in n_max n_add n) (index_at layers i) (pair_of tm (nth i As amp0))
    (rf_in n_max n_add n) (index_at layers (S i)) (pair_of tm (nth (S i) As amp0)).

(* zeta_n'(x) from the order recurrence (coefficients) minus from D3 (near field) *)
Definition seed_defect (n_max n_add : nat) (x : C) (n : nat) : C :=
  rf_dzeta (rf_out n_max n_add n) x - rf_dzeta (rf_in n_max n_add n) x.
(* exterior amplitudes whose field vanishes on the surface with unit derivative *)
Definition unit_slope (n_max n_add : nat) (x : C) (n : nat) : @amps R :=
  let p := Ci * @ppsi R ROps n_max n_add x n in let z := Ci * @pzeta R ROps n_max n_add x n in
  {| na := p; nb := p; nc := z; nd := z |}.

(* strictly increasing radii *)
Fixpoint increasing (l : list R) : Prop :=
  match l with a :: ((b :: _) as l') => (a < b)%R /\ increasing l' | _ => True end.
(* the region of a radius: the number of interfaces strictly inside it *)
Definition below (radii : list R) (r : R) : nat := length (filter (fun a => if Rlt_dec a r then true else false) radii).
