(** What the documentation of mie_coefficients (multishell.py:641-690, comments
    at 592-594) says about input layouts, written without the model's
    broadcasting helpers. *)
From Coq Require Import Reals List Arith Bool.
From Coquelicot Require Import Complex.
From Verif Require Import Tensor.
Import ListNotations.
Open Scope nat_scope.

(* a k0 tensor is a spectrum when at most one axis is not a singleton *)
Definition k0_len (s : list nat) : option nat :=
  match filter (fun d => negb (d =? 1)) s with [] => Some 1 | [K] => Some K | _ => None end.
(* radii: scalar, (L,), or (N_part, L) *)
Definition r_dims (s : list nat) : option (nat * nat) :=
  match s with [] => Some (1, 1) | [L] => Some (1, L) | [P; L] => Some (P, L) | _ => None end.
Definition r_ix (s : list nat) (p l : nat) : list nat :=
  match s with [] => [] | [_] => [l] | _ => [p; l] end.
(* a permittivity layout: which entry of the given tensor is layer l of particle
   p at wavelength k *)
Definition singleton (a n : nat) : bool := (a =? 1) && (1 <? n).
Definition eps_layout (P L K : nat) (s : list nat) : option (nat -> nat -> nat -> list nat) :=
  match s with
  | [] => if L =? 1 then Some (fun _ _ _ => []) else None
  | [a] => if a =? L then Some (fun _ l _ => [l]) else None
  | [a; b] => if (a =? P) && (b =? L) then Some (fun p l _ => [p; l])
              else if (a =? L) && (b =? K) then Some (fun _ l k => [l; k]) else None
  | [a; b; c] => if ((a =? P) || singleton a P) && (b =? L) && ((c =? K) || singleton c K)
                 then Some (fun p l k => [if a =? 1 then 0 else p; l; if c =? 1 then 0 else k]) else None
  | _ => None
  end.
Definition env_layout (K : nat) (s : list nat) : option (nat -> list nat) :=
  match s with
  | [] => if 1 <=? K then Some (fun _ => []) else None
  | [a] => if a =? K then Some (fun k => [k]) else if singleton a K then Some (fun _ => [0]) else None
  | _ => None
  end.

(** the call is meaningful, with K wavelengths, P particles, L layers *)
Record valid (k0 : tensor R) (r : tensor R) (eps env : tensor C) (K P L : nat)
       (ef : nat -> nat -> nat -> list nat) (vf : nat -> list nat) : Prop := {
  v_k0 : k0_len (shp k0) = Some K;
  v_r : r_dims (shp r) = Some (P, L);
  v_inc : forall p l, p < P -> S l < L ->
            (at_ r (r_ix (shp r) p l) < at_ r (r_ix (shp r) p (S l)))%R;
  v_eps : eps_layout P L K (shp eps) = Some ef;
  v_env : env_layout K (shp env) = Some vf }.
