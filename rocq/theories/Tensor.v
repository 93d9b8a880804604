(** Tensors: a shape and an index function, with the PyTorch shape operations
    the project uses and their failure cases.  An index is a list of naturals,
    one per axis; the value outside the shape is irrelevant ([teq] ignores it). *)
From Coq Require Import List Arith Bool Lia.
From Verif Require Import Ops.
Import ListNotations.

Record tensor (A : Type) := mkT { shp : list nat; at_ : list nat -> A }.
Arguments mkT {A} _ _.
Arguments shp {A} _.
Arguments at_ {A} _ _.

Fixpoint in_bounds (s ix : list nat) : Prop :=
  match s, ix with
  | [], [] => True
  | d :: s', i :: ix' => i < d /\ in_bounds s' ix'
  | _, _ => False
  end.
Definition teq {A} (t u : tensor A) : Prop :=
  shp t = shp u /\ forall ix, in_bounds (shp t) ix -> at_ t ix = at_ u ix.

Fixpoint shape_eqb (s1 s2 : list nat) : bool :=
  match s1, s2 with
  | [], [] => true
  | a :: s1', b :: s2' => (a =? b) && shape_eqb s1' s2'
  | _, _ => false
  end.
Definition ndim {A} (t : tensor A) : nat := length (shp t).
Definition dim_size {A} (i : nat) (t : tensor A) : nat := nth i (shp t) 0.
Definition numel {A} (t : tensor A) : nat := fold_right Nat.mul 1 (shp t).

(** all indices of a shape, in row-major order, and the entries *)
Fixpoint indices (s : list nat) : list (list nat) :=
  match s with
  | [] => [[]]
  | d :: s' => flat_map (fun i => map (cons i) (indices s')) (seq 0 d)
  end.
Definition entries {A} (t : tensor A) : list A := map (at_ t) (indices (shp t)).

Definition scalar_t {A} (a : A) : tensor A := mkT [] (fun _ => a).
Definition vec_t {A} (d : A) (l : list A) : tensor A := mkT [length l] (fun ix => nth (nth 0 ix 0) l d).
Definition mat_t {A} (d : A) (l : list (list A)) : tensor A :=
  mkT [length l; length (nth 0 l [])] (fun ix => nth (nth 1 ix 0) (nth (nth 0 ix 0) l []) d).
Definition tmap {A B} (f : A -> B) (t : tensor A) : tensor B := mkT (shp t) (fun ix => f (at_ t ix)).

(** list surgery *)
Fixpoint insert_at {A} (i : nat) (x : A) (l : list A) : list A :=
  match i, l with
  | O, _ => x :: l
  | S i', y :: l' => y :: insert_at i' x l'
  | S _, [] => [x]
  end.
Fixpoint remove_at {A} (i : nat) (l : list A) : list A :=
  match i, l with
  | _, [] => []
  | O, _ :: l' => l'
  | S i', y :: l' => y :: remove_at i' l'
  end.
Fixpoint set_at {A} (i : nat) (x : A) (l : list A) : list A :=
  match i, l with
  | _, [] => []
  | O, _ :: l' => x :: l'
  | S i', y :: l' => y :: set_at i' x l'
  end.

(** torch.Tensor.squeeze() *)
Fixpoint unsqueeze_ix (s ix : list nat) : list nat :=
  match s with
  | [] => []
  | d :: s' => if d =? 1 then 0 :: unsqueeze_ix s' ix else hd 0 ix :: unsqueeze_ix s' (tl ix)
  end.
Definition squeeze_shape (s : list nat) : list nat := filter (fun d => negb (d =? 1)) s.
Definition squeeze {A} (t : tensor A) : tensor A :=
  mkT (squeeze_shape (shp t)) (fun ix => at_ t (unsqueeze_ix (shp t) ix)).
(** torch.atleast_1d *)
Definition atleast_1d {A} (t : tensor A) : tensor A :=
  match shp t with [] => mkT [1] (fun _ => at_ t []) | _ => t end.
(** torch.Tensor.unsqueeze(i), 0 <= i <= ndim; unsqueeze(-1) is i = ndim *)
Definition unsqueeze {A} (i : nat) (t : tensor A) : tensor A :=
  mkT (insert_at i 1 (shp t)) (fun ix => at_ t (remove_at i ix)).
Definition unsqueeze_last {A} (t : tensor A) : tensor A := unsqueeze (ndim t) t.
(** t[:, ..., j, ...] with an integer at axis i *)
Definition select {A} (i j : nat) (t : tensor A) : tensor A :=
  mkT (remove_at i (shp t)) (fun ix => at_ t (insert_at i j ix)).
(** t[..., start:start+len, ...] at axis i *)
Definition narrow {A} (i start len : nat) (t : tensor A) : tensor A :=
  mkT (set_at i len (shp t)) (fun ix => at_ t (set_at i (nth i ix 0 + start) ix)).
(** torch.stack(ts, dim=i) *)
Definition stack {A} (i : nat) (ts : list (tensor A)) : result (tensor A) :=
  match ts with
  | [] => Err RuntimeError
  | t0 :: _ =>
      if forallb (fun t => shape_eqb (shp t) (shp t0)) ts
      then Ok (mkT (insert_at i (length ts) (shp t0))
                   (fun ix => at_ (nth (nth i ix 0) ts t0) (remove_at i ix)))
      else Err RuntimeError
  end.

(** broadcasting *)
Definition bcast_dim (a b : nat) : option nat :=
  if a =? b then Some a else if a =? 1 then Some b else if b =? 1 then Some a else None.
Fixpoint bcast_rev (s1 s2 : list nat) : option (list nat) :=
  match s1, s2 with
  | [], s => Some s
  | s, [] => Some s
  | a :: s1', b :: s2' =>
      match bcast_dim a b, bcast_rev s1' s2' with
      | Some d, Some s => Some (d :: s)
      | _, _ => None
      end
  end.
Definition bcast_shape (s1 s2 : list nat) : option (list nat) :=
  option_map (@rev nat) (bcast_rev (rev s1) (rev s2)).
(* source index of a broadcast index: align right, index 0 on axes of size 1 *)
Fixpoint clip (s ix : list nat) : list nat :=
  match s, ix with
  | d :: s', i :: ix' => (if d =? 1 then 0 else i) :: clip s' ix'
  | _, _ => []
  end.
Definition bcast_ix (s ix : list nat) : list nat := clip s (skipn (length ix - length s) ix).
(* t.broadcast_to(s): only axes of size 1 (or missing) may grow *)
Definition broadcast_to {A} (s : list nat) (t : tensor A) : result (tensor A) :=
  match bcast_shape (shp t) s with
  | Some s' => if shape_eqb s' s then Ok (mkT s (fun ix => at_ t (bcast_ix (shp t) ix))) else Err RuntimeError
  | None => Err RuntimeError
  end.
(* elementwise binary operation with broadcasting *)
Definition tbin {A B D} (f : A -> B -> D) (t : tensor A) (u : tensor B) : result (tensor D) :=
  match bcast_shape (shp t) (shp u) with
  | Some s => Ok (mkT s (fun ix => f (at_ t (bcast_ix (shp t) ix)) (at_ u (bcast_ix (shp u) ix))))
  | None => Err RuntimeError
  end.
(** torch.all(t), t.any(), t.max() (of a non-empty tensor, otherwise torch raises) *)
Definition tall (t : tensor bool) : bool := forallb (fun b => b) (entries t).
Definition tany (t : tensor bool) : bool := existsb (fun b => b) (entries t).
Definition tmax {T} {RO : RealOps T} (t : tensor T) : result T :=
  match entries t with
  | [] => Err RuntimeError
  | x :: xs => Ok (fold_left rmax xs x)
  end.
(* torch.equal: same shape and all entries equal *)
Definition tequal {A} (eqb : A -> A -> bool) (t u : tensor A) : bool :=
  shape_eqb (shp t) (shp u) && forallb (fun ix => eqb (at_ t ix) (at_ u ix)) (indices (shp t)).
