(** The patched solver of torchgdm: /repo/src/pymiediff/helper/tg.py (TG) 747-755.

    Simplifications: torchgdm and LAPACK are not modelled. [lu A b] stands for
    [torch.linalg.lu_factor(A)] followed by [ls._batched_lu_solve] on the
    right-hand side b (batches only group right-hand sides); torchgdm's
    [get_interact] is taken to be the identity minus the patched
    [_get_full_Gdotalpha] (TG:691-717); the incident fields at the polarisable
    positions and the mask are torchgdm's and are arguments. *)
From Coq Require Import List Bool Arith.
From Verif Require Import Ops Tensor ModelMaterial ModelSpecial ModelMie ModelBatch ModelTg.
Import ListNotations.
Open Scope list_scope.

Section Solve.
  Context {T : Type} {RO : RealOps T}.
  Notation C := (cplx T).
  Context (lu : @sqmat T -> list C -> result (list C)).

  (* torchgdm get_interact: 1 - G alpha *)
  Definition one_minus (m : @sqmat T) : @sqmat T :=
    {| sq_n := sq_n m; sq_at := fun i j => csub (if i =? j then cofr rone else cofr rzero) (sq_at m i j) |}.
  (** TG:751 [f0.view(len(f0), -1, 1)] of a tensor of shape (L, P, 6): one
      column per illumination; the -1 is ambiguous when there is none *)
  Definition columns (f0 : tensor C) : result (list (list C)) :=
    match shp f0 with
    | [l; p; 6] => if l =? 0 then Err RuntimeError
                   else Ok (map (fun i => map (fun t => at_ f0 [i; t / 6; t mod 6]) (seq 0 (p * 6))) (seq 0 l))
    | _ => Err RuntimeError
    end.
  Fixpoint solve_all (A : @sqmat T) (bs : list (list C)) : result (list (list C)) :=
    match bs with
    | [] => Ok []
    | b :: bs => let* x := if List.length b =? sq_n A then lu A b else Err RuntimeError in
                 let* xs := solve_all A bs in Ok (x :: xs)
    end.
  (** TG:747-755 [_solve_no_inplace]; [npos] the number of all positions *)
  Definition solve_fields (alphas selfs : list (@sqmat T)) (interact : @sqmat T) (npos : nat) (mask : list bool) (f0 : tensor C) : result (tensor C * tensor C) :=
    let* m := g_dot_alpha alphas selfs interact in
    let* bs := columns f0 in
    let* xs := solve_all (one_minus m) bs in
    let* full := zero_fill (List.length bs * npos * 6) mask (List.concat xs) in
    let entry l p c := nth ((l * npos + p) * 6 + c) full (cofr rzero) in
    (* torch.chunk(eh_inside, 2, dim=2) *)
    Ok (mkT [List.length bs; npos; 3] (fun ix => entry (nth 0 ix 0) (nth 1 ix 0) (nth 2 ix 0)),
        mkT [List.length bs; npos; 3] (fun ix => entry (nth 0 ix 0) (nth 1 ix 0) (3 + nth 2 ix 0))).
End Solve.
