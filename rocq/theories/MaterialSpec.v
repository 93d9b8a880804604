(** What the text of a tabulated material means, and histories of calls;
    written without the splitting and lookup functions of the model. *)
From Coq Require Import Reals List String Ascii Bool.
From Coquelicot Require Import Complex.
From Verif Require Import ROps Tensor ModelMaterial.
Import ListNotations.
Open Scope list_scope.

Fixpoint all_chars (P : ascii -> bool) (s : string) : bool :=
  match s with EmptyString => true | String c s' => P c && all_chars P s' end.
Definition blank (s : string) : Prop := all_chars is_ws s = true.
Definition word (s : string) : Prop := s <> EmptyString /\ all_chars (fun c => negb (is_ws c)) s = true.
Definition starts_ws (s : string) : Prop := match s with EmptyString => True | String c _ => is_ws c = true end.
Open Scope string_scope.
(* a line consists of words separated by white space, blanks at both ends allowed *)
Inductive line_of : list string -> string -> Prop :=
| line_end : forall b, blank b -> line_of [] b
| line_word : forall b w ws rest, blank b -> word w -> starts_ws rest -> line_of ws rest ->
    line_of (w :: ws) (b ++ w ++ rest).
Definition no_newline (s : string) : Prop := all_chars (fun c => negb (Ascii.eqb c newline)) s = true.
Fixpoint join_lines (ls : list string) : string :=
  match ls with [] => "" | [l] => l | l :: ls' => l ++ String newline (join_lines ls') end.
Close Scope string_scope.

(** one data row: wavelength in micrometres, n, k *)
Inductive row_means (pf : string -> Ops.result R) : list string -> option (R * R * R) -> Prop :=
| row_blank : row_means pf [] None
| row_n : forall s0 s1 w n, pf s0 = Ops.Ok w -> pf s1 = Ops.Ok n -> row_means pf [s0; s1] (Some (w, n, 0%R))
| row_nk : forall s0 s1 s2 more w n k, pf s0 = Ops.Ok w -> pf s1 = Ops.Ok n -> pf s2 = Ops.Ok k ->
    row_means pf (s0 :: s1 :: s2 :: more) (Some (w, n, k)).
Fixpoint kept {A} (l : list (option A)) : list A :=
  match l with [] => [] | None :: l' => kept l' | Some a :: l' => a :: kept l' end.

(** histories *)
Inductive hop := HGet (a : @warg R) | HDev (d : device).
Definition hstep (m : @db R) (o : hop) : @db R :=
  match o with HGet a => fst (get_epsilon_db m a) | HDev d => set_device_db d m end.
Definition hrun (m : @db R) (h : list hop) : @db R := fold_left hstep h m.
(* equal outcome up to the autograd connection *)
Definition same_eps (x y : Ops.result (tensor (@value R))) : Prop :=
  match x, y with
  | Ops.Ok t, Ops.Ok u => shp t = shp u /\ forall ix, v_eps (at_ t ix) = v_eps (at_ u ix) /\ v_dev (at_ t ix) = v_dev (at_ u ix)
  | Ops.Err e, Ops.Err e' => e = e'
  | _, _ => False
  end.
