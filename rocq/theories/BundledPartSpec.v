(** Materials of a particle whose permittivity is known to be physical (C94):
    constants, and database objects in any state of use. *)
From Coq Require Import Reals List String.
From Coquelicot Require Import Coquelicot.
From Verif Require Import Ops ROps Tensor ModelMaterial MaterialSpec ModelBatch ModelParticle ModelBundled BundledSpec.
Import ListNotations.

Inductive physical_material : @mat R -> (R -> Prop) -> Prop :=
| pm_const : forall eps d, physical eps -> physical_material (Const (new_const eps d)) (fun _ => True)
| pm_bundled : forall name material f y d m hist,
    In (f, y) bundled -> file_for material f -> lower name = lower material -> name <> EmptyString ->
    @mat_database R ROps (refindex_data (map fst bundled)) bundled name d = Ok (Some m) ->
    physical_material (Db (hrun m hist)) (valid_at f).
