(** The torch Bessel routines on tensors, with their optional arguments:
    /repo/src/pymiediff/special.py (SP) 700-921 and 1208-1273.

    The values are the scalar functions of ModelSpecial.v applied to each entry;
    what is added here is the choice of the recurrence depth from the whole
    tensor, the handling of the n_add argument and the shapes. *)
From Coq Require Import ZArith List Bool String Arith.
From Verif Require Import Ops Tensor ModelSpecial ModelMie ModelBatch.
Import ListNotations.
Open Scope list_scope.

Section Jn.
  Context {T : Type} {RO : RealOps T}.
  Notation C := (cplx T).

  (** the n_add argument: "auto", another string, or an int *)
  Inductive pyarg := AStr (s : string) | AInt (k : Z).
  (* n_add.lower() : an int has no such method *)
  Definition str_lower (a : pyarg) : result string :=
    match a with AStr s => Ok (lower s) | AInt _ => Err AttributeError end.
  (* SP:756-759 and 1253-1256; for another string, n_max + n_add (SP:768) raises TypeError *)
  Definition rec_depth (a : pyarg) (z : tensor C) : result nat :=
    let* s := str_lower a in
    if String.eqb s "auto" then let* zmax := tmax (tmap cabs z) in Ok (n_add_auto zmax) else Err TypeError.
  (* SP:700-783 [sph_jn_torch_via_rec] *)
  Definition sph_jn_torch_via_rec (a : pyarg) : @bessel_t T := fun n_max z =>
    let* d := rec_depth a z in
    Ok (orders_t n_max (fun z => sph_jn_via_rec n_max d z) (atleast_1d z)).
  (* SP:1208-1273 [D1n_torch] *)
  Definition D1n_torch_t (a : pyarg) : @bessel_t T := fun n_max z =>
    let* d := rec_depth a z in
    Ok (orders_t n_max (fun z => D1n_torch n_max d z) (atleast_1d z)).

  (** SP:786-921 [sph_jn_torch]; parse_int is Python's int() on a string *)
  Variable parse_int : string -> result Z.
  Definition is_small (z : C) : bool := rltb (cabs z) (rtenth 8).             (* SP:841 *)
  (* SP:869-876 *)
  Definition ratio_depth (a : pyarg) (big : list C) : result Z :=
    match a with
    | AInt k => Ok k
    | AStr s => if String.eqb s "auto"
                then let* zmax := tmax (vec_t rzero (map cabs big)) in Ok (n_extra NAuto zmax)
                else parse_int s
    end.
  (* SP:842-857: the table of the small entries, as it is broadcast *)
  Definition n_range (n_max d : nat) : tensor nat := mkT (S n_max :: repeat 1 d) (fun ix => hd 0 ix).   (* SP:45-46 *)
  Definition jn_small_t (n_max d : nat) (small : list C) : result (tensor C) :=
    let n := n_range n_max d in
    let* zpow := tbin cpow (mkT [1; List.length small] (fun ix => nth (nth 1 ix 0) small czero)) n in
    let dd := tmap (fun n => cofr (rexp (log_dd n))) n in
    tbin cdiv zpow (unsqueeze 0 dd).
  (* tensor[...] = value: leading axes of length 1 of the value are dropped,
     the rest must broadcast to the destination *)
  Fixpoint drop_ones (s : list nat) : list nat := match s with 1 :: s' => drop_ones s' | _ => s end.
  Definition assignable (dst src : list nat) : bool :=
    match bcast_shape (drop_ones src) dst with Some s => shape_eqb s dst | None => false end.
  Definition sph_jn_torch (a : pyarg) : @bessel_t T := fun n_max z =>
    let z := atleast_1d z in
    let flat := entries z in
    let small := filter is_small flat in
    let big := filter (fun z => negb (is_small z)) flat in
    let* _ := match small with                                                 (* SP:842-860 *)
              | [] => Ok tt
              | _ => let* t := jn_small_t n_max (ndim z) small in
                     guard_err (assignable [S n_max; List.length small] (shp t)) RuntimeError
              end in
    let* k := match big with [] => Ok 0%Z | _ => ratio_depth a big end in        (* SP:863-876 *)
    Ok (orders_t n_max (fun z => sph_jn_ratio 0 (Z.to_nat (Z.of_nat n_max + k)) z) z).

  (** SP:978-994, 997-1069 and 325-361: psi, chi, xi with their derivatives
      from a table of j_n, y_n or h_n; f_der reads order 1 (SP:357) *)
  Definition riccati_t (of : C -> (nat -> C) -> nat -> C * C) (n_max : nat) (z tj : tensor C) : result (tensor (C * C)) :=
    let* _ := guard_err (0 <? n_max) IndexError in
    let z := atleast_1d z in
    Ok (mkT (shp tj) (fun ix => of (at_ z (tl ix)) (fun n => at_ tj (n :: tl ix)) (hd 0 ix))).
  Definition psi_torch (jn : @bessel_t T) (n_max : nat) (z : tensor C) : result (tensor (C * C)) :=
    let* j := jn n_max z in riccati_t psi_of n_max z j.
  Definition chi_torch (yn : @bessel_t T) (n_max : nat) (z : tensor C) : result (tensor (C * C)) :=
    let* y := yn n_max z in riccati_t chi_of n_max z y.
  Definition xi_torch (jn yn : @bessel_t T) (n_max : nat) (z : tensor C) : result (tensor (C * C)) :=
    let* j := jn n_max z in
    let* y := yn n_max z in
    let* h := tbin (fun j y => cadd j (cmul ci y)) j y in
    riccati_t psi_of n_max z h.
End Jn.
