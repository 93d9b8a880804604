(** The log-derivative variants of the Riccati-Bessel functions:
    /repo/src/pymiediff/special.py (SP) 1276-1448.

    Nothing in the package calls these four functions.  Tensors are complex;
    n_max is the largest requested order.  The arguments l, eps (and m for psi
    and xi) are not used by the code. *)
From Coq Require Import ZArith List Bool String Arith.
From Verif Require Import Ops Tensor ModelSpecial ModelMie ModelBatch ModelJn.
Import ListNotations.
Open Scope list_scope.

(** Python indexing: a negative index counts from the end *)
Definition py_wrap (len : nat) (i : Z) : result nat :=
  let j := if (i <? 0)%Z then (i + Z.of_nat len)%Z else i in
  if ((j <? 0) || (Z.of_nat len <=? j))%Z then Err IndexError else Ok (Z.to_nat j).
Definition py_item {A} (l : list A) (i : Z) : result A :=
  let* j := py_wrap (List.length l) i in
  match nth_error l j with Some a => Ok a | None => Err IndexError end.
(* t[i] and t[:, i, ...] *)
Definition t_item {A} (axis : nat) (t : tensor A) (i : Z) : result (tensor A) :=
  let* _ := guard_err (axis <? ndim t) IndexError in
  let* j := py_wrap (dim_size axis t) i in
  Ok (select axis j t).

Section Logdir.
  Context {T : Type} {RO : RealOps T}.
  Notation C := (cplx T).
  (* what a Python function hands back: a tensor, or None when it ends without return *)
  Inductive pyret := RetNone | RetTensor (t : tensor C).

  (* SP:1276-1326 [D3n_torch]: the tuple (D3ns, psixis).  For a 0-d tensor psixi0 has
     no axis but the later entries have one, so that torch.stack (1323) raises *)
  Definition D3n_torch_t (n_max : nat) (z D1ns : tensor C) : result (list (tensor C)) :=
    let* _ := guard_err ((0 <? ndim z) || (n_max =? 0)) RuntimeError in
    let tab f s := mkT (S n_max :: s) (fun ix => f (D3n_torch (at_ (atleast_1d z) (tl ix)) (fun k => at_ D1ns (k :: tl ix)) (hd 0 ix))) in
    Ok [tab snd (shp (atleast_1d z)); tab fst (shp z)].

  (* the loops "for n_iter in range(1, n_max + 1): fs.append(...)" with the hard-coded n_max = 10 *)
  Fixpoint appends (step : list (tensor C) -> nat -> result (tensor C)) (ns : list nat) (fs : list (tensor C)) : result (list (tensor C)) :=
    match ns with
    | [] => Ok fs
    | n :: ns' => let* f := step fs n in appends step ns' (fs ++ [f])
    end.
  Definition hard_orders : list nat := seq 1 10.
  Definition over (n : nat) (x : tensor C) : tensor C := tmap (cdiv (cofn n)) x.

  (* SP:1382-1412 [psi_torch_logdir]; the stacked result is not returned *)
  Definition psi_torch_logdir (n_max : nat) (x : tensor C) : result pyret :=
    let* xL := t_item 0 x (-1) in                                             (* 1397 *)
    let* D1 := D1n_torch_t (AStr "auto") n_max xL in                           (* 1399 *)
    let* psis := appends (fun psis n =>                                        (* 1407-1410 *)
        let* p := py_item psis (Z.of_nat n - 2) in
        let* d := t_item 0 D1 (Z.of_nat n - 2) in
        let* q := tbin csub (over n xL) d in tbin cmul p q) hard_orders [tmap csin xL] in
    let* _ := stack 0 psis in                                                  (* 1412 *)
    Ok RetNone.

  (* SP:1415-1448 [xi_torch_logdir]: D3n_xL is the tuple of D3n_torch *)
  Definition xi_torch_logdir (n_max : nat) (x : tensor C) : result pyret :=
    let* xL := t_item 0 x (-1) in                                             (* 1431 *)
    let* D1 := D1n_torch_t (AStr "auto") n_max xL in                           (* 1433 *)
    let* D3 := D3n_torch_t n_max xL D1 in                                      (* 1434 *)
    let* xis := appends (fun xis n =>                                          (* 1442-1445 *)
        let* p := py_item xis (Z.of_nat n - 2) in
        let* d := py_item D3 (Z.of_nat n - 2) in
        let* q := tbin csub (over n xL) d in tbin cmul p q) hard_orders [tmap (fun x => csub (csin x) (cmul ci (ccos x))) xL] in
    let* _ := stack 0 xis in                                                   (* 1447 *)
    Ok RetNone.

  (* SP:1329-1379 [Ql_torch] *)
  Definition ph (a : T) : C := cexp (cmul (cmul (cofr (ropp rtwo)) ci) (cofr a)).   (* exp(-2j*a) *)
  Definition Ql_first (z1 z2 : C) : C :=                                       (* 1361-1363 *)
    cmul (cdiv (csub (ph (cre z1)) (ph (cim z1))) (Ql_den0 z2))
         (cofr (rexp (rmul (ropp rtwo) (rsub (cim z2) (cim z1))))).
  Definition Ql_layer (n_max : nat) (m x : tensor C) (Qls : list (tensor C)) (l : nat) : result (list (tensor C)) :=
    let* ml := t_item 1 m (Z.of_nat l - 1) in
    let* xa := t_item 1 x (Z.of_nat l - 2) in
    let* xb := t_item 1 x (Z.of_nat l - 1) in
    let* z1 := tbin cmul ml xa in                                              (* 1349 *)
    let* z2 := tbin cmul ml xb in                                              (* 1350 *)
    let* D1a := D1n_torch_t (AStr "auto") n_max z1 in                          (* 1354-1358 *)
    let* D1b := D1n_torch_t (AStr "auto") n_max z2 in
    let* D3a := D3n_torch_t n_max z1 D1a in
    let* D3b := D3n_torch_t n_max z2 D1b in
    let* z1l := t_item 0 z1 (-1) in
    let* z2l := t_item 0 z2 (-1) in
    let* q0 := tbin Ql_first z1l z2l in
    appends (fun Qls n =>                                                      (* 1366-1372 *)
        let* q := py_item Qls (Z.of_nat n - 1) in
        let* x1 := t_item 0 x (Z.of_nat l - 2) in
        let* x2 := t_item 0 x (Z.of_nat l - 1) in
        let* r := tbin (fun a b => csqr (cdiv a b)) x1 x2 in
        let* f1 := tbin cmul q r in
        let* db := t_item 0 D1b (Z.of_nat n - 1) in
        let* nb := tbin (fun z d => cadd (cmul z d) (cofn n)) z2 db in
        let* da := t_item 0 D1a (Z.of_nat n - 1) in
        let* na := tbin (fun z d => cadd (cmul z d) (cofn n)) z1 da in
        let* g := tbin cdiv nb na in
        let* f2 := tbin cmul f1 g in
        let* eb := py_item D3b (Z.of_nat n - 2) in
        let* ub := tbin (fun z d => csub (cofn n) (cmul z d)) z2 eb in
        let* ea := py_item D3a (Z.of_nat n - 2) in
        let* ua := tbin (fun z d => csub (cofn n) (cmul z d)) z1 ea in
        let* h := tbin cdiv ub ua in
        tbin cmul f2 h) hard_orders (Qls ++ [q0]).
  Fixpoint Ql_layers (n_max : nat) (m x : tensor C) (ls : list nat) (Qls : list (tensor C)) : result (list (tensor C)) :=
    match ls with
    | [] => Ok Qls
    | l :: ls' => let* Qls := Ql_layer n_max m x Qls l in Ql_layers n_max m x ls' Qls
    end.
  Definition Ql_torch (n_max : nat) (m x : tensor C) : result pyret :=
    let* Qls := Ql_layers n_max m x (seq 1 10) [] in                           (* l_max = 10, 1342 *)
    let* t := stack 0 Qls in
    Ok (RetTensor t).
End Logdir.
