(** The autograd functions of /repo/src/pymiediff/special.py (SP) 53-335: spherical
    Bessel functions evaluated by SciPy, with hand-written backward passes.

    SciPy is not modelled: [f n z] stands for scipy.special.spherical_jn(n, z) or
    spherical_yn(n, z); with derivative=True SciPy evaluates
    f_(n-1) - (n+1)/z f_n (and -f_1 for n = 0), which is [f_der_at].
    [z.detach().numpy()] shares its memory with the tensor of the caller, so an
    assignment through it is visible outside; a backward pass therefore returns
    the gradient together with the contents of z afterwards.
    Simplification: no NaN, so np.nan_to_num changes nothing. *)
From Coq Require Import List Arith Bool.
From Verif Require Import Ops Tensor ModelSpecial ModelMie.
Import ListNotations.
Open Scope list_scope.

Section Autograd.
  Context {T : Type} {RO : RealOps T}.
  Notation C := (cplx T).
  Notation fam := (nat -> C -> C).

  (* SP:21-47 _expand_n_z: orders (n+1, 1, ..), argument (1, ...); the results
     broadcast to one leading axis of orders 0..n *)
  Definition by_order {A} (v : nat -> C -> A) (n : nat) (z : tensor C) : tensor A :=
    let z := atleast_1d z in mkT (S n :: shp z) (fun ix => v (hd 0 ix) (at_ z (tl ix))).

  (* SP:75-128, 187-240 forward of _AutoDiffJn / _AutoDiffYn *)
  Definition sph_fn (f : fam) : nat -> tensor C -> tensor C := by_order f.
  (* SP:131-184, 243-296 forward of _AutoDiffdJn / _AutoDiffdYn *)
  Definition der (f : fam) : fam := fun n z => f_der_at z (fun k => f k z) n.
  Definition sph_fn_der (f : fam) : nat -> tensor C -> tensor C := by_order (der f).
  (* SP:299-334 sph_h1n, sph_h1n_der *)
  Definition sph_h1n_t (j y : fam) (n : nat) (z : tensor C) : tensor C :=
    let tj := sph_fn j n z in let ty := sph_fn y n z in
    mkT (shp tj) (fun ix => cadd (at_ tj ix) (cmul ci (at_ ty ix))).
  Definition sph_h1n_der_t (j y : fam) (n : nat) (z : tensor C) : tensor C :=
    let tj := sph_fn_der j n z in let ty := sph_fn_der y n z in
    mkT (shp tj) (fun ix => cadd (at_ tj ix) (cmul ci (at_ ty ix))).

  (* SP:70-72 bessel2ndDer: the write through the shared memory, and the value *)
  Definition overwrite (z : C) : C := if ceqb z czero then cofr (rtenth 10) else z.
  Definition bessel2ndDer (f : fam) (n : nat) (z : C) : C :=
    cmul (cdiv cone (csqr z))
         (cadd (cmul (csub (csub (cofn (n * n)) (cofn n)) (csqr z)) (f n z))
               (cmul (cmul (cofr rtwo) z) (f (n + 1) z))).

  (* the engine sums a gradient of shape (n+1, ...) to the shape (1, ...) of the
     expanded argument and undoes unsqueeze and atleast_1d *)
  Definition to_input (n : nat) (z g : tensor C) : tensor C :=
    mkT (shp z) (fun ix => csum (map (fun o => at_ g (o :: match shp z with [] => [0] | _ => ix end)) (seq 0 (S n)))).
  (* SP:89-107, 201-219: grad_result * dz.conj() *)
  Definition times_conj (n : nat) (d : fam) (z g : tensor C) : tensor C :=
    let dz := by_order d n z in mkT (shp g) (fun ix => cmul (at_ g ix) (cconj (at_ dz ix))).
  Definition backward_fn (f : fam) (n : nat) (z g : tensor C) : tensor C * tensor C :=
    (to_input n z (times_conj n (der f) z g), z).
  (* SP:145-163, 257-275 *)
  Definition backward_der (f : fam) (n : nat) (z g : tensor C) : tensor C * tensor C :=
    let z' := tmap overwrite z in (to_input n z (times_conj n (bessel2ndDer f) z' g), z').
  (* gradients of tj + 1j*ty: g for the first term, g * conj(1j) for the second,
     added up by the engine; the second pass sees what the first one wrote *)
  Definition backward_sum (bj by_ : tensor C -> tensor C -> tensor C * tensor C) (z g : tensor C) : tensor C * tensor C :=
    let (gj, z1) := bj z g in
    let (gy, z2) := by_ z1 (tmap (fun x => cmul x (cconj ci)) g) in
    (mkT (shp z) (fun ix => cadd (at_ gj ix) (at_ gy ix)), z2).
  Definition backward_h1n (j y : fam) (n : nat) := backward_sum (backward_fn j n) (backward_fn y n).
  Definition backward_h1n_der (j y : fam) (n : nat) := backward_sum (backward_der j n) (backward_der y n).

  (* helper.py:262-285 num_center_diff at one point *)
  Definition num_center_diff (f : C -> C) (z eps : C) : C :=
    let z := cconj z in
    let fm := f (csub z eps) in let fp := f (cadd z eps) in
    cdiv (csub fp fm) (cmul (cofr rtwo) eps).
  Definition ones_like (t : tensor C) : tensor C := mkT (shp t) (fun _ => cone).
  (* helper.py:305-315 funct_grad_checker for one of the functions above:
     (num_grad, grad), both squeezed; [v] is the function of order and argument
     and [bw] its backward pass *)
  Definition funct_grad_checker (v : fam) (bw : tensor C -> tensor C -> tensor C * tensor C) (n : nat) (z : tensor C) (eps : C) : tensor C * tensor C :=
    let result := by_order v n z in
    let num := by_order (fun o w => num_center_diff (v o) w eps) n z in
    (squeeze num, squeeze (fst (bw z (ones_like result)))).
End Autograd.
