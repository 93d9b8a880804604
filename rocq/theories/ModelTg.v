(** Helpers for torchgdm: /repo/src/pymiediff/helper/tg.py (TG).

    Simplifications: wavelengths are given as a list (a number is a one-element
    list, TG:173-174); torchgdm itself is not modelled: its constructors are
    records of their arguments; devices of freshly created tensors, progress
    messages and timing are left out; warnings are returned as the list of
    wavelengths they name; [_use_layers] is always true (MN:116). *)
From Coq Require Import ZArith List Bool String Arith.
From Verif Require Import Ops Tensor ModelMaterial ModelSpecial ModelMie ModelBatch ModelObs ModelParticle.
Import ListNotations.
Open Scope list_scope.

Section Tg.
  Context {T : Type} {RO : RealOps T}.
  Notation C := (cplx T).

  (** TG:70-91 [_resolve_mie_backend] *)
  Definition resolve_backend (p : @particle T) (b : option string) : string :=
    match b with
    | Some s => s
    | None => if 2 <? numel (tt (p_r p)) then "pena"%string else "torch"%string
    end.

  (** TG:115-133 [_get_enclosing_radius]: r_layers[-1] *)
  Definition enclosing_radius (p : @particle T) : tensor T := select 0 (dim_size 0 (tt (p_r p)) - 1) (tt (p_r p)).

  (** the n_env argument: None, a number, or a tensor *)
  Inductive n_env_arg := NNone | NNum (n : C) | NTen (t : tensor C).
  Definition first_entry (t : tensor C) : C := at_ t (repeat 0 (ndim t)).
  (* torch.all(eps_env == eps_env[0]) for a 1-D tensor *)
  Definition all_as_first (t : tensor C) : bool := forallb (fun z => ceqb z (first_entry t)) (entries t).
  (** TG:178-183 and TG:509-514: eps_env after the override, and the value of
      [eps_env[0]], which is read right after it *)
  Definition env_override (eps : tensor C) (n : n_env_arg) : result (tensor C) :=
    if numel eps =? 0 then Err IndexError                                  (* eps_env[0] *)
    else if negb (all_as_first eps) then Err AssertionError
    else match n with
         | NNone => Ok eps
         | NNum z => if ceqb (first_entry eps) (csqr z) then Err TypeError  (* a number is not subscriptable *)
                     else Err AssertionError
         | NTen t => if negb (numel t =? 1) then Err RuntimeError           (* truth value of several entries *)
                     else if negb (ceqb (first_entry eps) (csqr (first_entry t))) then Err AssertionError
                     else if ndim t =? 0 then Err IndexError                (* 0-d tensors cannot be indexed *)
                     else Ok (tmap csqr t)
         end.

  Definition wl_t (wls : list T) : tensor T := vec_t rzero wls.
  Definition k0_of (wls : list T) : tensor T := tmap (fun w => rdiv (rmul rtwo rpi) w) (wl_t wls).
  (** TG:94-112 [_get_env_eps] and the common preparation TG:170-183, 500-514 *)
  Definition tg_env (p : @particle T) (wls : list T) (n : n_env_arg) : @st T (tensor C) :=
    bnd (eval_mat {| wa_t := wl_t wls; wa_src := None |} (p_env p)) (fun u =>
    lift (env_override (atleast_1d (tmap v_eps u)) n)).

  (* Tensor.moveaxis(0, 1) *)
  Definition moveaxis01 (t : tensor C) : result (tensor C) :=
    match shp t with
    | a :: b :: s => Ok (mkT (b :: a :: s) (fun ix => match ix with i :: j :: ix' => at_ t (j :: i :: ix') | _ => at_ t ix end))
    | _ => Err IndexError
    end.
  (** TG:188-197 *)
  Definition tg_layout (t : tensor C) : result (tensor C) := moveaxis01 (if ndim t =? 1 then unsqueeze 1 t else t).

  (* miecoeff["a_n"] *)
  Definition dict_tensor (key : string) (d : @dict T) : result (tensor C) :=
    match find (fun kv => String.eqb (fst kv) key) d with
    | Some (_, PC t) => Ok t
    | Some _ => Err TypeError
    | None => Err KeyError
    end.

  Variables (scipy_jn scipy_yn jn_ratio_t : @bessel_t T).
  Record tg_mie := { m_a : tensor C; m_b : tensor C; m_eps : tensor C; m_n_env : tensor C; m_r : tensor T; m_wls : list T }.
  Definition tg_kwargs (p : @particle T) (backend : option string) (n_max : Z) : kwargs :=
    {| k_internal := false; k_backend := resolve_backend p backend; k_which_jn := "recurrence"%string; k_n_max := Some n_max |}.
  (** TG:136-213 [mie_ab_sphere_3d_AD]; as_dict only selects which of these
      values are returned *)
  Definition mie_ab (p : @particle T) (wls : list T) (n : n_env_arg) (n_max : Z) (backend : option string) : @st T tg_mie :=
    bnd (tg_env p wls n) (fun eps =>
    bnd (get_mie_coefficients scipy_jn scipy_yn jn_ratio_t p (k0_of wls) None (tg_kwargs p backend n_max)) (fun d =>
    bnd (lift (dict_tensor "a_n" d)) (fun a =>
    bnd (lift (dict_tensor "b_n" d)) (fun b =>
    bnd (lift (tg_layout a)) (fun a =>
    bnd (lift (tg_layout b)) (fun b =>
    ret {| m_a := a; m_b := b; m_eps := eps; m_n_env := tmap csqrt eps; m_r := enclosing_radius p; m_wls := wls |})))))).

  (** TG:775-925 [StructAutodiffMieEffPola3D.__init__] *)
  Record effpola := { ep_alpha : tensor C; ep_r0 : tensor T; ep_radius : tensor T; ep_warn_a : list T; ep_warn_b : list T }.
  (* wavelengths[x_n[:, 1].abs() > tol], TG:858-880 *)
  Definition violations (tol : T) (t : tensor C) (wls : list T) : list T :=
    map fst (filter (fun wk => rltb tol (cabs (at_ t [snd wk; 1]))) (combine wls (seq 0 (List.length wls)))).
  (* 1j * 3 / 2 * x_n[:, 0] / k0**3 / n_env**e, TG:883-884 *)
  Definition pola (e : nat) (x : tensor C) (k0 : tensor T) (n : tensor C) : result (tensor C) :=
    let* u := tbin cdiv (tmap (fun z => cmul (cdiv (cmul ci (cofr (rofZ 3))) (cofr rtwo)) z) (select 1 0 x)) (tmap (fun k => cofr (rmul k (rmul k k))) k0) in
    tbin cdiv u (tmap (fun z => cpow z e) n).
  (* alpha_6x6[:, i, i] += value.unsqueeze(1) needs one value per wavelength *)
  Definition fits (K : nat) (t : tensor C) : bool := shape_eqb (shp t) [K].
  (* r0.squeeze() and len(r0) == 3, TG:894-901 *)
  Definition centre (r0 : option (tensor T)) : result (tensor T) :=
    match r0 with
    | None => Ok (vec_t rzero [rzero; rzero; rzero])
    | Some t => match shp (squeeze t) with
                | [] => Err TypeError                                        (* len() of a 0-d tensor *)
                | d :: _ => if d =? 3 then Ok (squeeze t) else Err AssertionError
                end
    end.
  Definition eff_pola (p : @particle T) (wls : list T) (n : n_env_arg) (backend : option string) (tol : T) (r0 : option (tensor T)) : @st T effpola :=
    bnd (mie_ab p wls n 2%Z backend) (fun m =>
    bnd (lift (pola 1 (m_a m) (k0_of wls) (m_n_env m))) (fun pE =>
    bnd (lift (pola 3 (m_b m) (k0_of wls) (m_n_env m))) (fun mH =>
    let K := List.length wls in
    if negb (fits K pE && fits K mH) then fail RuntimeError
    else
      bnd (lift (centre r0)) (fun r =>
      ret {| ep_alpha := mkT [K; 6; 6] (fun ix => match ix with
               | [k; i; j] => if i =? j then (if i <? 3 then cadd (cofr rzero) (at_ pE [k]) else cadd (cofr rzero) (at_ mH [k])) else cofr rzero
               | _ => cofr rzero end);
             ep_r0 := r; ep_radius := m_r m;
             ep_warn_a := violations tol (m_a m) wls; ep_warn_b := violations tol (m_b m) wls |})))).
End Tg.

(** TG:650-681 [combine_gpm_structures_autodiff]; [G], [E], [D] stand for
    dictionaries, environments and devices, which are only passed on *)
Section Combine.
  Context {T G E D : Type}.
  Inductive gpm_entry := One (g : G) | Several (l : list G).            (* gpm_dict: a dictionary or a list of them *)
  Record gpm := { gp_r0 : tensor T; gp_dict : gpm_entry; gp_env : E; gp_dev : D }.
  Record combined := { cb_pos : tensor T; cb_dicts : list G; cb_env : E; cb_dev : D }.
  Definition single (g : gpm_entry) : result G :=
    match g with One g => Ok g | Several [g] => Ok g | Several _ => Err ValueError end.
  Definition combine_gpm (ss : list gpm) (env : option E) (dev : option D) : result combined :=
    match ss with
    | [] => Err ValueError
    | s0 :: _ =>
        let* pos := stack 0 (map gp_r0 ss) in
        let* ds := map_res (fun s => single (gp_dict s)) ss in
        Ok {| cb_pos := pos; cb_dicts := ds; cb_env := match env with Some e => e | None => gp_env s0 end;
              cb_dev := match dev with Some d => d | None => gp_dev s0 end |}
    end.
End Combine.

(** TG:721-736 [_zero_fill_nonpolarizable_fields_no_inplace]: the flattened
    arrays; [n] is the number of entries of the full field *)
Section Scatter.
  Context {T : Type} {RO : RealOps T}.
  Notation C := (cplx T).
  (* torch.nonzero of a flat mask *)
  Fixpoint nonzero_from (i : nat) (mask : list bool) : list nat :=
    match mask with [] => [] | b :: m => if b then i :: nonzero_from (S i) m else nonzero_from (S i) m end.
  Definition set_nth (i : nat) (x : C) (l : list C) : list C := firstn i l ++ match skipn i l with [] => [] | _ :: t => x :: t end.
  (* Tensor.scatter(0, index, src): more indices than values or an index out of range raise *)
  Definition scatter (base : list C) (idx : list nat) (vals : list C) : result (list C) :=
    if List.length vals <? List.length idx then Err RuntimeError
    else if negb (forallb (fun i => i <? List.length base) idx) then Err RuntimeError
    else Ok (fold_left (fun l iv => set_nth (fst iv) (snd iv) l) (combine idx vals) base).
  Definition zero_fill (n : nat) (mask : list bool) (vals : list C) : result (list C) :=
    scatter (repeat (cofr rzero) n) (nonzero_from 0 mask) vals.

  (** TG:691-717 [_get_full_Gdotalpha_no_inplace]: matrices as (size, entries) *)
  Record sqmat := { sq_n : nat; sq_at : nat -> nat -> C }.
  Definition total (bs : list sqmat) : nat := fold_right (fun b n => sq_n b + n) 0 bs.
  (* torch.block_diag *)
  Fixpoint block_at (bs : list sqmat) (i j : nat) : C :=
    match bs with
    | [] => cofr rzero
    | b :: bs => if (i <? sq_n b) && (j <? sq_n b) then sq_at b i j
                 else if (i <? sq_n b) || (j <? sq_n b) then cofr rzero
                 else block_at bs (i - sq_n b) (j - sq_n b)
    end.
  Definition block_diag (bs : list sqmat) : sqmat := {| sq_n := total bs; sq_at := block_at bs |}.
  Definition ones_like (b : sqmat) : sqmat := {| sq_n := sq_n b; sq_at := fun _ _ => cofr rone |}.
  Definition same_size (a b : sqmat) : result unit := if sq_n a =? sq_n b then Ok Datatypes.tt else Err RuntimeError.
  Fixpoint sum_upto (n : nat) (f : nat -> C) : C := match n with O => cofr rzero | S n => cadd (sum_upto n f) (f n) end.
  Definition matmul (a b : sqmat) : sqmat := {| sq_n := sq_n a; sq_at := fun i j => sum_upto (sq_n a) (fun t => cmul (sq_at a i t) (sq_at b t j)) |}.
  (* interact: the matrix of interaction tensors, reduced to two dimensions *)
  Definition g_dot_alpha (alphas selfs : list sqmat) (interact : sqmat) : result sqmat :=
    let ones := block_diag (map ones_like alphas) in
    let* _ := same_size interact ones in
    let masked := {| sq_n := sq_n interact; sq_at := fun i j => if ceqb (sq_at ones i j) (cofr rone) then cofr rzero else sq_at interact i j |} in
    let* _ := same_size masked (block_diag selfs) in
    let g := {| sq_n := sq_n masked; sq_at := fun i j => cadd (sq_at masked i j) (sq_at (block_diag selfs) i j) |} in
    Ok (matmul g (block_diag alphas)).
End Scatter.
