(** Training data of the GPM extraction: /repo/src/pymiediff/helper/tg.py (TG),
    [_eval_mie] 374-442 on tensors and [extract_GPM_sphere_miediff] 445-608 up
    to the call of torchgdm's [extract_gpm_from_fields].

    Simplifications: r_probe and r_gpm are given as tensors, so the Halton and
    grid defaults TG:529-549 are left out; what follows the call of torchgdm
    (stacking its matrices, a dummy geometry) is not modelled; [training] is
    the record of the arguments of that call; keyword arguments of
    get_nearfields other than n_max and backend keep their defaults
    (multishell.py 1003-1007). *)
From Coq Require Import ZArith List Bool String Arith.
From Verif Require Import Ops Tensor ModelMaterial ModelSpecial ModelMie ModelBatch ModelObs ModelJn ModelNear ModelNearLegacy ModelNearPena ModelGeom
  ModelParticle ModelParticleNear ModelTg.
Import ListNotations.
Open Scope string_scope.
Open Scope list_scope.

Section Gpm.
  Context {T : Type} {RO : RealOps T}.
  Notation C := (cplx T).
  Variables (e10 : T) (scipy_jn scipy_yn jn_ratio_t : @bessel_t T) (pi : string -> result Z).

  (** torch.matmul(t, m) with a 3x3 matrix *)
  Definition m_at (m : @mat3 T) (i j : nat) : T :=
    let r := match i with 0 => row1 m | 1 => row2 m | _ => row3 m end in
    match j with 0 => x1 r | 1 => x2 r | _ => x3 r end.
  Definition matmul3 {A} (add : A -> A -> A) (mul : A -> T -> A) (t : tensor A) (m : @mat3 T) : result (tensor A) :=
    match rev (shp t) with
    | [] => Err RuntimeError
    | n :: _ =>
      if Nat.eqb n 3 then
        let ax := ndim t - 1 in
        Ok (mkT (shp t) (fun ix =>
              let e i := mul (at_ t (set_at ax i ix)) (m_at m i (nth ax ix 0)) in add (add (e 0) (e 1)) (e 2)))
      else Err RuntimeError
    end.
  Definition rmatmul := matmul3 radd rmul.
  Definition cmatmul := matmul3 cadd (fun (z : C) r => cmul z (cofr r)).
  (* TG:430-433: every entry of a dictionary of fields *)
  Definition rotate_val (m : @mat3 T) (v : @pyval T) : result (@pyval T) :=
    match v with PC t => let* u := cmatmul t m in Ok (PC u) | _ => Err RuntimeError end.
  Definition rotate_dict (m : @mat3 T) (d : @dict T) : result (@dict T) :=
    map_res (fun kv => let* v := rotate_val m (snd kv) in Ok (fst kv, v)) d.

  (** TG:374-442 [_eval_mie] *)
  Definition gpm_kwargs (p : @particle T) (backend : option string) (n_max : option Z) : kwargs :=
    {| k_internal := false; k_backend := resolve_backend p backend; k_which_jn := "recurrence"; k_n_max := n_max |}.
  Definition eval_mie_t (p : @particle T) (c : @conf T) (k0 r_probe r_gpm : tensor T) (n_max : option Z) (backend : option string) : @st T (list (tensor C)) :=
    bnd (lift (plane_wave_rotation (cf_angle c) (cf_plane c) (cf_pol c))) (fun rot =>
    bnd (lift (rmatmul r_probe rot)) (fun probe =>
    bnd (lift (rmatmul r_gpm rot)) (fun gpm =>
    let nf r := get_nearfields e10 scipy_jn scipy_yn jn_ratio_t pi p k0 r None cone (gpm_kwargs p backend n_max) in
    bnd (nf probe) (fun sca =>
    bnd (nf gpm) (fun inc =>
    let rev_ := transpose rot in
    bnd (lift (rotate_dict rev_ sca)) (fun sca =>
    bnd (lift (rotate_dict rev_ inc)) (fun inc =>
    lift (let* es := dict_tensor "E_s" sca in let* hs := dict_tensor "H_s" sca in
          let* ei := dict_tensor "E_i" inc in let* hi := dict_tensor "H_i" inc in Ok [es; hs; ei; hi])))))))).

  (** TG:588-594 on tensors: the four fields of one illumination over their common maximum *)
  Definition field_norm (fs : list (tensor C)) : result T :=
    let* ms := map_res (fun f => tmax (tmap cabs f)) fs in Ok (rmax (fold_left rmax (tl ms) (hd rzero ms)) (rtenth 30)).
  Definition normalise_t (fs : list (tensor C)) : result (list (tensor C)) :=
    let* n := field_norm fs in Ok (map (tmap (fun z => cdiv z (cofr n))) fs).
  (** TG:574-594: assignment of the j-th fields to the rows of a (N, n_pos, 3) array of zeros *)
  Definition fill (n_pos : nat) (j : nat) (rows : list (list (tensor C))) : result (tensor C) :=
    let zero := mkT [n_pos; 3] (fun _ => czero) in
    let* ts := map_res (fun fs => broadcast_to [n_pos; 3] (nth j fs zero)) rows in
    Ok (mkT [List.length rows; n_pos; 3] (fun ix => at_ (nth (hd 0 ix) ts zero) (tl ix))).

  Record training := { tr_wl : T; tr_es : tensor C; tr_hs : tensor C; tr_ei : tensor C; tr_hi : tensor C; tr_env : T }.
  Fixpoint map_st {A B} (f : A -> @st T B) (l : list A) : @st T (list B) :=
    match l with
    | [] => ret []
    | a :: l' => bnd (f a) (fun b => bnd (map_st f l') (fun bs => ret (b :: bs)))
    end.
  (** TG:560-608: one wavelength; [k0] is the 0-d tensor k0_single *)
  Definition train_one (p : @particle T) (confs : list (@conf T)) (env : T) (r_probe r_gpm : tensor T) (n_max : option Z) (backend : option string) (k0 : T) : @st T training :=
    bnd (map_st (fun c => eval_mie_t p c (scalar_t k0) r_probe r_gpm n_max backend) confs) (fun res =>
    lift (let* rows := map_res normalise_t res in
          let* es := fill (dim_size 0 r_probe) 0 rows in let* hs := fill (dim_size 0 r_probe) 1 rows in
          let* ei := fill (dim_size 0 r_gpm) 2 rows in let* hi := fill (dim_size 0 r_gpm) 3 rows in
          Ok {| tr_wl := rdiv (rmul rtwo rpi) k0; tr_es := es; tr_hs := hs; tr_ei := ei; tr_hi := hi; tr_env := env |})).
  (** TG:500-608 *)
  Definition gpm_training (p : @particle T) (wls : list T) (n_env : n_env_arg) (n_angles : Z) (r_probe r_gpm : tensor T) (n_max : option Z) (backend : option string) : @st T (list training) :=
    let b := resolve_backend p backend in
    bnd (tg_env p wls n_env) (fun eps =>
    bnd (lift (setup_configs n_angles ["xz"; "yz"; "xy"])) (fun confs =>
    map_st (train_one p confs (cre (first_entry eps)) r_probe r_gpm n_max (Some b)) (map (fun w => rdiv (rmul rtwo rpi) w) wls))).
End Gpm.
