(** The [Particle] class: /repo/src/pymiediff/main.py (MN).

    Material objects live in a heap (they are shared by reference); a particle
    holds their addresses.  Tensors carry the device they are stored on.
    Simplifications: radii, permittivities and wave vectors are given as
    tensors; a device is its canonical name; [__repr__] is left out; when a call
    is both invalid and mixes devices, the exception of the former is reported. *)
From Coq Require Import ZArith List Bool String Arith.
From Verif Require Import Ops Tensor ModelMaterial ModelSpecial ModelMie ModelBatch ModelObs.
Import ListNotations.
Open Scope list_scope.

Section Particle.
  Context {T : Type} {RO : RealOps T}.
  Notation C := (cplx T).

  Record dten (A : Type) := mkD { td : device; tt : tensor A }.
  Arguments mkD {A} _ _. Arguments td {A} _. Arguments tt {A} _.
  Definition to {A} (d : device) (t : dten A) : dten A := mkD d (tt t).

  Definition heap := list (@mat T).
  (* a material argument: number (or 0-d tensor), a tensor with axes, a material
     object, or anything without a set_device method *)
  Inductive matarg := AScalar (n : C) | ATensor (shape : list nat) | AObj (id : nat) | ABad.
  Record pargs := {
    g_r_layers : option (tensor T); g_eps_layers : option (tensor C); g_mat_layers : option (list matarg);
    g_mat_env : matarg; g_device : option device;
    g_r_core : option (tensor T); g_mat_core : option matarg;
    g_r_shell : option (tensor T); g_mat_shell : option matarg }.
  Record particle := {
    p_dev : device; p_r : dten T; p_eps : option (dten C); p_mats : option (list nat); p_env : nat;
    p_rc : dten T; p_rs : option (dten T); p_mc : option nat; p_ms : option nat }.

  (** state and exceptions: effects on the heap survive an exception *)
  Definition st (A : Type) := heap -> heap * result A.
  Definition ret {A} (a : A) : st A := fun h => (h, Ok a).
  Definition fail {A} (e : exn) : st A := fun h => (h, Err e).
  Definition bnd {A B} (x : st A) (f : A -> st B) : st B :=
    fun h => match x h with (h, Ok a) => f a h | (h, Err e) => (h, Err e) end.
  Definition lift {A} (r : result A) : st A := fun h => (h, r).

  Fixpoint update (i : nat) (m : @mat T) (h : heap) : heap :=
    match h, i with
    | [], _ => []
    | _ :: h', O => m :: h'
    | m0 :: h', S i' => m0 :: update i' m h'
    end.
  Definition with_mat {A} (i : nat) (f : @mat T -> @mat T * result A) : st A := fun h =>
    match nth_error h i with
    | None => (h, Err AttributeError)
    | Some m => let (m, r) := f m in (update i m h, r)
    end.

  (** MN:121-126 [_as_material] *)
  Definition as_material (d : device) (a : matarg) : st nat := fun h =>
    match a with
    | AScalar n => (h ++ [Const (new_const (csqr n) d)], Ok (List.length h))      (* MatConstant(mat**2) *)
    | ATensor s => (h, Err (if fold_right Nat.mul 1 s =? 1 then TypeError else RuntimeError))  (* mat.py:181-184 *)
    | AObj i => with_mat i (fun m => (set_device_mat d m, Ok i)) h
    | ABad => (h, Err AttributeError)
    end.
  Fixpoint as_materials (d : device) (l : list matarg) : st (list nat) :=
    match l with
    | [] => ret []
    | a :: l' => bnd (as_material d a) (fun i => bnd (as_materials d l') (fun is => ret (i :: is)))
    end.

  (** MN:190-198 and MN:218-226: aliases *)
  Definition last_alias {A} (l : list A) : option A := match l with [] | [_] => None | _ => nth_error l (List.length l - 1) end.
  Definition mk_particle (d : device) (r : dten T) (eps : option (dten C)) (mats : option (list nat)) (env : nat) : particle :=
    let n := numel (tt r) in
    {| p_dev := d; p_r := r; p_eps := eps; p_mats := mats; p_env := env;
       p_rc := mkD (td r) (select 0 0 (tt r));
       p_rs := if 1 <? n then Some (mkD (td r) (select 0 (n - 1) (tt r))) else None;
       p_mc := match mats with Some (m :: _) => Some m | _ => None end;
       p_ms := match mats with Some l => last_alias l | None => None end |}.

  Definition is_some {A} (o : option A) : bool := match o with Some _ => true | None => false end.
  Definition chk (b : bool) : st unit := if b then ret Datatypes.tt else fail ValueError.

  (* torch.all(r[1:] > r[:-1]) for a 1-D tensor *)
  Definition increasing_1d (r : tensor T) : bool :=
    forallb (fun i => rltb (at_ r [i]) (at_ r [S i])) (seq 0 (numel r - 1)).

  (** MN:128-181: radii, permittivities and materials of the layers *)
  Definition layer_parts (d : device) (a : pargs) : st (dten T * option (dten C) * option (list nat)) :=
      if is_some (g_r_layers a) || is_some (g_eps_layers a) || is_some (g_mat_layers a) then
        bnd (chk (negb (is_some (g_r_core a) || is_some (g_mat_core a) || is_some (g_r_shell a) || is_some (g_mat_shell a)))) (fun _ =>
        match g_r_layers a with
        | None => fail ValueError
        | Some r =>
            bnd (chk (negb (is_some (g_eps_layers a) && is_some (g_mat_layers a)))) (fun _ =>
            bnd (chk (is_some (g_eps_layers a) || is_some (g_mat_layers a))) (fun _ =>
            bnd (chk (ndim r =? 1)) (fun _ =>
            bnd (chk (negb (numel r <? 1))) (fun _ =>
            match g_eps_layers a, g_mat_layers a with
            | Some e, _ => ret (mkD d r, Some (mkD d e), None)
            | None, Some ms =>
                bnd (chk (List.length ms =? numel r)) (fun _ =>
                bnd (as_materials d ms) (fun is => ret (mkD d r, None, Some is)))
            | None, None => fail ValueError
            end))))
        end)
      else
        match g_r_core a, g_mat_core a with
        | Some rc, Some mc =>
            bnd (chk (negb (xorb (is_some (g_r_shell a)) (is_some (g_mat_shell a))))) (fun _ =>
            bnd (match g_r_shell a, g_mat_shell a with
                 | Some rs, Some ms => bnd (lift (stack 0 [rc; rs])) (fun r => bnd (as_materials d [mc; ms]) (fun is => ret (r, is)))
                 | _, _ => bnd (as_materials d [mc]) (fun is => ret (unsqueeze 0 rc, is))
                 end) (fun ri =>
            bnd (chk (ndim (fst ri) =? 1)) (fun _ =>
            bnd (chk (negb ((1 <? numel (fst ri)) && negb (increasing_1d (fst ri))))) (fun _ =>
            ret (mkD d (fst ri), None, Some (snd ri))))))
        | _, _ => fail ValueError
        end.

  (** MN:113-198 [Particle.__init__] *)
  Definition new_particle (a : pargs) : st particle :=
    let d := match g_device a with Some d => d | None => "cpu"%string end in
    bnd (layer_parts d a) (fun rem => let '(r, e, ms) := rem in
    bnd (as_material d (g_mat_env a)) (fun env => ret (mk_particle d r e ms env))).

  (** MN:200-226 [Particle.set_device] *)
  Fixpoint move_all (d : device) (is : list nat) : st unit :=
    match is with
    | [] => ret Datatypes.tt
    | i :: is' => bnd (with_mat i (fun m => (set_device_mat d m, Ok Datatypes.tt))) (fun _ => move_all d is')
    end.
  Definition set_device (d : device) (p : particle) : st particle :=
    bnd (match p_mats p with Some is => move_all d is | None => ret Datatypes.tt end) (fun _ =>
    bnd (move_all d [p_env p]) (fun _ =>
    ret (mk_particle d (to d (p_r p)) (option_map (to d) (p_eps p)) (p_mats p) (p_env p)))).

  (** MN:244-268 [get_material_permittivities]; src identifies the k0 tensor *)
  Definition dev_of (u : tensor (@value T)) : device := v_dev (at_ u (repeat 0 (ndim u))).
  Definition dten_of (u : tensor (@value T)) : dten C := mkD (dev_of u) (tmap v_eps u).
  Definition eval_mat (a : @warg T) (i : nat) : st (tensor (@value T)) := with_mat i (fun m => get_epsilon m a).
  Fixpoint eval_mats (a : @warg T) (is : list nat) : st (list (tensor (@value T))) :=
    match is with
    | [] => ret []
    | i :: is' => bnd (eval_mat a i) (fun u => bnd (eval_mats a is') (fun us => ret (u :: us)))
    end.
  Definition wl0 (k0 : tensor T) : tensor T := tmap (fun k => rdiv (rmul rtwo rpi) k) k0.
  Definition permittivities (p : particle) (k0 : tensor T) (src : option nat) : st (dten C * dten C) :=
    let a := {| wa_t := wl0 k0; wa_src := src |} in
    bnd (eval_mat a (p_env p)) (fun env =>
    match p_eps p with
    | Some e => ret (e, dten_of env)
    | None =>
        match p_mats p with
        | None => fail TypeError                                    (* iterating over None *)
        | Some is =>
            bnd (eval_mats a is) (fun us =>
            bnd (lift (stack 0 us)) (fun s =>
            match us with
            | u0 :: _ => if forallb (fun u => String.eqb (dev_of u) (dev_of u0)) us
                         then ret (mkD (dev_of u0) (tmap v_eps s), dten_of env) else fail RuntimeError
            | [] => fail RuntimeError
            end))
        end
    end).

  (** dictionaries of results *)
  Inductive pyval := PR (t : tensor T) | PC (t : tensor C) | PZ (z : Z).
  Definition dict := list (string * pyval).
  (* helper.py:371-387 [_squeeze_dimensions]; integers here are 0-d tensors *)
  Definition squeeze_val (v : pyval) : pyval := match v with PR t => PR (squeeze t) | PC t => PC (squeeze t) | PZ z => PZ z end.
  Definition squeeze_dimensions (d : dict) : dict := map (fun kv => (fst kv, squeeze_val (snd kv))) d.

  (* multishell.py:777-799 *)
  Open Scope string_scope.
  Notation "a ++l b" := (app a b) (at level 60, right associativity).
  Definition coeff_dict (o : @output T) : dict :=
    [("a_n", PC (o_a o)); ("b_n", PC (o_b o))] ++l
    match o_internal o with
    | Some t => [("c_n", PC (tmap cn t)); ("d_n", PC (tmap dn t)); ("f_n", PC (tmap fn t)); ("g_n", PC (tmap gn t));
                 ("v_n", PC (tmap vn t)); ("w_n", PC (tmap wn t))]
    | None => []
    end.
  Definition output_dict (o : @output T) : result dict :=
    let cfg := o_cfg o in
    let* m := tbin cdiv (tmap csqrt (c_eps cfg)) (unsqueeze 1 (c_n_env cfg)) in
    Ok ([("k", PC (o_k o)); ("k0", PR (c_k0 cfg)); ("n", PR (arange1 (Z.to_nat (o_n_max o)))); ("n_max", PZ (o_n_max o));
         ("r_c", PR (o_r_c o)); ("r_s", PR (o_r_s o)); ("eps_c", PC (o_eps_c o)); ("eps_s", PC (o_eps_s o)); ("eps_env", PC (c_env cfg));
         ("n_c", PC (tmap csqrt (o_eps_c o))); ("n_s", PC (tmap csqrt (o_eps_s o))); ("n_env", PC (c_n_env cfg));
         ("r_layers", PR (c_r cfg)); ("eps_layers", PC (c_eps cfg)); ("m_layers", PC m); ("L", PZ (Z.of_nat (dim_size 1 (c_r cfg))))]
        ++l coeff_dict o).
  (* multishell.py:873-893 *)
  Definition xs_dict (x : @xsections T) : dict :=
    [("wavelength", PR (tmap (fun k => rdiv (rmul rtwo rpi) k) (x_k0 x))); ("k0", PR (x_k0 x)); ("n", PR (x_n x)); ("n_max", PZ (x_n_max x));
     ("cs_geo", PR (x_geo x)); ("q_ext", PR (x_q_ext x)); ("q_sca", PR (x_q_sca x)); ("q_abs", PR (x_q_abs x));
     ("cs_ext", PR (x_cs_ext x)); ("cs_sca", PR (x_cs_sca x)); ("cs_abs", PR (x_cs_abs x));
     ("q_ext_multipoles", PR (x_q_ext_mp x)); ("q_sca_multipoles", PR (x_q_sca_mp x)); ("q_abs_multipoles", PR (x_q_abs_mp x));
     ("cs_ext_multipoles", PR (x_cs_ext_mp x)); ("cs_sca_multipoles", PR (x_cs_sca_mp x)); ("cs_abs_multipoles", PR (x_cs_abs_mp x))].
  (* multishell.py:979-990 *)
  Definition ang_dict (o : @output T) (theta : tensor T) (s : @angular T) : dict :=
    let k0 := c_k0 (o_cfg o) in
    [("wavelength", PR (tmap (fun k => rdiv (rmul rtwo rpi) k) (squeeze k0))); ("k0", PR (squeeze k0)); ("theta", PR (squeeze theta));
     ("S1", PC (s_S1 s)); ("S2", PC (s_S2 s)); ("i_per", PR (s_i_per s)); ("i_par", PR (s_i_par s));
     ("i_unpol", PR (s_i_unpol s)); ("pol_degree", PR (s_pol_degree s))].
  Close Scope string_scope.

  (** keyword arguments forwarded by the methods *)
  Record kwargs := { k_internal : bool; k_backend : string; k_which_jn : string; k_n_max : option Z }.
  Definition particle_call (p : particle) (k0 : tensor T) (eps env : dten C) (kw : kwargs) : @call T :=
    {| a_k0 := k0; a_r_layers := Some (tt (p_r p)); a_eps_layers := Some (tt eps); a_r_c := None; a_eps_c := None; a_r_s := None; a_eps_s := None;
       a_env := tt env; a_internal := k_internal kw; a_backend := k_backend kw; a_which_jn := k_which_jn kw; a_n_max := k_n_max kw |}.
  (* torch refuses to combine tensors on different devices: k0 * n_env
     (multishell.py:742) and eps**0.5 / n_env (792) always, the radii unless the
     pena backend moves them (319) and no truncation rule ran before *)
  Definition devices_ok (c : @call T) (dk dr de dv : device) : bool :=
    String.eqb dk dv && String.eqb de dv &&
    ((String.eqb (lower (a_backend c)) "pena" && is_some (a_n_max c)) || String.eqb dr dk).

  Variables (scipy_jn scipy_yn jn_ratio_t : @bessel_t T).
  Definition run_call (p : particle) (k0 : tensor T) (src : option nat) (kw : kwargs) : st (@output T) :=
    bnd (permittivities p k0 src) (fun ee =>
    let c := particle_call p k0 (fst ee) (snd ee) kw in
    bnd (lift (mie_coefficients scipy_jn scipy_yn jn_ratio_t c)) (fun o =>
    if devices_ok c (p_dev p) (td (p_r p)) (td (fst ee)) (td (snd ee)) then ret o else fail RuntimeError)).
  (** MN:270-308, 310-342, 344-383 (the functional API calls
      [mie_coefficients] with return_internal=False for the latter two) *)
  Definition get_mie_coefficients p k0 src kw : st dict :=
    bnd (run_call p k0 src kw) (fun o => bnd (lift (output_dict o)) (fun d => ret (squeeze_dimensions d))).
  Definition no_internal (kw : kwargs) : kwargs := {| k_internal := false; k_backend := k_backend kw; k_which_jn := k_which_jn kw; k_n_max := k_n_max kw |}.
  Definition get_cross_sections p k0 src kw : st dict :=
    bnd (run_call p k0 src (no_internal kw)) (fun o => bnd (lift (cross_sections o)) (fun x => ret (squeeze_dimensions (xs_dict x)))).
  Definition get_angular_scattering p k0 theta src kw : st dict :=
    bnd (run_call p k0 src (no_internal kw)) (fun o => bnd (lift (angular_scattering theta o)) (fun s => ret (squeeze_dimensions (ang_dict o theta s)))).
End Particle.
Arguments mkD {A} _ _. Arguments td {A} _. Arguments tt {A} _.
