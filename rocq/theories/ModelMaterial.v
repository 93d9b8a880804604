(** Materials: 1-D interpolation, the two data loaders, MatConstant and
    MatDatabase with its memo table.

    /repo/src/pymiediff/materials/mat.py (MA) and helper/helper.py (HE).
    Simplifications: exact arithmetic (the float32/complex64 casts of MA:17-18
    are the identity); a device is its canonical name; Python's float() and
    int() on strings are parameters; the yaml file has already been parsed into
    the list of its DATA entries; material names, printing and plotting (which
    do not affect values) are left out.  The autograd graph is represented by
    the identifier of the wavelength tensor a value was computed from. *)
From Coq Require Import ZArith List Bool String Ascii Arith.
From Verif Require Import Ops Tensor.
Import ListNotations.
Open Scope list_scope.

Definition device := string.

(** ** Python string splitting *)
Definition is_ws (c : ascii) : bool :=
  let n := nat_of_ascii c in ((9 <=? n) && (n <=? 13)) || ((28 <=? n) && (n <=? 32)).
Definition newline : ascii := ascii_of_nat 10.
Definition emit (w : string) (ts : list string) : list string := match w with EmptyString => ts | _ => w :: ts end.
(* s.split(): first component is the word starting at the beginning of s *)
Fixpoint ws_aux (s : string) : string * list string :=
  match s with
  | EmptyString => (EmptyString, [])
  | String c s' => let (w, ts) := ws_aux s' in
                   if is_ws c then (EmptyString, emit w ts) else (String c w, ts)
  end.
Definition split_ws (s : string) : list string := let (w, ts) := ws_aux s in emit w ts.
(* s.split("\n") *)
Fixpoint lines_aux (s : string) : string * list string :=
  match s with
  | EmptyString => (EmptyString, [])
  | String c s' => let (w, ts) := lines_aux s' in
                   if Ascii.eqb c newline then (EmptyString, w :: ts) else (String c w, ts)
  end.
Definition split_lines (s : string) : list string := let (w, ts) := lines_aux s in w :: ts.

Section Mat.
  Context {T : Type} {RO : RealOps T}.
  Notation C := (cplx T).

  (** ** HE:318-368 [interp1d] *)
  (* argsort followed by indexing; torch leaves the order of equal abscissae
     open, here they keep their order *)
  Fixpoint insert_row (p : T * C) (l : list (T * C)) : list (T * C) :=
    match l with
    | [] => [p]
    | q :: l' => if rltb (fst q) (fst p) then q :: insert_row p l' else p :: l
    end.
  Definition sort_rows (l : list (T * C)) : list (T * C) := fold_right insert_row [] l.
  (* torch.bucketize(x, boundaries) with right=False, for sorted boundaries:
     the number of boundaries strictly below x *)
  Definition bucketize (x : T) (tab : list (T * C)) : nat := List.length (filter (fun q => rltb (fst q) x) tab).
  Definition relu (x : T) : T := if rltb x rzero then rzero else x.       (* d[d < 0] = 0.0 *)
  Definition row (tab : list (T * C)) (i : nat) : T * C := nth i tab (rzero, czero).
  (* the two neighbours and their weights: (left row, right row, dist_l, dist_r) *)
  Definition interp_parts (tab : list (T * C)) (x : T) : C * C * T * T :=
    let n := List.length tab in
    let i := bucketize x tab in
    let i_r := Nat.min i (n - 1) in                    (* idx_r.clamp(0, n - 1) *)
    let i_l := Nat.min (i - 1) (n - 1) in              (* (idx_r - 1).clamp(0, n - 1) *)
    let dist_l := relu (rsub x (fst (row tab i_l))) in
    let dist_r := relu (rsub (fst (row tab i_r)) x) in
    let dist_l := if reqb dist_l rzero && reqb dist_r rzero then rone else dist_l in
    (snd (row tab i_l), snd (row tab i_r), dist_l, dist_r).
  Definition interp_at (tab : list (T * C)) (x : T) : C :=
    let '(y_l, y_r, dist_l, dist_r) := interp_parts tab x in
    cdiv (cadd (cmul y_l (cofr dist_r)) (cmul y_r (cofr dist_l))) (cofr (radd dist_l dist_r)).
  Definition interp1d (x : tensor T) (x_dat : list T) (y_dat : list C) : result (tensor C) :=
    if negb (List.length x_dat =? List.length y_dat) then Err AssertionError
    else if (0 <? numel x) && (List.length x_dat =? 0) then Err IndexError
    else Ok (tmap (interp_at (sort_rows (combine x_dat y_dat))) x).

  (** ** MA:41-55 [_load_tabulated] *)
  Variable parse_float : string -> result T.
  Variable parse_int : string -> result Z.
  Definition load_row (s : list string) : result (option (T * C)) :=
    match s with
    | [] => Ok None
    | s0 :: rest =>
        let* w := parse_float s0 in
        match rest with
        | [] => Err IndexError
        | s1 :: rest' =>
            let* n := parse_float s1 in
            let* k := match rest' with s2 :: _ => parse_float s2 | [] => Ok rzero end in
            Ok (Some (rmul (rofZ 1000) w, csqr (cadd (cofr n) (cmul ci (cofr k)))))
        end
    end.
  Fixpoint somes {A} (l : list (option A)) : list A :=
    match l with [] => [] | Some a :: l' => a :: somes l' | None :: l' => somes l' end.
  Definition load_tabulated (data : string) : result (list T * list C) :=
    let* rows := map_res load_row (map split_ws (split_lines data)) in
    Ok (map fst (somes rows), map snd (somes rows)).

  (** ** MA:58-67 [_load_formula] *)
  Record dat := { y_type : string; y_data : option string; y_coeff : option string;
                  y_range : option string; y_wl_range : option string }.
  Definition load_formula (d : dat) : result (Z * (T * T) * list T) :=
    match split_ws (y_type d) with
    | _ :: t1 :: _ =>
        let* m := parse_int t1 in
        match y_coeff d with
        | None => Err KeyError
        | Some s =>
            let* coeff := map_res parse_float (split_ws s) in
            match (match y_range d with Some r => Some r | None => y_wl_range d end) with
            | None => Err KeyError
            | Some r =>
                match split_ws r with
                | a :: b :: _ =>
                    let* a := parse_float a in let* b := parse_float b in
                    Ok (m, (rmul (rofZ 1000) a, rmul (rofZ 1000) b), coeff)
                | a :: nil => let* _ := parse_float a in Err IndexError
                | [] => Err IndexError
                end
            end
        end
    | _ => Err IndexError
    end.

  (** ** values on devices, with the tensor they are connected to *)
  Record value := { v_eps : C; v_dev : device; v_src : option nat }.
  Record wave := { w_val : T; w_dev : device; w_src : option nat }.

  (** ** MA:162-214 [MatConstant] *)
  Record mconst := { c_dev : device; c_eps : C; c_tdev : device }.
  (** ** MA:218-417 [MatDatabase] *)
  Inductive model := MData | MSellmeier | MOther (type : Z).
  Record db := { d_dev : device; d_model : model; d_wl : list T; d_wl_dev : device;
                 d_eps : list C; d_eps_dev : device; d_coeff : list T; d_lookup : list (T * value) }.

  (* MA:359-384 [_eval] *)
  Definition sellmeier_term (b c w : T) : T := rdiv (rmul b (rsqr w)) (rsub (rsqr w) (rsqr c)).
  (* for i in range(1, len(coeff), 2): coeff[i], coeff[i+1] *)
  Fixpoint sellmeier_sum (cs : list T) (w : T) (acc : T) : result T :=
    match cs with
    | [] => Ok acc
    | [_] => Err IndexError
    | b :: c :: cs' => sellmeier_sum cs' w (radd acc (sellmeier_term b c w))
    end.
  Definition sellmeier (coeff : list T) (wl : T) : result T :=
    match coeff with
    | [] => Err IndexError
    | c0 :: cs => sellmeier_sum cs (rdiv wl (rofZ 1000)) (radd rone c0)
    end.
  Definition mat_eval (m : db) (w : wave) : result value :=
    match d_model m with
    | MData =>
        if String.eqb (w_dev w) (d_wl_dev m) && String.eqb (d_wl_dev m) (d_eps_dev m) then
          let* y := interp1d (scalar_t (w_val w)) (d_wl m) (d_eps m) in
          Ok {| v_eps := at_ y []; v_dev := w_dev w; v_src := w_src w |}
        else Err RuntimeError
    | MSellmeier =>
        let* e := sellmeier (d_coeff m) (w_val w) in
        (* without terms the value is a Python float, not connected to w *)
        Ok {| v_eps := cofr e; v_dev := w_dev w; v_src := match d_coeff m with _ :: _ :: _ => w_src w | _ => None end |}
    | MOther _ => Err ValueError
    end.

  (* MA:386-397 [_get_eps_single_wl]; [dict] lookup by float(wavelength) *)
  Fixpoint find_eps (k : T) (l : list (T * value)) : option value :=
    match l with [] => None | (k', v) :: l' => if reqb k k' then Some v else find_eps k l' end.
  Definition with_lookup (m : db) (l : list (T * value)) : db :=
    {| d_dev := d_dev m; d_model := d_model m; d_wl := d_wl m; d_wl_dev := d_wl_dev m;
       d_eps := d_eps m; d_eps_dev := d_eps_dev m; d_coeff := d_coeff m; d_lookup := l |}.
  Definition get_single (m : db) (w : wave) : db * result value :=
    match find_eps (w_val w) (d_lookup m) with
    | Some v => (m, Ok v)
    | None =>
        match mat_eval m w with
        | Err e => (m, Err e)
        | Ok v =>
            let v := {| v_eps := v_eps v; v_dev := d_dev m; v_src := v_src v |} in
            (with_lookup m ((w_val w, v) :: d_lookup m), Ok v)
        end
    end.
  Fixpoint get_list (m : db) (ws : list wave) : db * result (list value) :=
    match ws with
    | [] => (m, Ok [])
    | w :: ws' =>
        match get_single m w with
        | (m, Err e) => (m, Err e)
        | (m, Ok v) => match get_list m ws' with
                       | (m, Err e) => (m, Err e)
                       | (m, Ok vs) => (m, Ok (v :: vs))
                       end
        end
    end.

  (** a wavelength argument: its values and the identifier of the tensor *)
  Record warg := { wa_t : tensor T; wa_src : option nat }.
  (* MA:399-417 [get_epsilon]: as_tensor(..., device=self.device).squeeze() *)
  Definition get_epsilon_db (m : db) (a : warg) : db * result (tensor value) :=
    let t := squeeze (wa_t a) in
    let wv x := {| w_val := x; w_dev := d_dev m; w_src := wa_src a |} in
    match shp t with
    | [] => match get_single m (wv (at_ t [])) with
            | (m, Ok v) => (m, Ok (scalar_t v))
            | (m, Err e) => (m, Err e)
            end
    | [K] =>
        match get_list m (map wv (entries t)) with
        | (m, Err e) => (m, Err e)
        | (m, Ok []) => (m, Err RuntimeError)                  (* torch.stack of nothing *)
        | (m, Ok (v :: vs)) =>
            if forallb (fun u => String.eqb (v_dev u) (v_dev v)) vs then (m, Ok (vec_t v (v :: vs)))
            else (m, Err RuntimeError)
        end
    | _ => (m, Err RuntimeError)                               (* float(wavelength) *)
    end.
  (* MA:350-357 [set_device] *)
  Definition move (d : device) (v : value) : value := {| v_eps := v_eps v; v_dev := d; v_src := v_src v |}.
  Definition set_device_db (d : device) (m : db) : db :=
    {| d_dev := d; d_model := d_model m; d_wl := d_wl m; d_wl_dev := d; d_eps := d_eps m; d_eps_dev := d;
       d_coeff := d_coeff m; d_lookup := map (fun kv => (fst kv, move d (snd kv))) (d_lookup m) |}.

  (* MA:242-333 [__init__], from the parsed DATA entries *)
  Fixpoint init_lookup (m : db) (ws : list wave) : result db :=
    match ws with
    | [] => Ok m
    | w :: ws' => match get_single m w with (m, Ok _) => init_lookup m ws' | (_, Err e) => Err e end
    end.
  Definition load_db (dats : list dat) (d : device) (init : list wave) : result db :=
    match dats with
    | [] => Err IndexError
    | y :: _ =>                                                (* only the first entry is used *)
        match split_ws (y_type y) with
        | [] => Err IndexError
        | t0 :: _ =>
            let* m :=
              if String.eqb t0 "tabulated" then
                match y_data y with
                | None => Err KeyError
                | Some s =>
                    let* we := load_tabulated s in
                    match fst we with
                    | [] => Err RuntimeError                   (* torch.min of an empty tensor *)
                    | _ => Ok {| d_dev := d; d_model := MData; d_wl := fst we; d_wl_dev := d;
                                 d_eps := snd we; d_eps_dev := d; d_coeff := []; d_lookup := [] |}
                    end
                end
              else if String.eqb t0 "formula" then
                let* f := load_formula y in
                let '(t, _, coeff) := f in
                (* torch.Tensor([]) lives on the default device *)
                Ok {| d_dev := d; d_model := if (t =? 1)%Z then MSellmeier else MOther t; d_wl := []; d_wl_dev := "cpu"%string;
                      d_eps := []; d_eps_dev := "cpu"%string; d_coeff := coeff; d_lookup := [] |}
              else Err ValueError in
            init_lookup m init
        end
    end.

  (** MatConstant: MA:168-184, 193-195, 197-214 *)
  Definition new_const (eps : C) (d : device) : mconst := {| c_dev := d; c_eps := eps; c_tdev := d |}.
  Definition set_device_const (d : device) (m : mconst) : mconst := {| c_dev := d; c_eps := c_eps m; c_tdev := d |}.
  Definition get_epsilon_const (m : mconst) (a : warg) : result (tensor value) :=
    let t := squeeze (wa_t a) in
    let v := {| v_eps := c_eps m; v_dev := c_tdev m; v_src := None |} in
    match shp t with
    | [K] => if String.eqb (c_dev m) (c_tdev m) then Ok (mkT [K] (fun _ => v)) else Err RuntimeError
    | _ => Ok (scalar_t v)
    end.

  (** ** material objects *)
  Inductive mat := Const (m : mconst) | Db (m : db).
  Definition set_device_mat (d : device) (m : mat) : mat :=
    match m with Const c => Const (set_device_const d c) | Db b => Db (set_device_db d b) end.
  Definition get_epsilon (m : mat) (a : warg) : mat * result (tensor value) :=
    match m with
    | Const c => (m, get_epsilon_const c a)
    | Db b => let (b, r) := get_epsilon_db b a in (Db b, r)
    end.
End Mat.
