(** [nearfields] of the torch and scipy backends, at tensor level:
    /repo/src/pymiediff/multishell.py (MS) 1294-1490, with special.py (SP)
    1123-1205 [vsh] and helper.py (HE) 178-258.

    Tensors have up to five axes: order, particle, wavelength, position, vector
    component.  [nearfields] starts with mie_coefficients(return_internal=True)
    and only combines its outputs, so it is modelled as a function of the record
    it returns.  The Bessel routines of [vsh] are always the torch ones with
    default arguments, whatever the backend and which_jn (SP:1160-1170). *)
From Coq Require Import ZArith List Bool String Arith.
From Verif Require Import Ops Tensor ModelSpecial ModelMie ModelBatch ModelObs ModelJn ModelNear.
Import ListNotations.
Open Scope list_scope.

Section Legacy.
  Context {T : Type} {RO : RealOps T}.
  Notation C := (cplx T).

  (** elementwise operators on results: any failure propagates *)
  Definition lift2 {A B D} (f : A -> B -> D) (x : result (tensor A)) (y : result (tensor B)) : result (tensor D) :=
    let* a := x in let* b := y in tbin f a b.
  Local Notation "x *' y" := (lift2 cmul x y) (at level 40, left associativity).
  Local Notation "x /' y" := (lift2 cdiv x y) (at level 40, left associativity).
  Local Notation "x +' y" := (lift2 cadd x y) (at level 50, left associativity).
  Local Notation "x -' y" := (lift2 csub x y) (at level 50, left associativity).
  Local Notation "# x" := (Ok x) (at level 9).
  Definition cten (t : tensor T) : tensor C := tmap cofr t.
  Definition scale (c : C) (t : result (tensor C)) : result (tensor C) := let* a := t in Ok (tmap (cmul c) a).

  (** SP:1123-1205 [vsh]; r, theta, phi have shape (1, 1, 1, N_pos, 1) *)
  Record vsh5 := { VM_o : tensor C; VM_e : tensor C; VN_o : tensor C; VN_e : tensor C }.
  Definition unit_vec (nd i : nat) : tensor C := mkT (repeat 1 (nd - 1) ++ [3]) (fun ix => if Nat.eqb (last ix 0) i then cone else czero).
  Definition order_axis (nd n_max : nat) : tensor C := mkT (n_max :: repeat 1 (nd - 1)) (fun ix => cofn (S (hd 0 ix))).
  Inductive kind := K1 | K2 | K3.
  Definition vsh (jn yn : @bessel_t T) (n_max : nat) (k0 : tensor T) (n_medium : tensor C) (r theta phi : tensor T) (kd : kind) : result vsh5 :=
    let nd := ndim r in
    let sin_t := cten (tmap rsin theta) in
    let cos_p := cten (tmap rcos phi) in
    let sin_p := cten (tmap rsin phi) in
    let* rho := #(cten k0) *' #n_medium *' #(cten r) in                                  (* SP:1151 *)
    let rho := tmap (fun z => cadd z (cofr (rtenth 8))) rho in
    let* pt := pi_tau_t (Z.of_nat n_max) (select 0 0 (tmap rcos theta)) in               (* SP:1154-1157 *)
    let pi := cten (narrow 0 1 n_max (fst pt)) in
    let tau := cten (narrow 0 1 n_max (snd pt)) in
    let* f := match kd with                                                             (* SP:1160-1170 *)
              | K1 => psi_torch jn n_max (select 0 0 rho)
              | K2 => chi_torch yn n_max (select 0 0 rho)
              | K3 => xi_torch jn yn n_max (select 0 0 rho)
              end in
    let f := narrow 0 1 n_max f in
    let* der := #(tmap snd f) /' #rho in                                                (* SP:1175-1176 *)
    let* zn := #(tmap fst f) /' #rho in
    let* zr := #zn /' #rho in
    let e_r := unit_vec nd 0 in let e_t := unit_vec nd 1 in let e_p := unit_vec nd 2 in
    let n := order_axis nd n_max in
    let n1 := tmap (fun z => cadd z cone) n in
    let msin_p := tmap copp sin_p in
    let* M_o := (#cos_p *' #pi *' #zn *' #e_t) -' (#sin_p *' #tau *' #zn *' #e_p) in
    let* N_o := (#sin_p *' #n *' #n1 *' #sin_t *' #pi *' #zr *' #e_r)
                +' ((#sin_p *' #tau *' #der *' #e_t) +' (#cos_p *' #pi *' #der *' #e_p)) in
    let* M_e := (#msin_p *' #pi *' #zn *' #e_t) -' (#cos_p *' #tau *' #zn *' #e_p) in
    let* N_e := (#cos_p *' #n *' #n1 *' #sin_t *' #pi *' #zr *' #e_r)
                +' ((#cos_p *' #tau *' #der *' #e_t) -' (#sin_p *' #pi *' #der *' #e_p)) in
    Ok {| VM_o := M_o; VM_e := M_e; VN_o := N_o; VN_e := N_e |}.

  (** HE:236-258 and HE:178-210 on tensors *)
  Variable e10 : T.                                     (* finfo(dtype).eps * 10 *)
  (* r_probe[..., 0], r_probe[..., 1], r_probe[..., 2] of an (N_pos, 3) tensor *)
  Definition spherical (probe : tensor T) : tensor (T * T * T) :=
    mkT [dim_size 0 probe] (fun ix => let i := hd 0 ix in xyz_to_sph e10 (at_ probe [i; 0]) (at_ probe [i; 1]) (at_ probe [i; 2])).
  Definition expand_pos {A} (t : tensor A) : tensor A := unsqueeze_last (unsqueeze 0 (unsqueeze 0 (unsqueeze 0 t))).   (* MS:1380, 1385-1386 *)
  Definition expand_cfg {A} (t : tensor A) : tensor A := unsqueeze_last (unsqueeze_last (unsqueeze 0 t)).              (* MS:1363-1367 *)
  Definition expand_coef {A} (t : tensor A) : tensor A := unsqueeze_last (unsqueeze_last t).                          (* MS:1370-1377 *)
  (* Es[idx] = src[idx]: the mask must have the shape of both *)
  Definition mask_put {A} (idx : tensor bool) (src dst : tensor A) : result (tensor A) :=
    if shape_eqb (shp src) (shp idx) && shape_eqb (shp dst) (shp idx)
    then Ok (mkT (shp dst) (fun ix => if at_ idx ix then at_ src ix else at_ dst ix)) else Err IndexError.
  (* fields (n_max, N_part, N_k0, N_pos, 3) to cartesian, then summed over orders: MS:1448-1461 *)
  Definition cartesian (sph : tensor (T * T * T)) (F : tensor C) : tensor C :=
    mkT (skipn 1 (shp F)) (fun ix =>
      let '(p, k, i, c) := (nth 0 ix 0, nth 1 ix 0, nth 2 ix 0, nth 3 ix 0) in
      let '(_, th, ph) := at_ sph [i] in
      csum (map (fun n => let v := field_to_xyz th ph (at_ F [n; p; k; i; 0], at_ F [n; p; k; i; 1], at_ F [n; p; k; i; 2]) in
                          match c with 0 => v1 v | 1 => v2 v | _ => v3 v end) (seq 0 (dim_size 0 F)))).

  Record fields := { f_Ei : tensor C; f_Hi : tensor C; f_Es : tensor C; f_Hs : tensor C; f_Et : tensor C; f_Ht : tensor C }.
  (* dst[..., c] = src for dst of shape s ++ [3], zero elsewhere (MS:1469-1473) *)
  Definition put_last (s : list nat) (c : nat) (src : tensor C) : result (tensor C) :=
    if assignable s (shp src)
    then Ok (mkT (s ++ [3]) (fun ix => if Nat.eqb (last ix 0) c then at_ src (repeat 0 (ndim src - List.length (drop_ones (shp src))) ++ bcast_ix (drop_ones (shp src)) (removelast ix)) else czero))
    else Err RuntimeError.

  Definition nearfields_legacy (jn yn : @bessel_t T) (E_0 : C) (probe : tensor T) (o : @output T) : result fields :=
    match o_internal o, shp probe with
    | Some co, [n_pos; 3] =>
      let n_max := Z.to_nat (o_n_max o) in
      let k0' := c_k0 (o_cfg o) in
      let n_core := tmap csqrt (o_eps_c o) in
      let n_shell := tmap csqrt (o_eps_s o) in
      let n_env := c_n_env (o_cfg o) in
      let r_c := o_r_c o in let r_s := o_r_s o in
      let sph := spherical probe in
      let n_p := dim_size 0 r_c in let n_k0 := dim_size 1 k0' in
      let full := [n_max; n_p; n_k0; n_pos; 3] in
      let k := expand_cfg (o_k o) in
      let k0 := expand_cfg k0' in
      let n_out := expand_cfg n_env in
      let cf (g : @coeffs T -> C) := expand_coef (tmap g co) in
      let r := expand_pos (tmap (fun s => fst (fst s)) sph) in
      let theta := expand_pos (tmap (fun s => snd (fst s)) sph) in
      let phi := expand_pos (tmap snd sph) in
      let* idx_1 := tbin rleb r r_c in                                                  (* MS:1381-1383 *)
      let* i2a := tbin rltb r_c r in let* i2b := tbin rleb r r_s in let* idx_2 := tbin andb i2a i2b in
      let* idx_3 := tbin (fun r a => rltb a r) r r_s in
      let* Vc := vsh jn yn n_max k0 n_core r theta phi K1 in                            (* MS:1394-1405 *)
      let* Vs := vsh jn yn n_max k0 n_shell r theta phi K1 in
      let* Ws := vsh jn yn n_max k0 n_shell r theta phi K2 in
      let* Vo := vsh jn yn n_max k0 n_out r theta phi K3 in
      let En := mkT [n_max; 1; 1; 1; 1] (fun ix => pw_factor (S (hd 0 ix)) E_0) in       (* MS:1413 *)
      let* idx_1 := broadcast_to full idx_1 in
      let* idx_2 := broadcast_to full idx_2 in
      let* idx_3 := broadcast_to full idx_3 in
      let i g := tmap (cmul ci) (cf g) in
      let* Es_1 := #En *' ((#(cf cn) *' #(VM_o Vc)) -' (#(i dn) *' #(VN_e Vc))) in
      let* Es_2 := #En *' (((#(cf fn) *' #(VM_o Vs)) -' (#(i gn) *' #(VN_e Vs))) -' ((#(cf vn) *' #(VM_o Ws)) -' (#(i wn) *' #(VN_e Ws)))) in
      let* Es_3 := #En *' ((#(i an) *' #(VN_e Vo)) -' (#(cf bn) *' #(VM_o Vo))) in
      let zero := mkT full (fun _ => czero) in
      let* Es := mask_put idx_1 Es_1 zero in
      let* Es := mask_put idx_2 Es_2 Es in
      let* Es := mask_put idx_3 Es_3 Es in
      let* Hs_1 := #(tmap copp n_core) *' #En *' ((#(cf dn) *' #(VM_e Vc)) +' (#(i cn) *' #(VN_o Vc))) in
      let* Hs_2 := #(tmap copp n_shell) *' #En *' (((#(cf gn) *' #(VM_e Vs)) +' (#(i fn) *' #(VN_o Vs))) -' ((#(cf wn) *' #(VM_e Ws)) +' (#(i vn) *' #(VN_o Ws)))) in
      let* Hs_3 := #En *' #n_env *' ((#(i bn) *' #(VN_o Vo)) +' (#(cf an) *' #(VM_e Vo))) in
      let* Hs := mask_put idx_1 Hs_1 zero in
      let* Hs := mask_put idx_2 Hs_2 Hs in
      let* Hs := mask_put idx_3 Hs_3 Hs in
      let Es := cartesian sph Es in let Hs := cartesian sph Hs in
      let s4 := [n_p; n_k0; n_pos] in
      let* ph := #(tmap (cmul ci) k) *' #(cten r) *' #(cten (tmap rcos theta)) in       (* MS:1469-1473 *)
      let ex := tmap cexp ph in
      let Ex := tmap (cmul E_0) ex in
      let* Ei := put_last s4 0 (select (ndim Ex - 1) 0 Ex) in
      let* Hx := #(tmap (cmul E_0) n_env) *' #ex in
      let* Hi := put_last s4 1 (select (ndim Hx - 1) 0 Hx) in
      let out := select 0 0 idx_3 in
      let* Et := tbin cadd Es Ei in let* Et := mask_put out Et Es in                    (* MS:1476-1479 *)
      let* Ht := tbin cadd Hs Hi in let* Ht := mask_put out Ht Hs in
      Ok {| f_Ei := Ei; f_Hi := Hi; f_Es := Es; f_Hs := Hs; f_Et := Et; f_Ht := Ht |}
    | _, _ => Err IndexError
    end.

  (** MS:1296-1310: the call of mie_coefficients that precedes the evaluation *)
  Definition with_internal (c : @call T) : @call T :=
    {| a_k0 := a_k0 c; a_r_layers := a_r_layers c; a_eps_layers := a_eps_layers c; a_r_c := a_r_c c; a_eps_c := a_eps_c c; a_r_s := a_r_s c; a_eps_s := a_eps_s c;
       a_env := a_env c; a_internal := true; a_backend := a_backend c; a_which_jn := a_which_jn c; a_n_max := a_n_max c |}.
  (** MS:1294-1490 for a backend other than "pena" (MS:1041); [pi] is int() on strings *)
  Definition near_call (sj sy jr : @bessel_t T) (pi : string -> result Z) (E_0 : C) (probe : tensor T) (c : @call T) : result fields :=
    let* o := mie_coefficients sj sy jr (with_internal c) in nearfields_legacy (sph_jn_torch pi (AStr "auto")) yn_t E_0 probe o.
End Legacy.
