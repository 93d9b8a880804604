(** [nearfields] of the pena backend, at tensor level:
    /repo/src/pymiediff/multishell.py (MS) 1041-1291, with special.py (SP)
    1451-1540 [vsh_pena].

    As in ModelNearLegacy.v the tensors have up to five axes: order, particle,
    wavelength, position, vector component, and the evaluation is a function of
    the record mie_coefficients(return_internal=False) returns.  The harmonics,
    masks and fields of a region are evaluated together, region after region,
    where the code makes one pass for each.  Probe tensors have shape (N_pos, 3);
    other shapes are rejected here and not modelled. *)
From Coq Require Import ZArith List Bool String Arith.
From Verif Require Import Ops Tensor ModelSpecial ModelMie ModelBatch ModelObs ModelNear ModelNearLegacy.
Import ListNotations.
Open Scope list_scope.

Section Pena.
  Context {T : Type} {RO : RealOps T}.
  Notation C := (cplx T).
  Local Notation "x *' y" := (lift2 cmul x y) (at level 40, left associativity).
  Local Notation "x /' y" := (lift2 cdiv x y) (at level 40, left associativity).
  Local Notation "x +' y" := (lift2 cadd x y) (at level 50, left associativity).
  Local Notation "x -' y" := (lift2 csub x y) (at level 50, left associativity).
  Local Notation "# x" := (Ok x) (at level 9).

  (** ** SP:1451-1540 [vsh_pena]; [kind3] selects kind=3, otherwise kind=1 *)
  Definition vsh_pena_t (n_max : nat) (k0 : tensor T) (n_medium : tensor C) (r theta phi : tensor T) (kind3 : bool) : result vsh5 :=
    let nd := ndim r in
    let sin_t := cten (tmap rsin theta) in
    let cos_p := cten (tmap rcos phi) in
    let sin_p := cten (tmap rsin phi) in
    let* rho := #(cten k0) *' #n_medium *' #(cten r) in                                  (* SP:1490 *)
    let rho := tmap (fun z => cadd z (cofr (rtenth 8))) rho in
    let* pt := pi_tau_t (Z.of_nat n_max) (select 0 0 (tmap rcos theta)) in               (* SP:1493-1495 *)
    let pi := cten (narrow 0 1 n_max (fst pt)) in
    let tau := cten (narrow 0 1 n_max (snd pt)) in
    let rho0 := select 0 0 rho in
    let f := narrow 0 1 n_max (if kind3 then zeta_t n_max rho0 else psi_t n_max rho0) in (* SP:1498-1509 *)
    let D := narrow 0 1 n_max (if kind3 then D3_t n_max rho0 else D1_t n_max rho0) in
    let* zn := #f /' #rho in                                                            (* SP:1511-1512 *)
    let* der := #D *' #zn in
    let* zr := #zn /' #rho in
    let e_r := unit_vec nd 0 in let e_t := unit_vec nd 1 in let e_p := unit_vec nd 2 in  (* SP:1515-1524 *)
    let n := order_axis nd n_max in
    let n1 := tmap (fun z => cadd z cone) n in
    let msin_p := tmap copp sin_p in
    let* M_o := (#cos_p *' #pi *' #zn *' #e_t) -' (#sin_p *' #tau *' #zn *' #e_p) in
    let* N_o := (#sin_p *' #n *' #n1 *' #sin_t *' #pi *' #zr *' #e_r)
                +' ((#sin_p *' #tau *' #der *' #e_t) +' (#cos_p *' #pi *' #der *' #e_p)) in
    let* M_e := (#msin_p *' #pi *' #zn *' #e_t) -' (#cos_p *' #tau *' #zn *' #e_p) in
    let* N_e := (#cos_p *' #n *' #n1 *' #sin_t *' #pi *' #zr *' #e_r)
                +' ((#cos_p *' #tau *' #der *' #e_t) -' (#sin_p *' #pi *' #der *' #e_p)) in
    Ok {| VM_o := M_o; VM_e := M_e; VN_o := N_o; VN_e := N_e |}.

  (** ** MS:1076-1160: amplitude tensors (n_max + 1, N_part, N_k0) of every region *)
  Record amps_t := { ta : tensor C; tb : tensor C; tc : tensor C; td : tensor C }.
  (* MS:1076-1080: a zero order 0 in front; the orders start at 1 *)
  Definition cat_order0 (t : tensor C) : tensor C :=
    mkT (S (dim_size 0 t) :: tl (shp t)) (fun ix => match hd 0 ix with 0 => czero | S n => at_ t (n :: tl ix) end).
  (* MS:1083-1089: the index of the environment relative to itself behind the layers *)
  Definition cat_env (n_p L n_k0 : nat) (m : tensor C) : tensor C :=
    mkT [n_p; S L; n_k0] (fun ix => if Nat.eqb (nth 1 ix 0) L then cone else at_ m ix).
  (* MS:1104-1144, one interface: ml, mlp1, xl of shape (N_part, N_k0) *)
  Definition near_step_t (n_max : nat) (ml mlp1 xl : tensor C) (nxt : amps_t) : result amps_t :=
    let* z_l := tbin cmul ml xl in
    let* z_p := tbin cmul mlp1 xl in
    let D1_l := D1_t n_max z_l in let D3_l := D3_t n_max z_l in
    let psi_l := psi_t n_max z_l in let zeta_l := zeta_t n_max z_l in
    let D1_p := D1_t n_max z_p in let D3_p := D3_t n_max z_p in
    let psi_p := psi_t n_max z_p in let zeta_p := zeta_t n_max z_p in
    let* T1 := (#(ta nxt) *' #zeta_p) -' (#(td nxt) *' #psi_p) in                        (* MS:1128-1132 *)
    let* T2 := (#(tb nxt) *' #zeta_p) -' (#(tc nxt) *' #psi_p) in
    let* T3 := (#(td nxt) *' #D1_p *' #psi_p) -' (#(ta nxt) *' #D3_p *' #zeta_p) in
    let* T4 := (#(tc nxt) *' #D1_p *' #psi_p) -' (#(tb nxt) *' #D3_p *' #zeta_p) in
    let* U := #D1_l -' #D3_l in
    let* den_a := #zeta_l *' #U in                                                      (* MS:1134-1137 *)
    let* den_c := #psi_l *' #U in
    let den_a := tmap (guard eps30) den_a in
    let den_c := tmap (guard eps30) den_c in
    let* m_ratio := #ml /' #mlp1 in                                                     (* MS:1140-1144 *)
    let* a := ((#D1_l *' #T1) +' (#T3 *' #m_ratio)) /' #den_a in
    let* b := ((#D1_l *' #T2 *' #m_ratio) +' #T4) /' #den_a in
    let* c := ((#D3_l *' #T2 *' #m_ratio) +' #T4) /' #den_c in
    let* d := ((#D3_l *' #T1) +' (#T3 *' #m_ratio)) /' #den_c in
    Ok {| ta := a; tb := b; tc := c; td := d |}.
  (* MS:1147-1149 *)
  Definition zero_core_t (A : amps_t) : amps_t :=
    {| ta := tmap (fun _ => czero) (ta A); tb := tmap (fun _ => czero) (tb A); tc := tc A; td := td A |}.
  (* MS:1103-1152: for li in range(L - 1, -1, -1); [cnt] is li + 1, [acc] holds the regions li + 1, ..., L *)
  Fixpoint near_loop_t (n_max : nat) (m x : tensor C) (cnt : nat) (nxt : amps_t) (acc : list amps_t) : result (list amps_t) :=
    match cnt with
    | 0 => Ok acc
    | S li =>
        let* A := near_step_t n_max (select 1 li m) (select 1 (S li) m) (select 1 li x) nxt in
        let A := if Nat.eqb li 0 then zero_core_t A else A in
        near_loop_t n_max m x li A (A :: acc)
    end.
  (* MS:1157-1160, 1175-1178 and a_reg[:, :, :, li, ...] of 1232-1235 *)
  Definition region_coef (n_max : nat) (g : amps_t -> tensor C) (layers : list amps_t) (li : nat) : result (tensor C) :=
    let* s := stack 3 (map g layers) in Ok (select 3 li (expand_coef (narrow 0 1 n_max s))).

  (** ** MS:1160-1291 *)
  Variable e10 : T.
  Section Regions.
    Variables (n_max n_p n_k0 n_pos L : nat) (E_0 : C) (layers : list amps_t) (r_layers : tensor T) (eps_layers n_env : tensor C) (k0r : tensor T)
      (rr0 r theta phi : tensor T).
    Notation full := [n_max; n_p; n_k0; n_pos; 3].
    (* MS:1188-1193; n_env already expanded *)
    Definition medium_t (li : nat) : tensor C := if Nat.eqb li L then n_env else expand_cfg (select 1 li (tmap csqrt eps_layers)).
    (* MS:1213-1226; r_pos = r.view(1, 1, n_pos), r_layers[:, li].view(n_p, 1, 1) *)
    Definition r_pos : tensor T := mkT [1; 1; n_pos] (fun ix => at_ rr0 [nth 2 ix 0]).
    Definition r_col (li : nat) : tensor T := mkT [n_p; 1; 1] (fun ix => at_ r_layers [nth 0 ix 0; li]).
    Definition above (li : nat) : result (tensor bool) := tbin (fun r a => rltb a r) r_pos (r_col li).
    Definition mask_t (li : nat) : result (tensor bool) :=
      let* m := if Nat.eqb li L then above (L - 1)
                else match li with
                     | 0 => tbin rleb r_pos (r_col 0)
                     | S j => let* lo := above j in let* hi := tbin rleb r_pos (r_col li) in tbin andb lo hi
                     end in
      broadcast_to full (unsqueeze_last (unsqueeze 0 m)).
    Definition En_t : tensor C := mkT [n_max; 1; 1; 1; 1] (fun ix => pw_factor (S (hd 0 ix)) E_0).   (* MS:1184-1185 *)
    (* MS:1196-1211 and 1229-1258 for one region *)
    Definition region_t (li : nat) (EH : tensor C * tensor C) : result (tensor C * tensor C) :=
      let n_med := medium_t li in
      let* V1 := vsh_pena_t n_max k0r n_med r theta phi false in
      let* V3 := vsh_pena_t n_max k0r n_med r theta phi true in
      let* m := mask_t li in
      let* a := region_coef n_max ta layers li in
      let* b := region_coef n_max tb layers li in
      let* c := region_coef n_max tc layers li in
      let* d := region_coef n_max td layers li in
      let i t := tmap (cmul ci) t in
      let* E := if Nat.eqb li L
                then #En_t *' ((#(i a) *' #(VN_e V3)) -' (#b *' #(VM_o V3)))
                else #En_t *' ((((#c *' #(VM_o V1)) -' (#(i d) *' #(VN_e V1))) +' (#(i a) *' #(VN_e V3))) -' (#b *' #(VM_o V3))) in
      let* H := if Nat.eqb li L
                then #n_med *' #En_t *' ((#(i b) *' #(VN_o V3)) +' (#a *' #(VM_e V3)))
                else #(tmap copp n_med) *' #En_t *' ((((#d *' #(VM_e V1)) +' (#(i c) *' #(VN_o V1))) -' (#(i b) *' #(VN_o V3))) -' (#a *' #(VM_e V3))) in
      let* Es := mask_put m E (fst EH) in
      let* Hs := mask_put m H (snd EH) in
      Ok (Es, Hs).
    Fixpoint regions_t (ls : list nat) (EH : tensor C * tensor C) : result (tensor C * tensor C) :=
      match ls with [] => Ok EH | li :: ls' => let* EH := region_t li EH in regions_t ls' EH end.
  End Regions.

  Definition nearfields_pena (E_0 : C) (probe : tensor T) (o : @output T) : result (@fields T) :=
    match shp probe with
    | [n_pos; 3] =>
      let n_max := Z.to_nat (o_n_max o) in
      let cfg := o_cfg o in
      let r_layers := c_r cfg in
      let n_p := dim_size 0 r_layers in let L := dim_size 1 r_layers in let n_k0 := dim_size 1 (c_k0 cfg) in
      let* m_layers := tbin cdiv (tmap csqrt (c_eps cfg)) (unsqueeze 1 (c_n_env cfg)) in              (* MS:792 *)
      let a_L := cat_order0 (o_a o) in let b_L := cat_order0 (o_b o) in
      let ext := {| ta := a_L; tb := b_L; tc := tmap (fun _ => cone) a_L; td := tmap (fun _ => cone) a_L |} in
      let* x_layers := tbin cmul (unsqueeze 1 (o_k o)) (unsqueeze_last (tmap cofr r_layers)) in      (* MS:1082 *)
      let m_ext := cat_env n_p L n_k0 m_layers in
      let* layers := near_loop_t n_max m_ext x_layers L ext [ext] in
      let sph := spherical e10 probe in
      let full := [n_max; n_p; n_k0; n_pos; 3] in
      let k := expand_cfg (o_k o) in
      let k0 := expand_cfg (c_k0 cfg) in
      let n_env := expand_cfg (c_n_env cfg) in
      let r0 := tmap (fun s => fst (fst s)) sph in
      let r := expand_pos r0 in
      let theta := expand_pos (tmap (fun s => snd (fst s)) sph) in
      let phi := expand_pos (tmap snd sph) in
      let zero := mkT full (fun _ => czero) in
      let* EH := regions_t n_max n_p n_k0 n_pos L E_0 layers r_layers (c_eps cfg) n_env k0 r0 r theta phi (seq 0 (S L)) (zero, zero) in
      let Es := cartesian sph (fst EH) in let Hs := cartesian sph (snd EH) in                        (* MS:1260-1269 *)
      let s4 := [n_p; n_k0; n_pos] in
      let* ph := #(tmap (cmul ci) k) *' #(cten r) *' #(cten (tmap rcos theta)) in                    (* MS:1271-1276 *)
      let ex := tmap cexp ph in
      let Ex := tmap (cmul E_0) ex in
      let* Ei := put_last s4 0 (select (ndim Ex - 1) 0 Ex) in
      let* Hx := #(tmap (cmul E_0) n_env) *' #ex in
      let* Hi := put_last s4 1 (select (ndim Hx - 1) 0 Hx) in
      let* m_out := mask_t n_max n_p n_k0 n_pos L r_layers r0 L in
      let out := select 0 0 m_out in                                                                (* MS:1278-1282 *)
      let* Et := tbin cadd Es Ei in let* Et := mask_put out Et Es in
      let* Ht := tbin cadd Hs Hi in let* Ht := mask_put out Ht Hs in
      Ok {| f_Ei := Ei; f_Hi := Hi; f_Es := Es; f_Hs := Hs; f_Et := Et; f_Ht := Ht |}
    | _ => Err IndexError
    end.

  (** MS:1043-1057: the call of mie_coefficients that precedes the evaluation *)
  Definition without_internal (c : @call T) : @call T :=
    {| a_k0 := a_k0 c; a_r_layers := a_r_layers c; a_eps_layers := a_eps_layers c; a_r_c := a_r_c c; a_eps_c := a_eps_c c; a_r_s := a_r_s c; a_eps_s := a_eps_s c;
       a_env := a_env c; a_internal := false; a_backend := a_backend c; a_which_jn := a_which_jn c; a_n_max := a_n_max c |}.
  (** MS:1041-1291, backend "pena" *)
  Definition near_call_pena (sj sy jr : @bessel_t T) (E_0 : C) (probe : tensor T) (c : @call T) : result (@fields T) :=
    let* o := mie_coefficients sj sy jr (without_internal c) in nearfields_pena E_0 probe o.
End Pena.
