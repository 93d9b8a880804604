(** Tensor-level model of the functional API: input normalisation, broadcasting,
    truncation, and the batched coefficient computation.

    /repo/src/pymiediff/multishell.py (MS) and helper/helper.py (HE).
    Simplifications: tensor-like inputs are already tensors; permittivities are
    complex (a real dtype is the complex number with imaginary part 0, so the nan
    torch returns for the root of a negative real-dtype permittivity is lost); the
    precision argument is ignored, devices are added in [ModelParticle]. *)
From Coq Require Import ZArith List Bool String Ascii Arith.
From Verif Require Import Ops Tensor ModelSpecial ModelMie.
Import ListNotations.
Open Scope list_scope.

(* str.lower() on ASCII *)
Definition lower_ascii (c : ascii) : ascii :=
  let n := nat_of_ascii c in if (65 <=? n) && (n <=? 90) then ascii_of_nat (n + 32) else c.
Fixpoint lower (s : string) : string :=
  match s with EmptyString => EmptyString | String c s' => String (lower_ascii c) (lower s') end.

Section Batch.
  Context {T : Type} {RO : RealOps T}.
  Notation C := (cplx T).

  (** ** MS:478-550 [_as_layer_inputs] *)
  Definition as_layer_inputs (r_c r_s : option (tensor T)) (eps_c eps_s : option (tensor C))
             (r_layers : option (tensor T)) (eps_layers : option (tensor C))
    : result (tensor T * tensor C) :=
    match r_layers, eps_layers with
    | Some _, None | None, Some _ => Err ValueError                     (* 493-494 *)
    | Some r, Some e => Ok (r, e)                                       (* 496-497 *)
    | None, None =>
      match r_c, eps_c with
      | Some r_c, Some eps_c =>
        let r_s := match r_s with Some r => r | None => r_c end in      (* 505-506 *)
        let eps_s := match eps_s with Some e => e | None => eps_c end in (* 507-508 *)
        let r_c := atleast_1d r_c in
        let r_s := atleast_1d r_s in
        if negb (shape_eqb (shp r_c) (shp r_s)) then Err ValueError     (* 512-513 *)
        else
          let per_particle := shape_eqb (shp eps_c) (shp r_c) && (1 <? numel r_c) in
          if tequal reqb r_c r_s then                                   (* 519 *)
            let e := match ndim eps_c with
                     | 0 => mkT [1; 1] (fun _ => at_ eps_c [])          (* view(1,1) *)
                     | 1 => if per_particle then unsqueeze 1 eps_c else unsqueeze 0 eps_c
                     | _ => unsqueeze 1 eps_c
                     end in
            Ok (unsqueeze_last r_c, e)
          else                                                          (* 534 *)
            let* r := stack (ndim r_c) [r_c; r_s] in
            let* e := match ndim eps_c with
                      | 0 => let* s := stack 0 [eps_c; eps_s] in Ok (unsqueeze 0 s)
                      | 1 => if per_particle then stack 1 [eps_c; eps_s] else stack 0 [eps_c; eps_s]
                      | _ => stack 1 [eps_c; eps_s]
                      end in
            Ok (r, e)
      | _, _ => Err ValueError                                          (* 499-502 *)
      end
    end.

  (** ** MS:553-635 [_broadcast_mie_layers] *)
  Record config := {
    c_k0 : tensor T;          (* (1, N_k0) *)
    c_r : tensor T;           (* (N_part, L) *)
    c_eps : tensor C;         (* (N_part, L, N_k0) *)
    c_env : tensor C;         (* (1, N_k0) *)
    c_n_env : tensor C }.     (* eps_env ** 0.5 *)

  (* 588: torch.all(r[:, 1:] > r[:, :-1]) *)
  Definition increasing (r : tensor T) (n_part n_layers : nat) : bool :=
    tall (mkT [n_part; n_layers - 1]
              (fun ix => rltb (at_ r [nth 0 ix 0; nth 1 ix 0]) (at_ r [nth 0 ix 0; S (nth 1 ix 0)]))).

  Definition broadcast_eps (n_part n_layers n_k0 : nat) (eps : tensor C) : result (tensor C) :=
    let eps := atleast_1d eps in                                        (* 592 *)
    let full := [n_part; n_layers; n_k0] in
    match shp eps with
    | [a] =>                                                            (* 596-599 *)
        if negb (a =? n_layers) then Err ValueError
        else broadcast_to full (mkT [1; n_layers; 1] (fun ix => at_ eps [nth 1 ix 0]))
    | [a; b] =>                                                         (* 600-608 *)
        if shape_eqb [a; b] [n_part; n_layers] then broadcast_to full (unsqueeze_last eps)
        else if shape_eqb [a; b] [n_layers; n_k0] then broadcast_to full (unsqueeze 0 eps)
        else Err ValueError
    | [a; b; c] =>                                                      (* 609-617 *)
        let* eps := if (a =? 1) && (1 <? n_part) then broadcast_to [n_part; b; c] eps else Ok eps in
        if negb (shape_eqb (firstn 2 (shp eps)) [n_part; n_layers]) then Err ValueError
        else if (dim_size 2 eps =? 1) && (1 <? n_k0) then broadcast_to full eps
        else if negb (dim_size 2 eps =? n_k0) then Err ValueError
        else Ok eps
    | _ => Err ValueError                                               (* 618-619 *)
    end.

  Definition broadcast_mie_layers (k0 : tensor T) (r : tensor T) (eps env : tensor C) : result config :=
    let k0 := atleast_1d (squeeze k0) in                                (* 572-573 *)
    match shp k0 with
    | [n_k0] =>
      let k0 := unsqueeze 0 k0 in                                       (* 577 *)
      let r := atleast_1d r in                                          (* 580 *)
      let r := match shp r with [_] => unsqueeze 0 r | _ => r end in    (* 581-582 *)
      match shp r with
      | [n_part; n_layers] =>
        if (1 <? n_layers) && negb (increasing r n_part n_layers) then Err ValueError
        else
          let* eps := broadcast_eps n_part n_layers n_k0 eps in
          let env := atleast_1d env in                                  (* 621-622 *)
          match shp env with
          | [a] =>
            let* env := if (a =? 1) && (1 <? n_k0) then broadcast_to [n_k0] env
                        else if negb (a =? n_k0) then Err ValueError else Ok env in
            let env := unsqueeze 0 env in                               (* 629 *)
            Ok {| c_k0 := k0; c_r := r; c_eps := eps; c_env := env; c_n_env := tmap csqrt env |}
          | _ => Err ValueError                                         (* 623-624 *)
          end
      | _ => Err ValueError                                             (* 583-584 *)
      end
    | _ => Err ValueError                                               (* 574-575 *)
    end.

  (** ** HE:48-75 and HE:125-131: the piecewise Wiscombe count, before rounding *)
  Definition wiscombe_raw (x : T) : T :=
    if rleb x (rofZ 8) then radd (radd rone x) (rmul (rofZ 4) (rcbrt x))
    else if rltb x (rofZ 4200) then radd (radd rtwo x) (rmul (rdiv (rofZ 405) (rofZ 100)) (rcbrt x))
    else radd (radd rtwo x) (rmul (rofZ 4) (rcbrt x)).
  Definition wiscombe (ka : tensor C) : result Z :=
    let* x := tmax (tmap cabs ka) in Ok (rround (wiscombe_raw x)).

  (** ** HE:78-145 [get_truncution_criteroin_pena2009] (the order of the float
      additions in n_stop differs from HE:48-75, irrelevant in exact arithmetic) *)
  Definition pena2009 (k0 r : tensor T) (eps env : tensor C) : result Z :=
    let* _ := guard_err (ndim r =? 2) ValueError in
    let* _ := guard_err (ndim eps =? 3) ValueError in
    let n_env := tmap csqrt env in
    let n_l := tmap csqrt eps in
    let ck0 := tmap cofr k0 in
    let* kn := tbin cmul (unsqueeze 1 ck0) (unsqueeze 1 n_env) in
    let* x := tbin cmul kn (unsqueeze_last (tmap cofr r)) in
    let* x_outer := tmax (tmap cabs (select 1 (dim_size 1 x - 1) x)) in      (* x[:, -1, :] *)
    let n_stop := rofZ (rround (wiscombe_raw x_outer)) in
    let* kl := tbin cmul (unsqueeze 1 ck0) n_l in
    let* m_x_l := tbin cmul kl (unsqueeze_last (tmap cofr r)) in
    (* torch.cat((zeros_like(r[:, :1]), r[:, :-1]), dim=1) *)
    let r_prev := mkT (shp r) (fun ix => match nth 1 ix 0 with
                                         | 0 => rzero
                                         | S j => at_ r [nth 0 ix 0; j]
                                         end) in
    let* m_x_prev := tbin cmul kl (unsqueeze_last (tmap cofr r_prev)) in
    let* m1 := tmax (tmap cabs m_x_l) in
    let* m2 := tmax (tmap cabs m_x_prev) in
    Ok (rround (radd (rmax n_stop (rmax m1 m2)) (rofZ 15))).

  (** ** MS:269-408 [_miecoef_pena] at tensor level *)
  (* special.py:451-696: every operation of the four Pena routines acts
     elementwise on tensors of the shape of z, the order axis is stacked first *)
  Definition orders_t (n_max : nat) (f : C -> nat -> C) (z : tensor C) : tensor C :=
    mkT (S n_max :: shp z) (fun ix => f (at_ z (tl ix)) (hd 0 ix)).
  Definition D1_t n_max (z : tensor C) := orders_t n_max (fun z => pD1 n_max 15 z) z.
  Definition D3_t n_max (z : tensor C) := orders_t n_max (fun z => pD3 n_max 15 z) z.
  Definition psi_t n_max (z : tensor C) := orders_t n_max (fun z => ppsi n_max 15 z) z.
  Definition zeta_t n_max (z : tensor C) := orders_t n_max (fun z => pzeta n_max 15 z) z.
  Definition Q_t n_max (z1 z2 x1 x2 : tensor C) : tensor C :=
    mkT (S n_max :: shp z1)
        (fun ix => let i := tl ix in pQ n_max 15 (at_ z1 i) (at_ z2 i) (at_ x1 i) (at_ x2 i) (hd 0 ix)).

  (* 347-376 *)
  Definition h_step (n_max : nat) (ml mlm1 H D1c D3c D1p D3p Q : tensor C) : result (tensor C) :=
    let* mH := tbin cmul ml H in
    let* mD1 := tbin cmul mlm1 D1p in
    let* mD3 := tbin cmul mlm1 D3p in
    let* G1 := tbin csub mH mD1 in
    let* G2 := tbin csub mH mD3 in
    let* QG1 := tbin cmul Q G1 in
    let* den := tbin csub G2 QG1 in
    let den := tmap (guard eps30) den in
    let* n1 := tbin cmul G2 D1c in
    let* n2 := tbin cmul QG1 D3c in
    let* num := tbin csub n1 n2 in
    tbin cdiv num den.
  Definition pena_layer_t (n_max : nat) (m x : tensor C) (l : nat) (H : tensor C * tensor C)
    : result (tensor C * tensor C) :=
    let ml := select 1 l m in let xl := select 1 l x in
    let mlm1 := select 1 (l - 1) m in let xlm1 := select 1 (l - 1) x in
    let* z_curr := tbin cmul ml xl in
    let* z_prev := tbin cmul ml xlm1 in
    let D1c := D1_t n_max z_curr in let D3c := D3_t n_max z_curr in
    let D1p := D1_t n_max z_prev in let D3p := D3_t n_max z_prev in
    let Q := Q_t n_max z_prev z_curr xlm1 xl in
    let* Ha := h_step n_max ml mlm1 (fst H) D1c D3c D1p D3p Q in
    (* Gt1, Gt2: ml and mlm1 exchanged *)
    let* Hb := h_step n_max mlm1 ml (snd H) D1c D3c D1p D3p Q in
    Ok (Ha, Hb).
  (* 332-376: for l_idx in range(1, n_layers) *)
  Fixpoint pena_loop_t (n_max : nat) (m x : tensor C) (l cnt : nat) (H : tensor C * tensor C)
    : result (tensor C * tensor C) :=
    match cnt with
    | 0 => Ok H
    | S cnt' => let* H' := pena_layer_t n_max m x l H in pena_loop_t n_max m x (S l) cnt' H'
    end.
  (* 379-403, one of the two coefficients; f H mL is H/mL or mL*H *)
  Definition final_t (n_max : nat) (term xL : tensor C) : result (tensor C) :=
    let psi := psi_t n_max xL in let zeta := zeta_t n_max xL in
    let up t := narrow 0 1 n_max t in            (* [1:, ...] *)
    let lo t := narrow 0 0 n_max t in            (* [:-1, ...] *)
    let* tz := tbin cmul (up term) (up zeta) in
    let* den := tbin csub tz (lo zeta) in
    let den := tmap (guard eps30) den in
    let* tp := tbin cmul (up term) (up psi) in
    let* num := tbin csub tp (lo psi) in
    tbin cdiv num den.
  Definition miecoef_pena_t (k : tensor C) (r : tensor T) (eps n_env : tensor C) (n : Z)
             (return_internal : bool) : result (tensor C * tensor C) :=
    if return_internal then Err NotImplementedError                     (* 302-305 *)
    else if (n <? 1)%Z then Err ValueError                              (* 308-309 *)
    else
      let n_max := Z.to_nat n in
      let* x := tbin cmul (unsqueeze 1 k) (unsqueeze_last (tmap cofr r)) in    (* 324 *)
      let* m := tbin cdiv (tmap csqrt eps) (unsqueeze 1 n_env) in              (* 325 *)
      let n_layers := dim_size 1 x in
      let* z0 := tbin cmul (select 1 0 m) (select 1 0 x) in
      let H0 := D1_t n_max z0 in                                               (* 342-345 *)
      let* H := pena_loop_t n_max m x 1 (n_layers - 1) (H0, H0) in
      let xL := select 1 (n_layers - 1) x in
      let mL := select 1 (n_layers - 1) m in
      let n_arr := mkT [S n_max; 1; 1] (fun ix => cofn (hd 0 ix)) in           (* 387-388 *)
      let xs := tmap (guard eps30) xL in
      let* nx := tbin cdiv n_arr (unsqueeze 0 xs) in
      let* ha := tbin cdiv (fst H) (unsqueeze 0 mL) in
      let* term_a := tbin cadd ha nx in
      let* a := final_t n_max term_a xL in
      let* hb := tbin cmul (unsqueeze 0 mL) (snd H) in
      let* term_b := tbin cadd hb nx in
      let* b := final_t n_max term_b xL in
      Ok (a, b).

  (** ** MS:24-266 [_miecoef] at tensor level *)
  (* The Bessel routine is called once per argument tensor; [jn z n_max] returns
     the whole (n_max+1, ...) tensor, so its recurrence depth may depend on the
     tensor. *)
  Definition bessel_t := nat -> tensor C -> result (tensor C).
  (* special.py:755-759: depth from max |z| over the tensor *)
  Definition jn_rec_t : bessel_t := fun n_max z =>
    let* zmax := tmax (tmap cabs z) in
    let z := atleast_1d z in
    Ok (orders_t n_max (fun z => sph_jn_via_rec n_max (n_add_auto zmax) z) z).
  Definition yn_t : bessel_t := fun n_max z => Ok (orders_t n_max sph_yn (atleast_1d z)).
  (* radial record of one element and order from the seven Bessel tensors *)
  Definition radial_of7 (x y mc ms : C) (j_y j_m1x j_m2x j_m2y y_y y_m2x y_m2y : nat -> C) (n : nat) : radial :=
    let h1 := h1_of j_y y_y in
    let dh1 i := cadd (f_der_at y j_y i) (cmul ci (f_der_at y y_y i)) in
    let ps z (f : nat -> C) := cmul z (f n) in
    let dps z (f : nat -> C) := cadd (f n) (cmul z (f_der_at z f n)) in
    let ch z (f : nat -> C) := cmul (copp z) (f n) in
    let dch z (f : nat -> C) := csub (copp (f n)) (cmul z (f_der_at z f n)) in
    let m1x := cmul mc x in let m2x := cmul ms x in let m2y := cmul ms y in
    {| m1 := mc; m2 := ms;
       psi_y := ps y j_y; dpsi_y := dps y j_y;
       xi_y := cmul y (h1 n); dxi_y := cadd (h1 n) (cmul y (dh1 n));
       psi_m1x := ps m1x j_m1x; dpsi_m1x := dps m1x j_m1x;
       psi_m2x := ps m2x j_m2x; dpsi_m2x := dps m2x j_m2x;
       chi_m2x := ch m2x y_m2x; dchi_m2x := dch m2x y_m2x;
       psi_m2y := ps m2y j_m2y; dpsi_m2y := dps m2y j_m2y;
       chi_m2y := ch m2y y_m2y; dchi_m2y := dch m2y y_m2y |}.
  (* coefficient tensors of shape (n_max, N_part, N_k0), orders 1..n_max; x, y,
     m1, m2 all have shape (N_part, N_k0) and every operation of 120-246 is
     elementwise.  f_der indexes f_n[1] (special.py:357), IndexError for n = 0. *)
  Definition miecoef_t (jn yn : bessel_t) (x y mc ms : tensor C) (n : Z) : result (tensor coeffs) :=
    if (n <? 0)%Z then Err RuntimeError
    else
      let n_max := Z.to_nat n in
      let* m1x := tbin cmul mc x in
      let* m2x := tbin cmul ms x in
      let* m2y := tbin cmul ms y in
      let* j_y := jn n_max y in
      let* y_y := yn n_max y in
      let* j_m1x := jn n_max m1x in
      let* j_m2x := jn n_max m2x in
      let* j_m2y := jn n_max m2y in
      let* y_m2x := yn n_max m2x in
      let* y_m2y := yn n_max m2y in
      let* _ := guard_err (0 <? n_max) IndexError in
      let col (t : tensor C) i := fun n => at_ t (n :: i) in
      Ok (mkT (n_max :: shp y)
              (fun ix => let i := tl ix in
                 miecoef_core (radial_of7 (at_ x i) (at_ y i) (at_ mc i) (at_ ms i)
                   (col j_y i) (col j_m1x i) (col j_m2x i) (col j_m2y i) (col y_y i) (col y_m2x i) (col y_m2y i)
                   (S (hd 0 ix))))).

  (** ** MS:641-799 [mie_coefficients] *)
  Record call := {
    a_k0 : tensor T; a_r_layers : option (tensor T); a_eps_layers : option (tensor C);
    a_r_c : option (tensor T); a_eps_c : option (tensor C);
    a_r_s : option (tensor T); a_eps_s : option (tensor C);
    a_env : tensor C; a_internal : bool; a_backend : string; a_which_jn : string; a_n_max : option Z }.
  Record output := {
    o_cfg : config; o_n_max : Z; o_k : tensor C;
    o_r_c : tensor T; o_r_s : tensor T; o_eps_c : tensor C; o_eps_s : tensor C;
    o_a : tensor C; o_b : tensor C; o_internal : option (tensor (@coeffs T)) }.

  Variables (scipy_jn scipy_yn : bessel_t).    (* external; not modelled *)
  Variable jn_ratio_t : bessel_t.              (* sph_jn_torch, special.py:786-921 *)

  Definition mie_coefficients (c : call) : result output :=
    let backend := lower (a_backend c) in
    if negb (existsb (String.eqb backend) ["torch"; "scipy"; "pena"]%string) then Err ValueError   (* 685-686 *)
    else
      let* re := as_layer_inputs (a_r_c c) (a_r_s c) (a_eps_c c) (a_eps_s c) (a_r_layers c) (a_eps_layers c) in
      let* cfg := broadcast_mie_layers (a_k0 c) (fst re) (snd re) (a_env c) in
      let r := c_r cfg in let eps := c_eps cfg in
      let n_part := dim_size 0 r in let L := dim_size 1 r in let n_k0 := dim_size 1 (c_k0 cfg) in
      (* 705-717: aliases *)
      let* _ := guard_err (0 <? L) IndexError in                        (* r_layers[:, 0] *)
      let* r_c := broadcast_to [n_part; n_k0] (unsqueeze_last (select 1 0 r)) in
      let* r_s := if 1 <? L then broadcast_to [n_part; n_k0] (unsqueeze_last (select 1 (L - 1) r)) else Ok r_c in
      let eps_c := select 1 0 eps in
      let eps_s := if 1 <? L then select 1 (L - 1) eps else eps_c in
      let* n_max :=                                                                                (* 722-739 *)
        match a_n_max c with
        | Some n => Ok n
        | None =>
          if String.eqb backend "pena" then pena2009 (c_k0 cfg) r eps (c_env cfg)
          else
            let* r_outer := broadcast_to [n_part; n_k0] (unsqueeze_last (select 1 (L - 1) r)) in
            let* rk := tbin rmul r_outer (c_k0 cfg) in
            let* ka := tbin cmul (tmap cofr rk) (tmap csqrt (c_env cfg)) in
            wiscombe ka
        end in
      if (n_max <? 0)%Z then Err RuntimeError                           (* torch.arange(1, n_max + 1) *)
      else
        let* k := tbin cmul (tmap cofr (c_k0 cfg)) (c_n_env cfg) in     (* 742 *)
        let* ab :=
          if String.eqb backend "pena" then
            let* ab := miecoef_pena_t k r eps (c_n_env cfg) n_max (a_internal c) in
            Ok (fst ab, snd ab, None)
          else if 2 <? L then Err ValueError                            (* 754-758 *)
          else
            let* x := tbin cmul k (tmap cofr r_c) in
            let* y := tbin cmul k (tmap cofr r_s) in
            let* m_c := tbin cdiv (tmap csqrt eps_c) (c_n_env cfg) in
            let* m_s := tbin cdiv (tmap csqrt eps_s) (c_n_env cfg) in
            let jn := if String.eqb backend "scipy" then scipy_jn
                      else if String.eqb (lower (a_which_jn c)) "recurrence" then jn_rec_t else jn_ratio_t in
            let yn := if String.eqb backend "scipy" then scipy_yn else yn_t in
            let* co := miecoef_t jn yn x y m_c m_s n_max in
            Ok (tmap an co, tmap bn co, if a_internal c then Some co else None)
        in
        let '(a, b, i) := ab in
        Ok {| o_cfg := cfg; o_n_max := n_max; o_k := k; o_r_c := r_c; o_r_s := r_s;
              o_eps_c := eps_c; o_eps_s := eps_s; o_a := a; o_b := b; o_internal := i |}.
End Batch.
