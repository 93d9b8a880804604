(** Model of multishell.py:993-1291 [nearfields] with backend "pena", of
    special.py:1451-1540 [vsh_pena], 1123-1205 [vsh] and of the coordinate
    helpers helper.py:149-258, for one particle, one wavelength and one probe
    point. *)
From Coq Require Import ZArith List Bool Arith.
From Verif Require Import Ops ModelSpecial ModelMie.
Import ListNotations.

Section Near.
  Context {T : Type} {RO : RealOps T}.
  Notation C := (cplx T).
  Local Notation "x + y" := (cadd x y).
  Local Notation "x - y" := (csub x y).
  Local Notation "x * y" := (cmul x y).
  Local Notation "x / y" := (cdiv x y).
  Local Notation "- x" := (copp x).

  (** ** coordinates *)
  (* helper.py:213-233 [transform_spherical_to_xyz] *)
  Definition sph_to_xyz (r theta phi : T) : T * T * T :=
    (rmul (rmul r (rsin theta)) (rcos phi), rmul (rmul r (rsin theta)) (rsin phi), rmul r (rcos theta)).
  (* helper.py:236-258 [transform_xyz_to_spherical]; [e10] is finfo(dtype).eps * 10 *)
  Definition clamp_t (lo hi q : T) : T := let q := if rltb q lo then lo else q in if rltb hi q then hi else q.
  Definition norm3 (x y z : T) : T := rsqrt (radd (radd (rsqr x) (rsqr y)) (rsqr z)).
  Definition xyz_to_sph (e10 x y z : T) : T * T * T :=
    let r := norm3 x y z in
    let r_safe := if reqb r rzero then rtenth 12 else r in
    let q := clamp_t (radd (ropp rone) e10) (rsub rone e10) (rdiv z r_safe) in
    let x_safe := radd x (rmul (if reqb x rzero then rone else rzero) e10) in
    (r, racos q, ratan2 y x_safe).
  Definition vec3 : Type := (C * C * C)%type.
  Definition v1 (v : vec3) : C := fst (fst v).
  Definition v2 (v : vec3) : C := snd (fst v).
  Definition v3 (v : vec3) : C := snd v.
  (* helper.py:178-210 [transform_fields_spherical_to_cartesian] *)
  Definition field_to_xyz (theta phi : T) (E : vec3) : vec3 :=
    let st := rsin theta in let ct := rcos theta in let sp := rsin phi in let cp := rcos phi in
    (v1 E * cofr (rmul st cp) + v2 E * cofr (rmul ct cp) + v3 E * cofr (ropp sp),
     v1 E * cofr (rmul st sp) + v2 E * cofr (rmul ct sp) + v3 E * cofr cp,
     v1 E * cofr ct + v2 E * cofr (ropp st) + v3 E * cofr rzero).
  Definition vadd (u v : vec3) : vec3 := (v1 u + v1 v, v2 u + v2 v, v3 u + v3 v).
  Definition vscale (c : C) (u : vec3) : vec3 := (c * v1 u, c * v2 u, c * v3 u).
  Definition vsub (u v : vec3) : vec3 := (v1 u - v1 v, v2 u - v2 v, v3 u - v3 v).
  Definition vzero : vec3 := (czero, czero, czero).
  Definition vsum (l : list vec3) : vec3 := fold_left vadd l vzero.

  (** ** expansion factor: multishell.py:1185 and helper.py:149-174 [plane_wave_expansion] *)
  Definition pw_factor (n : nat) (E0 : C) : C := cpow ci n * E0 * cofn (2 * n + 1) / cofn (n * (n + 1)).
  Definition pw_coeff (j : nat) : C := cpow ci j * cofn (2 * j + 1) / cofn (j * (j + 1)).
  Definition plane_wave_expansion (n : Z) : result (list C) :=
    if (n <? 0)%Z then Err AssertionError else Ok (map pw_coeff (seq 1 (Z.to_nat n))).

  (** ** vector spherical harmonics from a radial function *)
  (* special.py:1514-1540 and 1178-1205: [zn] = z_n(rho), [dz] = (rho z_n)'/rho; components (r, theta, phi) *)
  Record vsh_t := { M_o : vec3; M_e : vec3; N_o : vec3; N_e : vec3 }.
  Definition vsh_of (theta phi : T) (n : nat) (rho zn dz : C) : vsh_t :=
    let st := rsin theta in let cp := cofr (rcos phi) in let sp := cofr (rsin phi) in
    let p := cofr (pi_n (rcos theta) n) in let t := cofr (tau_n (rcos theta) n) in
    let nn := cofn n * (cofn n + cone) in
    {| M_o := (czero, cp * p * zn, - (sp * t * zn));
       M_e := (czero, - sp * p * zn, - (cp * t * zn));
       N_o := (sp * nn * cofr st * p * (zn / rho), sp * t * dz, cp * p * dz);
       N_e := (cp * nn * cofr st * p * (zn / rho), cp * t * dz, - (sp * p * dz)) |}.
  Section Pena.
    Variables n_max n_add : nat.
    (* special.py:1486-1512 [vsh_pena]; [kind3]: outgoing functions *)
    Definition rho_at (k0 : T) (n_med : C) (r : T) : C := cofr k0 * n_med * cofr r + cofr (rtenth 8).
    Definition vsh_pena (k0 : T) (n_med : C) (r theta phi : T) (kind3 : bool) (n : nat) : vsh_t :=
      let rho := rho_at k0 n_med r in
      let f := if kind3 then pzeta n_max n_add rho n else ppsi n_max n_add rho n in
      let D := if kind3 then pD3 n_max n_add rho n else pD1 n_max n_add rho n in
      let zn := f / rho in
      vsh_of theta phi n rho zn (D * zn).

    (** ** amplitudes: multishell.py:1060-1160 *)
    Record amps := { na : C; nb : C; nc : C; nd : C }.
    (* 1103-1144, one interface at order n: layer (ml, xl) inside, index mlp1 outside *)
    Definition near_step (ml mlp1 xl : C) (nxt : amps) (n : nat) : amps :=
      let z_l := ml * xl in let z_lp1 := mlp1 * xl in
      let D1_l := pD1 n_max n_add z_l n in let D3_l := pD3 n_max n_add z_l n in
      let psi_l := ppsi n_max n_add z_l n in let zeta_l := pzeta n_max n_add z_l n in
      let D1_p := pD1 n_max n_add z_lp1 n in let D3_p := pD3 n_max n_add z_lp1 n in
      let psi_p := ppsi n_max n_add z_lp1 n in let zeta_p := pzeta n_max n_add z_lp1 n in
      let T1 := na nxt * zeta_p - nd nxt * psi_p in
      let T2 := nb nxt * zeta_p - nc nxt * psi_p in
      let T3 := nd nxt * D1_p * psi_p - na nxt * D3_p * zeta_p in
      let T4 := nc nxt * D1_p * psi_p - nb nxt * D3_p * zeta_p in
      let U := D1_l - D3_l in
      let den_a := guard eps30 (zeta_l * U) in
      let den_c := guard eps30 (psi_l * U) in
      let m_ratio := ml / mlp1 in
      {| na := (D1_l * T1 + T3 * m_ratio) / den_a;
         nb := (D1_l * T2 * m_ratio + T4) / den_a;
         nc := (D3_l * T2 * m_ratio + T4) / den_c;
         nd := (D3_l * T1 + T3 * m_ratio) / den_c |}.
    (* amplitudes of the layers l, rest and of the exterior, before 1146-1149 *)
    Fixpoint near_raw (l : @layer T) (rest : list (@layer T)) (ext : amps) (n : nat) : list amps :=
      match rest with
      | [] => [near_step (fst l) cone (snd l) ext n; ext]
      | l' :: rest' =>
          let outs := near_raw l' rest' ext n in
          near_step (fst l) (fst l') (snd l) (hd ext outs) n :: outs
      end.
    (* 1146-1149 *)
    Definition zero_core (A : amps) : amps := {| na := czero; nb := czero; nc := nc A; nd := nd A |}.
    Definition on_head {A} (f : A -> A) (l : list A) : list A := match l with [] => [] | a :: l' => f a :: l' end.
    (* 1076-1080, 1098-1101: exterior amplitudes a_n, b_n, 1, 1 *)
    Definition exterior (a b : C) : amps := {| na := a; nb := b; nc := cone; nd := cone |}.
    Definition near_amps (l0 : @layer T) (rest : list (@layer T)) (n : nat) : list amps :=
      let ab := pena_ab n_max n_add l0 rest n in
      on_head zero_core (near_raw l0 rest (exterior (fst ab) (snd ab)) n).

    (** ** fields at one point, multishell.py:1162-1291 *)
    (* 1213-1225 *)
    Definition in_region (radii : list T) (r : T) (li : nat) : bool :=
      if Nat.eqb li (length radii) then rltb (last radii rzero) r
      else match li with
           | O => rleb r (nth 0 radii rzero)
           | S j => rltb (nth j radii rzero) r && rleb r (nth li radii rzero)
           end.
    (* 1238-1255: expansion of region li at order n *)
    Definition E_region (E0 : C) (out : bool) (A : amps) (V1 V3 : vsh_t) (n : nat) : vec3 :=
      let En := pw_factor n E0 in
      if out then vscale En (vsub (vscale (ci * na A) (N_e V3)) (vscale (nb A) (M_o V3)))
      else vscale En (vsub (vadd (vsub (vscale (nc A) (M_o V1)) (vscale (ci * nd A) (N_e V1))) (vscale (ci * na A) (N_e V3))) (vscale (nb A) (M_o V3))).
    Definition H_region (E0 n_med : C) (out : bool) (A : amps) (V1 V3 : vsh_t) (n : nat) : vec3 :=
      let En := pw_factor n E0 in
      if out then vscale (n_med * En) (vadd (vscale (ci * nb A) (N_o V3)) (vscale (na A) (M_e V3)))
      else vscale (- n_med * En) (vsub (vsub (vadd (vscale (nd A) (M_e V1)) (vscale (ci * nc A) (N_o V1))) (vscale (ci * nb A) (N_o V3))) (vscale (na A) (M_e V3))).
    Record point := { pt_r : T; pt_theta : T; pt_phi : T }.
    Definition amp0 : amps := {| na := czero; nb := czero; nc := czero; nd := czero |}.
    Section Fields.
      Variables (k0 : T) (eps_env : C) (core : T * C) (shells : list (T * C)) (E0 : C) (P : point).
      Definition radii : list T := map fst (core :: shells).
      (* 1188-1193 *)
      Definition n_medium (li : nat) : C := if Nat.eqb li (length radii) then csqrt eps_env else csqrt (snd (nth li (core :: shells) core)).
      Definition amplitudes (n : nat) : list amps := near_amps (layer_of k0 eps_env core) (map (layer_of k0 eps_env) shells) n.
      Definition E_order (li n : nat) : vec3 :=
        E_region E0 (Nat.eqb li (length radii)) (nth li (amplitudes n) amp0)
          (vsh_pena k0 (n_medium li) (pt_r P) (pt_theta P) (pt_phi P) false n) (vsh_pena k0 (n_medium li) (pt_r P) (pt_theta P) (pt_phi P) true n) n.
      Definition H_order (li n : nat) : vec3 :=
        H_region E0 (n_medium li) (Nat.eqb li (length radii)) (nth li (amplitudes n) amp0)
          (vsh_pena k0 (n_medium li) (pt_r P) (pt_theta P) (pt_phi P) false n) (vsh_pena k0 (n_medium li) (pt_r P) (pt_theta P) (pt_phi P) true n) n.
      (* 1228-1258: masked assignments, region after region *)
      Definition masked (f : nat -> vec3) : vec3 :=
        fold_left (fun acc li => if in_region radii (pt_r P) li then f li else acc) (seq 0 (S (length radii))) vzero.
      (* 1260-1269 *)
      Definition to_cartesian (f : nat -> nat -> vec3) : vec3 :=
        vsum (map (fun n => field_to_xyz (pt_theta P) (pt_phi P) (masked (fun li => f li n))) (orders n_max)).
      Definition E_s : vec3 := to_cartesian E_order.
      Definition H_s : vec3 := to_cartesian H_order.
      (* 1271-1276 *)
      Definition k_env : C := cofr k0 * csqrt eps_env.
      Definition phase : C := cexp (ci * k_env * cofr (pt_r P) * cofr (rcos (pt_theta P))).
      Definition E_i : vec3 := (E0 * phase, czero, czero).
      Definition H_i : vec3 := (czero, E0 * csqrt eps_env * phase, czero).
      (* 1278-1282 *)
      Definition outside : bool := in_region radii (pt_r P) (length radii).
      Definition E_t : vec3 := if outside then vadd E_s E_i else E_s.
      Definition H_t : vec3 := if outside then vadd H_s H_i else H_s.
    End Fields.
  End Pena.
End Near.
