(** Model of src/pymiediff/multishell.py: coefficients and far-field
    observables for one (particle, wavelength) pair.  The tensor-level versions
    (batching, broadcasting) are in ModelBatch.v and ModelObs.v. *)
From Coq Require Import ZArith List Bool Arith.
From Verif Require Import Ops ModelSpecial.
Import ListNotations.

Section Mie.
  Context {T : Type} {RO : RealOps T}.
  Notation C := (cplx T).

  (** ** [_miecoef] (torch / scipy backends), multishell.py:24-266 *)

  (* Values at one order of the radial functions, multishell.py:99-117. *)
  Record radial := {
    m1 : C; m2 : C;
    psi_y : C; dpsi_y : C; xi_y : C; dxi_y : C;
    psi_m1x : C; dpsi_m1x : C;
    psi_m2x : C; dpsi_m2x : C; chi_m2x : C; dchi_m2x : C;
    psi_m2y : C; dpsi_m2y : C; chi_m2y : C; dchi_m2y : C }.
  Record coeffs := { an : C; bn : C; cn : C; dn : C; fn : C; gn : C; vn : C; wn : C }.

  Local Notation "x + y" := (cadd x y).
  Local Notation "x - y" := (csub x y).
  Local Notation "x * y" := (cmul x y).
  Local Notation "x / y" := (cdiv x y).
  Local Notation "- x" := (copp x).

  (* multishell.py:76-117: all radial values at order n from sequences
     j(z), y(z) evaluated by the chosen backend at y, m1 x, m2 x, m2 y.
     [fj z n], [fy z n] are the backend's spherical Bessel functions. *)
  Definition radial_of (fj fy : C -> nat -> C) (x y mc ms : C) (n : nat) : radial :=
    let h1 := h1_of (fj y) (fy y) in
    let dj z := f_der_at z (fj z) in
    let dy z := f_der_at z (fy z) in
    let dh1 i := dj y i + ci * dy y i in
    {| m1 := mc; m2 := ms;
       psi_y := y * fj y n;              dpsi_y := fj y n + y * dj y n;
       xi_y := y * h1 n;                 dxi_y := h1 n + y * dh1 n;
       psi_m1x := (mc * x) * fj (mc * x) n;
       dpsi_m1x := fj (mc * x) n + (mc * x) * dj (mc * x) n;
       psi_m2x := (ms * x) * fj (ms * x) n;
       dpsi_m2x := fj (ms * x) n + (ms * x) * dj (ms * x) n;
       chi_m2x := (- (ms * x)) * fy (ms * x) n;
       dchi_m2x := (- fy (ms * x) n) - (ms * x) * dy (ms * x) n;
       psi_m2y := (ms * y) * fj (ms * y) n;
       dpsi_m2y := fj (ms * y) n + (ms * y) * dj (ms * y) n;
       chi_m2y := (- (ms * y)) * fy (ms * y) n;
       dchi_m2y := (- fy (ms * y) n) - (ms * y) * dy (ms * y) n |}.

  (* multishell.py:73 (mu = mu1 = mu2 = 1) and 136-246, the sympy-generated
     temporaries x0..x56, verbatim *)
  Definition miecoef_core (r : radial) : coeffs :=
    let mu := cone in let mu1 := cone in let mu2 := cone in
    let m1 := m1 r in let m2 := m2 r in
    let psi_y := psi_y r in let dpsi_y := dpsi_y r in
    let xi_y := xi_y r in let dxi_y := dxi_y r in
    let psi_m1x := psi_m1x r in let dpsi_m1x := dpsi_m1x r in
    let psi_m2x := psi_m2x r in let dpsi_m2x := dpsi_m2x r in
    let chi_m2x := chi_m2x r in let dchi_m2x := dchi_m2x r in
    let psi_m2y := psi_m2y r in let dpsi_m2y := dpsi_m2y r in
    let chi_m2y := chi_m2y r in let dchi_m2y := dchi_m2y r in
    let x0 := dpsi_m2y * psi_y in
    let x1 := chi_m2x * dpsi_m1x in
    let x2 := m2 * mu2 in
    let x3 := mu1 * x2 in
    let x4 := x1 * x3 in
    let x5 := m1 * csqr mu2 in
    let x6 := dpsi_m2x * psi_m1x in
    let x7 := dchi_m2y * psi_y in
    let x8 := x6 * x7 in
    let x9 := dpsi_m1x * psi_m2x in
    let x10 := x3 * x9 in
    let x11 := dchi_m2x * psi_m1x in
    let x12 := psi_m2y * x11 in
    let x13 := m1 * x2 in
    let x14 := mu * x13 in
    let x15 := x12 * x14 in
    let x16 := x11 * x5 in
    let x17 := csqr m2 * mu1 in
    let x18 := x17 * x9 in
    let x19 := chi_m2y * dpsi_y in
    let x20 := mu * x19 in
    let x21 := x13 * x6 in
    let x22 := chi_m2x * psi_m2y in
    let x23 := mu * x17 in
    let x24 := dpsi_m1x * x22 * x23 in
    let x25 := dpsi_m2y * xi_y in
    let x26 := dchi_m2y * xi_y in
    let x27 := x26 * x6 in
    let x28 := chi_m2y * dxi_y in
    let x29 := mu * x28 in
    let x30 := cone / (dxi_y * x15 - dxi_y * x24 - x10 * x26 - x16 * x25
                       + x18 * x29 - x21 * x29 + x25 * x4 + x27 * x5) in
    let x31 := x12 * x3 in
    let x32 := dpsi_m1x * x5 in
    let x33 := psi_m2x * x32 in
    let x34 := x3 * x6 in
    let x35 := x1 * x14 in
    let x36 := x22 * x32 in
    let x37 := x14 * x9 in
    let x38 := x11 * x23 in
    let x39 := cone / (dxi_y * x31 - dxi_y * x36 + x23 * x27 + x25 * x35
                       - x25 * x38 - x26 * x37 + x28 * x33 - x28 * x34) in
    let an := x30 * (dpsi_y * x15 - dpsi_y * x24 - x0 * x16 + x0 * x4
                     - x10 * x7 + x18 * x20 - x20 * x21 + x5 * x8) in
    let bn := x39 * (dpsi_y * x31 - dpsi_y * x36 + x0 * x35 - x0 * x38
                     + x19 * x33 - x19 * x34 + x23 * x8 - x37 * x7) in
    let x40 := x2 * x39 in
    let x41 := chi_m2x * dpsi_m2x in
    let x42 := dpsi_y * xi_y in
    let x43 := dxi_y * psi_y in
    let x44 := dchi_m2x * psi_m2x in
    let x45 := m1 * mu1 * (x41 * x42 - x41 * x43 - x42 * x44 + x43 * x44) in
    let x46 := x2 * x30 in
    let x47 := m1 * mu2 in
    let x48 := x1 * x42 in
    let x49 := m2 * mu1 in
    let x50 := x11 * x43 in
    let x51 := x1 * x43 in
    let x52 := x11 * x42 in
    let x53 := x42 * x47 in
    let x54 := x49 * x6 in
    let x55 := x43 * x47 in
    let x56 := x49 * x9 in
    let cn := x40 * x45 in
    let dn := x45 * x46 in
    let fn := x40 * (x47 * x48 - x47 * x51 + x49 * x50 - x49 * x52) in
    let gn := x46 * (x47 * x50 - x47 * x52 + x48 * x49 - x49 * x51) in
    let vn := x40 * ((- x42) * x54 + x43 * x54 + x53 * x9 - x55 * x9) in
    let wn := x46 * (x42 * x56 - x43 * x56 - x53 * x6 + x55 * x6) in
    {| an := an; bn := bn; cn := cn; dn := dn; fn := fn; gn := gn; vn := vn; wn := wn |}.

  (* multishell.py:24-266 for one element and one order n (1 <= n <= n_max; the
     slice [1:, ...] at 248-266 drops order 0) *)
  Definition miecoef (fj fy : C -> nat -> C) (x y mc ms : C) (n : nat) : coeffs :=
    miecoef_core (radial_of fj fy x y mc ms n).

  (* multishell.py:59-65 with backend="torch": which_jn = "recurrence" (default)
     uses sph_jn_torch_via_rec, anything else sph_jn_torch.  The recurrence
     depth is chosen per call of the Bessel routine from the maximum modulus
     over the batch; [depth z] abstracts it (a per-argument-tensor number). *)
  Definition miecoef_torch (n_max : nat) (depth : C -> nat) (x y mc ms : C) (n : nat) : coeffs :=
    miecoef (fun z => sph_jn_via_rec n_max (depth z) z) sph_yn x y mc ms n.

  (** ** [_miecoef_pena], multishell.py:269-408 *)
  Definition eps30 : T := rtenth 30.
  Section Pena.
    Variables n_max n_add : nat.   (* n_add = 15 is the default of pena_D1_n, never overridden *)
    Definition pD1 (z : C) : nat -> C := D1_at eps30 (n_max + n_add)%nat z.
    Definition pD3 (z : C) : nat -> C := D3_at eps30 z (pD1 z).
    Definition pPZ (z : C) : nat -> C * C := psi_zeta_at eps30 z (pD1 z) (pD3 z).
    Definition ppsi (z : C) (n : nat) : C := fst (pPZ z n).
    Definition pzeta (z : C) (n : nat) : C := snd (pPZ z n).
    Definition pQ (z1 z2 x1 x2 : C) : nat -> C :=
      Q_at eps30 z1 z2 x1 x2 (pD1 z1) (pD1 z2) (pD3 z1) (pD3 z2).

    Definition layer : Type := (C * C)%type.   (* (m_l, x_l) *)

    (* multishell.py:342-345 *)
    Definition pena_first (l : layer) (n : nat) : C * C :=
      let d := pD1 (fst l * snd l) n in (d, d).
    (* multishell.py:347-376, one pass of the loop for l_idx >= 1 at order n *)
    Definition pena_layer (lm1 l : layer) (H : C * C) (n : nat) : C * C :=
      let ml := fst l in let xl := snd l in
      let mlm1 := fst lm1 in let xlm1 := snd lm1 in
      let Ha := fst H in let Hb := snd H in
      let z_curr := ml * xl in
      let z_prev := ml * xlm1 in
      let D1_curr := pD1 z_curr n in let D3_curr := pD3 z_curr n in
      let D1_prev := pD1 z_prev n in let D3_prev := pD3 z_prev n in
      let Q := pQ z_prev z_curr xlm1 xl n in
      let G1 := ml * Ha - mlm1 * D1_prev in
      let G2 := ml * Ha - mlm1 * D3_prev in
      let den_a := guard eps30 (G2 - Q * G1) in
      let Ha' := (G2 * D1_curr - Q * G1 * D3_curr) / den_a in
      let Gt1 := mlm1 * Hb - ml * D1_prev in
      let Gt2 := mlm1 * Hb - ml * D3_prev in
      let den_b := guard eps30 (Gt2 - Q * Gt1) in
      let Hb' := (Gt2 * D1_curr - Q * Gt1 * D3_curr) / den_b in
      (Ha', Hb').
    (* multishell.py:332-376, loop over the remaining layers *)
    Fixpoint pena_layers (lm1 : layer) (rest : list layer) (H : C * C) (n : nat) : C * C :=
      match rest with
      | [] => H
      | l :: rest' => pena_layers l rest' (pena_layer lm1 l H n) n
      end.
    Definition pena_H (l0 : layer) (rest : list layer) (n : nat) : C * C :=
      pena_layers l0 rest (pena_first l0 n) n.

    (* multishell.py:379-403: last layer, outer size parameter; order n >= 1 *)
    Definition pena_final (lL : layer) (H : C * C) (n : nat) : C * C :=
      let mL := fst lL in let xL := snd lL in
      let Ha := fst H in let Hb := snd H in
      let xL_safe := guard eps30 xL in
      let term_a := Ha / mL + cofn n / xL_safe in
      let a := (term_a * ppsi xL n - ppsi xL (n - 1)%nat)
               / guard eps30 (term_a * pzeta xL n - pzeta xL (n - 1)%nat) in
      let term_b := mL * Hb + cofn n / xL_safe in
      let b := (term_b * ppsi xL n - ppsi xL (n - 1)%nat)
               / guard eps30 (term_b * pzeta xL n - pzeta xL (n - 1)%nat) in
      (a, b).
    Definition pena_ab (l0 : layer) (rest : list layer) (n : nat) : C * C :=
      pena_final (last rest l0) (pena_H l0 rest n) n.
  End Pena.

  (* multishell.py:324-325: x_l = k r_l, m_l = sqrt(eps_l) / n_env, with
     k = k0 n_env (line 742) and n_env = eps_env ** 0.5 (line 633) *)
  Definition layer_of (k0 : T) (eps_env : C) (re : T * C) : layer :=
    let n_env := csqrt eps_env in
    (csqrt (snd re) / n_env, (cofr k0 * n_env) * cofr (fst re)).

  (* multishell.py:641-799, backend="pena", one particle, one wavelength:
     layers given as (radius, permittivity) from the core outwards *)
  Definition mie_pena (n_max : nat) (k0 : T) (eps_env : C) (core : T * C)
             (shells : list (T * C)) (n : nat) : C * C :=
    pena_ab n_max 15 (layer_of k0 eps_env core) (map (layer_of k0 eps_env) shells) n.

  (** ** [cross_sections], multishell.py:803-893 *)
  Definition types : list bool := [false; true].  (* stacked axis 0: a_n, b_n *)
  Definition orders (n_max : nat) : list nat := seq 1 n_max.
  Section CrossSections.
    Variables (n_max : nat) (k : C) (r_outer : T) (a b : nat -> C).  (* a, b: order -> coefficient *)
    Definition coef (t : bool) (n : nat) : C := if t then b n else a n.
    (* line 857 *)
    Definition cs_geo : T := rmul rpi (rsqr r_outer).
    (* line 860 *)
    Definition prefactor : C := cofr (rmul rtwo rpi) / csqr k.
    (* line 862 *)
    Definition cs_ext_mp (t : bool) (n : nat) : C :=
      prefactor * cofr (rofn (2 * n + 1)) * cofr (cre (coef t n)).
    (* line 864 *)
    Definition cs_sca_mp (t : bool) (n : nat) : C :=
      prefactor * cofr (rofn (2 * n + 1)) * cofr (rsqr (cabs (coef t n))).
    (* line 865 *)
    Definition cs_abs_mp (t : bool) (n : nat) : C := cs_ext_mp t n - cs_sca_mp t n.
    (* lines 869-871: torch.sum over axes (0, 1), then .real *)
    Definition sum01 (f : bool -> nat -> C) : T :=
      cre (csum (map (fun t => csum (map (f t) (orders n_max))) types)).
    Definition cs_ext : T := sum01 cs_ext_mp.
    Definition cs_abs : T := sum01 cs_abs_mp.
    Definition cs_sca : T := sum01 cs_sca_mp.
    (* lines 879-881 and 887-892 *)
    Definition q_ext : T := rdiv cs_ext cs_geo.
    Definition q_sca : T := rdiv cs_sca cs_geo.
    Definition q_abs : T := rdiv cs_abs cs_geo.
    Definition cs_ext_multipole (t : bool) (n : nat) : T := cre (cs_ext_mp t n).
    Definition cs_sca_multipole (t : bool) (n : nat) : T := cre (cs_sca_mp t n).
    Definition cs_abs_multipole (t : bool) (n : nat) : T := cre (cs_abs_mp t n).
    Definition q_ext_multipole (t : bool) (n : nat) : T := rdiv (cs_ext_multipole t n) cs_geo.
    Definition q_sca_multipole (t : bool) (n : nat) : T := rdiv (cs_sca_multipole t n) cs_geo.
    Definition q_abs_multipole (t : bool) (n : nat) : T := rdiv (cs_abs_multipole t n) cs_geo.
  End CrossSections.

  (** ** [angular_scattering], multishell.py:896-990, one angle *)
  Section Angular.
    Variables (n_max : nat) (a b : nat -> C) (theta : T).
    (* line 951 *)
    Definition mu : T := rcos theta.
    (* lines 970-971: (2n+1)/(n(n+1)) *)
    Definition ang_w (n : nat) : C := cofr (rdiv (rofn (2 * n + 1)) (rofn (n * (n + 1)))).
    Definition S1 : C :=
      csum (map (fun n => ang_w n * (a n * cofr (pi_n mu n) + b n * cofr (tau_n mu n)))
                (orders n_max)).
    Definition S2 : C :=
      csum (map (fun n => ang_w n * (a n * cofr (tau_n mu n) + b n * cofr (pi_n mu n)))
                (orders n_max)).
    (* lines 973-977 *)
    Definition i_per : T := rsqr (cabs S1).
    Definition i_par : T := rsqr (cabs S2).
    Definition i_unpol : T := rdiv (radd i_par i_per) rtwo.
    Definition pol_degree : T := rdiv (rsub i_per i_par) (radd i_per i_par).
  End Angular.
End Mie.
