(** Maxwell's equations in spherical coordinates, for complex fields of real
    variables (r, theta, phi).  Nothing here refers to the model, except the
    last section, which puts the true radial functions in its expansions. *)
From Coq Require Import Reals List Arith.
From Coquelicot Require Import Coquelicot.
From Verif Require Import Ops ROps Spec StackSpec CTrig BesselSpec ConvergeSpec ModelSpecial ModelMie ModelNear.
Import ListNotations.
Open Scope C_scope.

(* derivative of a complex function of a real variable *)
Definition RCderive (f : R -> C) (t : R) (d : C) : Prop :=
  is_derive (fun s => fst (f s)) t (fst d) /\ is_derive (fun s => snd (f s)) t (snd d).

Definition cvec : Type := (C * C * C)%type.
Definition sph_field : Type := R -> R -> R -> cvec.
Definition c_r (v : cvec) : C := fst (fst v).
Definition c_th (v : cvec) : C := snd (fst v).
Definition c_ph (v : cvec) : C := snd v.

(* [c] is the curl of F at (r, theta, phi): all the partial derivatives exist and
     c_r  = (d(sin th F_ph)/dth - dF_th/dph) / (r sin th)
     c_th = (dF_r/dph / sin th - d(r F_ph)/dr) / r
     c_ph = (d(r F_th)/dr - dF_r/dth) / r *)
Definition is_curl (F : sph_field) (r th ph : R) (c : cvec) : Prop :=
  exists a1 a2 b1 b2 d1 d2 : C,
    RCderive (fun t => RtoC (sin t) * c_ph (F r t ph)) th a1 /\ RCderive (fun p => c_th (F r th p)) ph a2 /\
    RCderive (fun p => c_r (F r th p)) ph b1 /\ RCderive (fun s => RtoC s * c_ph (F s th ph)) r b2 /\
    RCderive (fun s => RtoC s * c_th (F s th ph)) r d1 /\ RCderive (fun t => c_r (F r t ph)) th d2 /\
    c_r c = (a1 - a2) / (RtoC r * RtoC (sin th)) /\
    c_th c = (b1 / RtoC (sin th) - b2) / RtoC r /\
    c_ph c = (d1 - d2) / RtoC r.
(* [v] is the divergence of F:
     d(r^2 F_r)/dr / r^2 + d(sin th F_th)/dth / (r sin th) + dF_ph/dph / (r sin th) *)
Definition is_div (F : sph_field) (r th ph : R) (v : C) : Prop :=
  exists a b d : C,
    RCderive (fun s => RtoC (s * s) * c_r (F s th ph)) r a /\ RCderive (fun t => RtoC (sin t) * c_th (F r t ph)) th b /\
    RCderive (fun p => c_ph (F r th p)) ph d /\
    v = a / RtoC (r * r) + (b + d) / (RtoC r * RtoC (sin th)).
Definition scale3 (c : C) (v : cvec) : cvec := (c * c_r v, c * c_th v, c * c_ph v).

(* source-free Maxwell equations in a medium of index m, time dependence
   exp(-i w t), vacuum wavenumber k0, H in units of E / Z_0 *)
Definition maxwell (k0 : R) (m : C) (E H : sph_field) (r th ph : R) : Prop :=
  is_curl E r th ph (scale3 (Ci * RtoC k0) (H r th ph)) /\
  is_curl H r th ph (scale3 (- (Ci * RtoC k0 * (m * m))) (E r th ph)) /\
  is_div E r th ph (RtoC 0) /\ is_div H r th ph (RtoC 0).

(** ** the expansions of the code with the true Riccati-Bessel functions at the radial argument rho *)
Definition rad_vsh (n : nat) (kind3 : bool) (rho : C) (th ph : R) : @vsh_t R :=
  let f := if kind3 then true_zeta n rho else true_psi n rho in
  let df := if kind3 then true_dzeta n rho else true_dpsi n rho in
  @vsh_of R ROps th ph n rho (f / rho) (df / rho).
(* orders 1..N of one region: index m, amplitudes A *)
Definition rad_E (E0 : C) (out : bool) (A : nat -> @amps R) (N : nat) (rho : C) (th ph : R) : cvec :=
  @vsum R ROps (map (fun n => @E_region R ROps E0 out (A n) (rad_vsh n false rho th ph) (rad_vsh n true rho th ph) n) (orders N)).
Definition rad_H (m E0 : C) (out : bool) (A : nat -> @amps R) (N : nat) (rho : C) (th ph : R) : cvec :=
  @vsum R ROps (map (fun n => @H_region R ROps E0 m out (A n) (rad_vsh n false rho th ph) (rad_vsh n true rho th ph) n) (orders N)).
(* as fields of (r, theta, phi): rho = k0 m r *)
Definition true_vsh (k : C) (n : nat) (kind3 : bool) (r th ph : R) : @vsh_t R := rad_vsh n kind3 (k * RtoC r) th ph.
Definition true_E (k0 : R) (m E0 : C) (out : bool) (A : nat -> @amps R) (N : nat) : sph_field := fun r th ph => rad_E E0 out A N (RtoC k0 * m * RtoC r) th ph.
Definition true_H (k0 : R) (m E0 : C) (out : bool) (A : nat -> @amps R) (N : nat) : sph_field := fun r th ph => rad_H m E0 out A N (RtoC k0 * m * RtoC r) th ph.
