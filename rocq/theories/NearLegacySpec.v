(** Scalar fields of a core-shell sphere in the notation of Bohren and Huffman
    (4.37-4.51, 8.1): one wavelength, one point, given the coefficients and the
    radial functions.  Independent of the tensor model in ModelNearLegacy.v. *)
From Coq Require Import Reals ZArith List Bool Arith.
From Coquelicot Require Import Coquelicot.
From Verif Require Import Ops ROps ModelSpecial ModelMie ModelNear ModelNearLegacy.
Import ListNotations.
Open Scope nat_scope.
Notation Cx := (cplx R).
Notation V3 := (@vec3 R).

Definition comp (c : nat) (v : V3) : Cx := match c with 0 => v1 v | 1 => v2 v | _ => v3 v end.
(* Riccati-Bessel function and derivative: psi, chi or xi *)
Definition rad (kd : kind) (j y : nat -> Cx) (rho : Cx) (n : nat) : Cx * Cx :=
  match kd with
  | K1 => psi_of rho j n
  | K2 => chi_of rho y n
  | K3 => psi_of rho (fun m => cadd (j m) (cmul ci (y m))) n
  end.
Definition vsh_s (kd : kind) (j y : Cx -> nat -> Cx) (rho : Cx) (theta phi : R) (n : nat) : @vsh_t R :=
  let f := rad kd (j rho) (y rho) rho n in
  vsh_of theta phi n rho (cdiv (fst f) rho) (cdiv (snd f) rho).

(* the medium a point sees, with its radial functions *)
Record optics := { w_k0 : R; w_core : Cx; w_shell : Cx; w_env : Cx; w_rc : R; w_rs : R }.
Section Point.
  Variables (w : optics) (r theta phi : R) (E0 : Cx) (co : nat -> @coeffs R).
  Variables (jc js jo : Cx -> nat -> Cx) (y : Cx -> nat -> Cx).
  Let V (kd : kind) (j : Cx -> nat -> Cx) (m : Cx) (n : nat) := vsh_s kd j y (rho_at (w_k0 w) m r) theta phi n.
  Let En := fun n => pw_factor n E0.
  Definition E_core n : V3 := vscale (En n) (vsub (vscale (cn (co n)) (M_o (V K1 jc (w_core w) n))) (vscale (cmul ci (dn (co n))) (N_e (V K1 jc (w_core w) n)))).
  Definition E_shell n : V3 := vscale (En n) (vsub
    (vsub (vscale (fn (co n)) (M_o (V K1 js (w_shell w) n))) (vscale (cmul ci (gn (co n))) (N_e (V K1 js (w_shell w) n))))
    (vsub (vscale (vn (co n)) (M_o (V K2 js (w_shell w) n))) (vscale (cmul ci (wn (co n))) (N_e (V K2 js (w_shell w) n))))).
  Definition E_out n : V3 := vscale (En n) (vsub (vscale (cmul ci (an (co n))) (N_e (V K3 jo (w_env w) n))) (vscale (bn (co n)) (M_o (V K3 jo (w_env w) n)))).
  Definition H_core n : V3 := vscale (cmul (copp (w_core w)) (En n)) (vadd (vscale (dn (co n)) (M_e (V K1 jc (w_core w) n))) (vscale (cmul ci (cn (co n))) (N_o (V K1 jc (w_core w) n)))).
  Definition H_shell n : V3 := vscale (cmul (copp (w_shell w)) (En n)) (vsub
    (vadd (vscale (gn (co n)) (M_e (V K1 js (w_shell w) n))) (vscale (cmul ci (fn (co n))) (N_o (V K1 js (w_shell w) n))))
    (vadd (vscale (wn (co n)) (M_e (V K2 js (w_shell w) n))) (vscale (cmul ci (vn (co n))) (N_o (V K2 js (w_shell w) n))))).
  Definition H_out n : V3 := vscale (cmul (En n) (w_env w)) (vadd (vscale (cmul ci (bn (co n))) (N_o (V K3 jo (w_env w) n))) (vscale (an (co n)) (M_e (V K3 jo (w_env w) n)))).
  Definition E_sph n : V3 := if Rle_dec r (w_rc w) then E_core n else if Rle_dec r (w_rs w) then E_shell n else E_out n.
  Definition H_sph n : V3 := if Rle_dec r (w_rc w) then H_core n else if Rle_dec r (w_rs w) then H_shell n else H_out n.
  (* plane wave polarised along x, travelling along z; k = k0 n_env *)
  Definition phase : Cx := cexp (cmul (cmul (cmul ci (cmul (cofr (w_k0 w)) (w_env w))) (cofr r)) (cofr (rcos theta))).
  Definition E_inc : V3 := (cmul E0 phase, czero, czero).
  Definition H_inc : V3 := (czero, cmul (cmul E0 (w_env w)) phase, czero).
  (* cartesian component of the sum over orders 1..N *)
  Definition total (F : nat -> V3) (N c : nat) : Cx := csum (map (fun n => comp c (field_to_xyz theta phi (F (S n)))) (seq 0 N)).
End Point.
