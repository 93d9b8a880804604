(** The situations the torchgdm helpers are meant for. *)
From Coq Require Import Reals ZArith List Bool String Arith.
From Coquelicot Require Import Complex.
From Verif Require Import Ops ROps Tensor ModelMaterial MaterialSpec ModelBatch BroadcastSpec ModelParticle ParticleSpec ModelTg.
Import ListNotations.
Open Scope nat_scope.
Open Scope list_scope.

(** a particle of L layers made of materials with a permittivity at each of the
    wavelengths [wls], in a medium of the same permittivity [v] at all of them *)
Record setting (sj sy jr : @bessel_t R) (d : device) (p : @particle R) (h : @heap R) (wls : list R) (is : list nat) (L : nat) (rs : list R)
  (lf : nat -> nat -> C) (v : C) : Prop := {
  se_reach : reachable sj sy jr h;
  se_coh : coherent d p h;
  se_eps : p_eps p = None;
  se_mats : p_mats p = Some is;
  se_len : List.length is = L /\ 1 <= L;
  se_radii : shp (tt (p_r p)) = [L] /\ entries (tt (p_r p)) = rs /\ forall l, S l < L -> (nth l rs 0 < nth (S l) rs 0)%R;
  se_wls : wls <> [] /\ forall k, k < List.length wls -> (0 < nth k wls 0)%R;
  se_layer : forall l k, l < L -> k < List.length wls -> exists m, nth_error h (nth l is 0) = Some m /\ material_eps m (nth k wls 0%R) (lf l k);
  se_env : forall k, k < List.length wls -> exists m, nth_error h (p_env p) = Some m /\ material_eps m (nth k wls 0%R) v }.

(** one sphere at the k-th wavelength *)
Definition sphere_at (wls : list R) (rs : list R) (lf : nat -> nat -> C) (v : C) (k : nat) : R * C * list (R * C) :=
  ((2 * PI / nth k wls 0)%R, v, map (fun l => (nth l rs 0%R, lf l k)) (seq 0 (List.length rs))).

(** an explicit backend that handles L layers, or none *)
Definition backend_fits (b : option string) (L : nat) : Prop :=
  match b with
  | None => True
  | Some s => lower s = "pena"%string \/ (lower s = "torch"%string /\ L <= 2)
  end.

(** polarisabilities of the electric and magnetic dipole, Garcia-Etxarri et al.,
    Opt. Express 19, 4815 (2011), in units of volume *)
Definition alpha_e (a1 : C) (k0 : R) (n : C) : C := (Ci * RtoC (3 / 2) * a1 / (RtoC (k0 * k0 * k0) * n))%C.
Definition alpha_m (b1 : C) (k0 : R) (n : C) : C := (Ci * RtoC (3 / 2) * b1 / (RtoC (k0 * k0 * k0) * (n * n * n)))%C.
(** six by six matrix with the electric block first, isotropic, no coupling *)
Definition alpha6 (pE mH : nat -> C) (k i j : nat) : C := if i =? j then (if i <? 3 then pE k else mH k) else RtoC 0.
(** wavelengths at which a coefficient exceeds the tolerance, in their order *)
Definition exceeding (tol : R) (q : nat -> C) (wls : list R) : list R :=
  map (fun k => nth k wls 0%R) (filter (fun k => if Rlt_dec tol (Cmod (q k)) then true else false) (seq 0 (List.length wls))).
(** accepted environment arguments and positions *)
Definition env_arg (v : C) (ne : @n_env_arg R) : Prop :=
  match ne with NNone => True | NNum _ => False | NTen u => shp u = [1] /\ (at_ u [0] * at_ u [0])%C = v end.
Definition centre_ok (r0 : option (tensor R)) (r : tensor R) : Prop :=
  match r0 with None => r = vec_t 0%R [0; 0; 0]%R | Some t => shp (squeeze t) = [3] /\ r = squeeze t end.

(** number of true entries before position i *)
Fixpoint rank (mask : list bool) (i : nat) : nat :=
  match mask, i with
  | b :: m, S i => (if b then 1 else 0) + rank m i
  | _, _ => 0
  end.

(** square blocks along the diagonal *)
Fixpoint sumC (n : nat) (f : nat -> C) : C := match n with O => RtoC 0 | S n => (sumC n f + f n)%C end.
Definition sizes (bs : list (@sqmat R)) : list nat := map (@sq_n R) bs.
Definition offset (bs : list (@sqmat R)) (i : nat) : nat := list_sum (firstn i (sizes bs)).
Definition zero_block : @sqmat R := {| sq_n := 0; sq_at := fun _ _ => RtoC 0 |}.
