(** Automatic support points of the GPM extraction: /repo/src/pymiediff/helper/tg.py
    (TG) 493 and 526-538, and the extraction with that argument, TG:500-608.

    Simplifications: scipy is not modelled beyond what [qmc.Halton(d=3,
    scramble=False).random(n)] returns on a new sampler, i.e. the van der Corput
    numbers of 0, ..., n-1 in the bases 2, 3, 5 ([van_der_corput]; scipy stops
    its loop when the weight vanishes in double precision, here when no digit
    is left); a negative n raises ValueError. Numbers are finite; the float32
    conversion TG:549 is ignored; r_probe is given as a tensor, so the grid
    default TG:540-546 (a torchgdm routine) is left out. *)
From Coq Require Import ZArith List Bool String Arith.
From Verif Require Import Ops Tensor ModelMaterial ModelSpecial ModelMie ModelBatch ModelObs ModelJn ModelNear ModelNearLegacy ModelNearPena ModelGeom
  ModelParticle ModelParticleNear ModelTg ModelGpm.
Import ListNotations.
Open Scope string_scope.
Open Scope list_scope.

Section Support.
  Context {T : Type} {RO : RealOps T}.

  (* scipy.stats._qmc.van_der_corput of one index, unscrambled *)
  Fixpoint vdc_loop (fuel b quotient : nat) (weight acc : T) : T :=
    match fuel with
    | 0 => acc
    | S f => if Nat.eqb quotient 0 then acc
             else vdc_loop f b (quotient / b) (rdiv weight (rofn b)) (radd acc (rmul (rofn (quotient mod b)) weight))
    end.
  Definition van_der_corput (b i : nat) : T := vdc_loop i b i (rdiv rone (rofn b)) rzero.
  (* TG:533-534 qmc.Halton(d=3, scramble=False).random(n) *)
  Definition halton (n : nat) : list (@rvec3 T) :=
    map (fun i => (van_der_corput 2 i, van_der_corput 3 i, van_der_corput 5 i)) (seq 0 n).

  (* np.max(np.linalg.norm(r, axis=1)): ValueError on an empty array *)
  Definition max_norm (l : list (@rvec3 T)) : result T :=
    match map rnorm l with [] => Err ValueError | x :: xs => Ok (fold_left rmax xs x) end.
  Definition div3 (v : @rvec3 T) (c : T) : rvec3 := (rdiv (x1 v) c, rdiv (x2 v) c, rdiv (x3 v) c).
  Definition sub3 (u v : @rvec3 T) : rvec3 := (rsub (x1 u) (x1 v), rsub (x2 u) (x2 v), rsub (x3 u) (x3 v)).
  (* np.mean(r, axis=0) *)
  Definition mean3 (l : list (@rvec3 T)) : rvec3 :=
    let s f := rdiv (fold_left radd (map f l) rzero) (rofn (List.length l)) in (s x1, s x2, s x3).
  (** TG:529-538 after int(): [r_enc] the enclosing radius *)
  Definition support_points (n : Z) (r_enc : T) : result (list (@rvec3 T)) :=
    if (n <? 0)%Z then Err ValueError
    else
      let l := halton (Z.to_nat n) in
      let* m := max_norm l in
      let l := map (fun v => div3 v (radd m (rtenth 4))) l in               (* TG:535 *)
      let c := mean3 l in
      let l := map (fun v => sub3 v c) l in                                 (* TG:536 *)
      Ok (map (rscale (rmul (rdiv (rofZ 65) (rofZ 100)) (rmul r_enc rtwo))) l).   (* TG:537-538 *)
  Definition points_t (l : list (@rvec3 T)) : tensor T :=
    mkT [List.length l; 3] (fun ix =>
      let v := nth (nth 0 ix 0) l (rzero, rzero, rzero) in match nth 1 ix 0 with 0 => x1 v | 1 => x2 v | _ => x3 v end).

  (** the argument r_gpm: None, an int, a float or a tensor *)
  Inductive support_arg := SNone | SInt (n : Z) | SFloat (x : T) | STensor (t : tensor T).
  (** TG:493, 526-549 *)
  Definition resolve_support (a : support_arg) (r_enc : T) : result (tensor T) :=
    match a with
    | STensor t => Ok t
    | _ => let n := match a with SInt n => n | SFloat x => rtrunc x | _ => 36%Z end in
           let* l := support_points n r_enc in Ok (points_t l)
    end.

  Variables (e10 : T) (scipy_jn scipy_yn jn_ratio_t : @bessel_t T) (pi : string -> result Z).
  (** TG:500-608 with any r_gpm *)
  Definition gpm_extract (p : @particle T) (wls : list T) (n_env : n_env_arg) (n_angles : Z) (r_probe : tensor T) (r_gpm : support_arg) (n_max : option Z) (backend : option string) : @st T (list training) :=
    let b := resolve_backend p backend in
    bnd (tg_env p wls n_env) (fun eps =>
    bnd (lift (resolve_support r_gpm (at_ (enclosing_radius p) []))) (fun r_gpm =>
    bnd (lift (setup_configs n_angles ["xz"; "yz"; "xy"])) (fun confs =>
    map_st (train_one e10 scipy_jn scipy_yn jn_ratio_t pi p confs (cre (first_entry eps)) r_probe r_gpm n_max (Some b)) (map (fun w => rdiv (rmul rtwo rpi) w) wls)))).
End Support.
