(** Model of the rotation and illumination helpers of
    /repo/src/pymiediff/helper/tg.py (TG): 217-324, 326-370, 374-442, and of the
    normalisation at TG 588-594.

    3-vectors are triples, 3x3 matrices triples of rows.  dtype and device
    arguments are ignored. *)
From Coq Require Import ZArith List Bool String Arith.
From Verif Require Import Ops ModelSpecial ModelMie ModelBatch ModelNear.
Import ListNotations.
Open Scope string_scope.

Section Geom.
  Context {T : Type} {RO : RealOps T}.
  Notation C := (cplx T).
  Definition rvec3 : Type := (T * T * T)%type.
  Definition mat3 : Type := (rvec3 * rvec3 * rvec3)%type.
  Definition x1 (v : rvec3) : T := fst (fst v).
  Definition x2 (v : rvec3) : T := snd (fst v).
  Definition x3 (v : rvec3) : T := snd v.
  Definition row1 (m : mat3) : rvec3 := fst (fst m).
  Definition row2 (m : mat3) : rvec3 := snd (fst m).
  Definition row3 (m : mat3) : rvec3 := snd m.

  (** TG:217-242 [rotation_x], 245-270 [rotation_y], 273-298 [rotation_z] *)
  Definition rotation_x (alpha : T) : mat3 :=
    let s := rsin alpha in let c := rcos alpha in
    ((rone, rzero, rzero), (rzero, c, ropp s), (rzero, s, c)).
  Definition rotation_y (alpha : T) : mat3 :=
    let s := rsin alpha in let c := rcos alpha in
    ((c, rzero, s), (rzero, rone, rzero), (ropp s, rzero, c)).
  Definition rotation_z (alpha : T) : mat3 :=
    let s := rsin alpha in let c := rcos alpha in
    ((c, ropp s, rzero), (s, c, rzero), (rzero, rzero, rone)).

  (** TG:301-324 [setup_plane_waves_configs] *)
  Record conf := { cf_angle : T; cf_plane : string; cf_pol : string }.
  (* torch.linspace(0, 2 pi, n + 1)[:-1]; a negative number of steps is rejected *)
  Definition angles (n : Z) : result (list T) :=
    if (n + 1 <? 0)%Z then Err RuntimeError
    else Ok (map (fun i => rdiv (rmul (rofn i) (rmul rtwo rpi)) (rofn (Z.to_nat n))) (seq 0 (Z.to_nat n))).
  Definition setup_configs (n : Z) (planes : list string) : result (list conf) :=
    let* a := angles n in
    Ok (flat_map (fun angle => flat_map (fun inc => map (fun pol => {| cf_angle := angle; cf_plane := inc; cf_pol := pol |}) ["s"; "p"]) planes) a).

  (** TG:326-370 [_plane_wave_rotation] *)
  Definition rnorm (v : rvec3) : T := norm3 (x1 v) (x2 v) (x3 v).
  Definition rscale (c : T) (v : rvec3) : rvec3 := (rmul c (x1 v), rmul c (x2 v), rmul c (x3 v)).
  Definition runit (v : rvec3) : rvec3 := let n := rnorm v in (rdiv (x1 v) n, rdiv (x2 v) n, rdiv (x3 v) n).
  Definition rcross (u v : rvec3) : rvec3 :=
    (rsub (rmul (x2 u) (x3 v)) (rmul (x3 u) (x2 v)), rsub (rmul (x3 u) (x1 v)) (rmul (x1 u) (x3 v)), rsub (rmul (x1 u) (x2 v)) (rmul (x2 u) (x1 v))).
  Definition rneg (v : rvec3) : rvec3 := (ropp (x1 v), ropp (x2 v), ropp (x3 v)).
  Definition transpose (m : mat3) : mat3 :=
    ((x1 (row1 m), x1 (row2 m), x1 (row3 m)), (x2 (row1 m), x2 (row2 m), x2 (row3 m)), (x3 (row1 m), x3 (row2 m), x3 (row3 m))).
  (* e_dir and k_dir before normalisation *)
  Definition frame_dirs (angle : T) (plane pol : string) : result (rvec3 * rvec3) :=
    let s := rsin angle in let c := rcos angle in
    let pick (es ep : rvec3) (k : rvec3) : result (rvec3 * rvec3) :=
      if String.eqb pol "s" then Ok (es, k) else if String.eqb pol "p" then Ok (ep, k) else Err ValueError in
    if String.eqb plane "yz" then pick (rone, rzero, rzero) (rzero, ropp c, s) (rzero, s, c)
    else if String.eqb plane "xz" then pick (rzero, rone, rzero) (ropp c, rzero, s) (s, rzero, c)
    else if String.eqb plane "xy" then pick (rzero, rzero, rone) (ropp c, s, rzero) (s, c, rzero)
    else Err ValueError.
  Definition plane_wave_rotation (angle : T) (plane pol : string) : result mat3 :=
    let* d := frame_dirs angle plane pol in
    let e := runit (fst d) in let k := runit (snd d) in
    let h := runit (rneg (rcross e k)) in
    Ok (transpose (e, h, k)).

  (** TG:374-442 [_eval_mie]: [nf] gives E_s, H_s, E_i, H_i at one point *)
  (* matmul of a row vector with a matrix *)
  Definition rdot (u v : rvec3) : T := radd (radd (rmul (x1 u) (x1 v)) (rmul (x2 u) (x2 v))) (rmul (x3 u) (x3 v)).
  Definition row_mul (v : rvec3) (m : mat3) : rvec3 := let t := transpose m in (rdot v (row1 t), rdot v (row2 t), rdot v (row3 t)).
  Definition cdot (F : @vec3 T) (v : rvec3) : C := cadd (cadd (cmul (v1 F) (cofr (x1 v))) (cmul (v2 F) (cofr (x2 v)))) (cmul (v3 F) (cofr (x3 v))).
  Definition field_mul (F : @vec3 T) (m : mat3) : @vec3 T := let t := transpose m in (cdot F (row1 t), cdot F (row2 t), cdot F (row3 t)).
  Record four := { q_Es : @vec3 T; q_Hs : @vec3 T; q_Ei : @vec3 T; q_Hi : @vec3 T }.
  Definition eval_mie (nf : rvec3 -> four) (c : conf) (r_probe r_gpm : list rvec3) : result (list (@vec3 T) * list (@vec3 T) * list (@vec3 T) * list (@vec3 T)) :=
    let* rot := plane_wave_rotation (cf_angle c) (cf_plane c) (cf_pol c) in
    let back F := field_mul F (transpose rot) in
    let sca := map (fun r => nf (row_mul r rot)) r_probe in
    let inc := map (fun r => nf (row_mul r rot)) r_gpm in
    Ok (map (fun f => back (q_Es f)) sca, map (fun f => back (q_Hs f)) sca, map (fun f => back (q_Ei f)) inc, map (fun f => back (q_Hi f)) inc).

  (** TG:588-594: common normalisation of the four fields of one illumination *)
  Definition vmax (l : list (@vec3 T)) : T := fold_left rmax (flat_map (fun v => [cabs (v1 v); cabs (v2 v); cabs (v3 v)]) l) rzero.
  Definition common_norm (fs : list (list (@vec3 T))) : T := rmax (fold_left rmax (map vmax fs) rzero) (rtenth 30).
  (* Tensor.max of an empty tensor raises *)
  Definition normalise (fs : list (list (@vec3 T))) : result (list (list (@vec3 T))) :=
    if existsb (fun l => match l with [] => true | _ => false end) fs then Err RuntimeError
    else let n := cofr (common_norm fs) in Ok (map (map (fun v => (cdiv (v1 v) n, cdiv (v2 v) n, cdiv (v3 v) n))) fs).
End Geom.
