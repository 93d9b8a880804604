(** [Particle.get_nearfields]: /repo/src/pymiediff/main.py (MN) 385-424.

    Keyword arguments are those of [kwargs] without return_internal, which
    [nearfields] does not take (multishell.py 993-1008), plus the amplitude E_0.
    As in ModelNearPena.v probe tensors have shape (N_pos, 3); tensors with more
    axes pass the assertion and fail in the evaluation, which the code reshapes
    in ways not modelled. *)
From Coq Require Import ZArith List Bool String Arith.
From Verif Require Import Ops Tensor ModelMaterial ModelSpecial ModelMie ModelBatch ModelObs ModelJn ModelNear ModelNearLegacy ModelNearPena ModelParticle.
Import ListNotations.
Open Scope string_scope.
Open Scope list_scope.

Section ParticleNear.
  Context {T : Type} {RO : RealOps T}.
  Notation C := (cplx T).
  Variables (e10 : T) (scipy_jn scipy_yn jn_ratio_t : @bessel_t T) (pi : string -> result Z).
  (* multishell.py:1039-1041: the dispatch of [nearfields] *)
  Definition nearfields_api (E_0 : C) (probe : tensor T) (c : @call T) : result (@fields T) :=
    if String.eqb (lower (a_backend c)) "pena" then near_call_pena e10 scipy_jn scipy_yn jn_ratio_t E_0 probe c
    else near_call e10 scipy_jn scipy_yn jn_ratio_t pi E_0 probe c.
  (* multishell.py:1284-1291, 1483-1490: the returned dictionary *)
  Definition near_dict (f : @fields T) : @dict T :=
    [("E_i", PC (f_Ei f)); ("H_i", PC (f_Hi f)); ("E_s", PC (f_Es f)); ("H_s", PC (f_Hs f)); ("E_t", PC (f_Et f)); ("H_t", PC (f_Ht f))].
  (* the evaluation combines wavenumbers, permittivities, radii (size parameters,
     region masks) and positions: all have to live on one device *)
  Definition near_devices_ok (dk dr de dv : device) : bool := String.eqb dk dv && String.eqb de dv && String.eqb dr dk.
  (** MN:385-424 *)
  Definition get_nearfields (p : @particle T) (k0 probe : tensor T) (src : option nat) (E_0 : C) (kw : kwargs) : st (@dict T) :=
    match rev (shp probe) with
    | [] => fail IndexError                                                (* MN:406: shape[-1] of a 0-d tensor *)
    | n :: _ =>
      if Nat.eqb n 3 then
        bnd (permittivities p k0 src) (fun ee =>                           (* MN:408 *)
        bnd (lift (nearfields_api E_0 probe (particle_call p k0 (fst ee) (snd ee) kw))) (fun f =>
        if near_devices_ok (p_dev p) (td (p_r p)) (td (fst ee)) (td (snd ee)) then ret (squeeze_dimensions (near_dict f)) else fail RuntimeError))
      else fail AssertionError                                             (* MN:406 *)
    end.
End ParticleNear.
