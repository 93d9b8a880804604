(** Property C80: far zone of the scattered near field. *)
From Coq Require Import Reals ZArith Lra Lia List Arith.
From Coquelicot Require Import Coquelicot.
From Verif Require Import Ops ROps Spec StackSpec CTrig BesselSpec ConvergeSpec ModelSpecial ModelMie ModelNear MaxwellSpec FarZoneSpec FarZone.
Import ListNotations.
Open Scope C_scope.

(** C80: as r grows the scattered expansion of [nearfields] becomes the outgoing transverse wave whose amplitudes are the
    S1, S2 of [angular_scattering] for the same coefficients: with rho = k0 m r,
    rho e^(-i rho) E -> (0, i E0 cos(phi) S2, -i E0 sin(phi) S1) and rho e^(-i rho) H -> m rhat x (that). *)
Theorem C80_far_zone : forall (k0 : R) (m E0 : C) (A : nat -> @amps R) (N : nat) (th ph : R), RtoC k0 * m <> RtoC 0 ->
  let scaled r := RtoC k0 * m * RtoC r * Cexp (- (Ci * (RtoC k0 * m * RtoC r))) in
  let a n := na (A n) in let b n := nb (A n) in
  far (fun r => scaled r * c_r (true_E k0 m E0 true A N r th ph)) (RtoC 0) /\
  far (fun r => scaled r * c_th (true_E k0 m E0 true A N r th ph)) (Ci * E0 * RtoC (cos ph) * @S2 R ROps N a b th) /\
  far (fun r => scaled r * c_ph (true_E k0 m E0 true A N r th ph)) (- (Ci * E0 * RtoC (sin ph) * @S1 R ROps N a b th)) /\
  far (fun r => scaled r * c_r (true_H k0 m E0 true A N r th ph)) (RtoC 0) /\
  far (fun r => scaled r * c_th (true_H k0 m E0 true A N r th ph)) (m * (Ci * E0 * RtoC (sin ph) * @S1 R ROps N a b th)) /\
  far (fun r => scaled r * c_ph (true_H k0 m E0 true A N r th ph)) (m * (Ci * E0 * RtoC (cos ph) * @S2 R ROps N a b th)).
Proof. exact far_fields. Qed.
Print Assumptions C80_far_zone.
(* an absorbing environment is allowed *)
Example C80_instance : RtoC 2 * (1, 1)%R <> RtoC 0.
Proof. intros H. injection H. intros H1 H2. lra. Qed.
