(** Property C79: the incident expansion of the near-field code is the plane wave that it returns as incident field. *)
From Coq Require Import Reals ZArith Lra Lia List Arith.
From Coquelicot Require Import Coquelicot.
From Verif Require Import Ops ROps Spec StackSpec CTrig BesselSpec ConvergeSpec ModelSpecial ModelMie ModelNear NearSpec
  MaxwellSpec NearLimitSpec NearFieldLimit PlaneVector ExampleMaxwell.
Import ListNotations.
Open Scope C_scope.

(** C79: at every argument rho <> 0 and every direction, the expansions with a = b = 0, c = d = 1 converge, as the number
    of orders grows, to an x-polarised plane wave along z: E = E0 e^(i rho cos theta) x, H = m E0 e^(i rho cos theta) y. *)
Theorem C79_vector_expansion : forall (E0 m rho : C) (th ph : R), rho <> RtoC 0 ->
  let cart := @field_to_xyz R ROps th ph in
  tends_vec (fun N => cart (rad_E E0 false (fun _ => incident_amps) N rho th ph)) (E0 * Cexp (Ci * rho * RtoC (cos th)), RtoC 0, RtoC 0) /\
  tends_vec (fun N => cart (rad_H m E0 false (fun _ => incident_amps) N rho th ph)) (RtoC 0, m * E0 * Cexp (Ci * rho * RtoC (cos th)), RtoC 0).
Proof. exact inc_cartesian. Qed.
Print Assumptions C79_vector_expansion.
(** C79: at rho = k0 n_env r this is the incident field [E_i], [H_i] that the code adds to the scattered field. *)
Theorem C79_code_incident : forall (k0 : R) (eps_env E0 : C) (P : @point R),
  let n_env := @csqrt R ROps eps_env in let rho := RtoC k0 * n_env * RtoC (pt_r P) in rho <> RtoC 0 ->
  let cart := @field_to_xyz R ROps (pt_theta P) (pt_phi P) in
  tends_vec (fun N => cart (rad_E E0 false (fun _ => incident_amps) N rho (pt_theta P) (pt_phi P))) (@E_i R ROps k0 eps_env E0 P) /\
  tends_vec (fun N => cart (rad_H n_env E0 false (fun _ => incident_amps) N rho (pt_theta P) (pt_phi P))) (@H_i R ROps k0 eps_env E0 P).
Proof. exact incident_expansion. Qed.
Print Assumptions C79_code_incident.
(* k0 = 1, n_env = 3/2, r = 4/5, theta = pi/3 : rho = 6/5 and the x component tends to e^(3i/5) *)
Example C79_instance : let rho := RtoC 1 * @csqrt R ROps (RtoC (3 / 2 * (3 / 2))) * RtoC (4 / 5) in
  rho = RtoC (6 / 5) /\ rho <> RtoC 0 /\ Ci * rho * RtoC (cos (PI / 3)) = Ci * RtoC (3 / 5).
Proof.
  cbv zeta. rewrite csqrt_real by lra. rewrite cos_PI3. rewrite <- !RtoC_mult. split; [apply f_equal; field|]. split.
  - intros H. injection H. lra.
  - rewrite <- Cmult_assoc, <- RtoC_mult. do 2 apply f_equal. field.
Qed.
