(** The fields returned by the pena near-field code tend to the exact expansions. *)
From Coq Require Import Reals Lra Lia List Arith Bool ClassicalEpsilon.
From Coquelicot Require Import Coquelicot.
From Verif Require Import Ops ROps Spec StackSpec CLemmas CTrig BesselSpec ConvergeSpec ModelSpecial ModelMie PenaProofs QuietSpec StackProofs
  BesselLimits StackConverge BesselFinal ModelNear NearSpec NearProofs NearField MaxwellSpec NearLimitSpec NearLimit NearExact.
Import ListNotations.
Open Scope C_scope.

(* one solution per order, from the orders where it exists *)
Lemma solutions_pick N (P : nat -> list (@amps R) -> Prop) : (forall n, (1 <= n <= N)%nat -> exists As, P n As) ->
  exists As : nat -> list (@amps R), forall n, (1 <= n <= N)%nat -> P n (As n).
Proof.
  induction N as [|N IH]; intros H; [exists (fun _ => []); intros; lia|].
  destruct (IH (fun n Hn => H n ltac:(lia))) as [As HA]. destruct (H (S N) ltac:(lia)) as [A HN].
  exists (fun n => if Nat.eqb n (S N) then A else As n). intros n Hn. destruct (Nat.eqb_spec n (S N)) as [->|Hne]; [exact HN|]. apply HA. lia.
Qed.
Lemma xyz_vadd th ph u v : @field_to_xyz R ROps th ph (@vadd R ROps u v) = @vadd R ROps (@field_to_xyz R ROps th ph u) (@field_to_xyz R ROps th ph v).
Proof. unfold field_to_xyz, vadd, v1, v2, v3. cbn [fst snd]. f_equal; [f_equal|]; toC; match goal with |- ?a = ?b => change (@eq C a b) end; ring. Qed.
Lemma xyz_zero th ph : @field_to_xyz R ROps th ph (@vzero R ROps) = @vzero R ROps.
Proof. unfold field_to_xyz, vzero, v1, v2, v3. cbn [fst snd]. f_equal; [f_equal|]; toC; match goal with |- ?a = ?b => change (@eq C a b) end; ring. Qed.
Lemma xyz_vsum th ph (f : nat -> @vec3 R) l : @vsum R ROps (map (fun n => @field_to_xyz R ROps th ph (f n)) l) = @field_to_xyz R ROps th ph (@vsum R ROps (map f l)).
Proof.
  unfold vsum. rewrite <- (xyz_zero th ph) at 1. generalize (@vzero R ROps). induction l as [|n l IH]; intros a; [reflexivity|].
  cbn [map fold_left]. rewrite <- xyz_vadd. apply IH.
Qed.
Theorem field_limit n_max (k0 : R) (eps_env : C) core shells (E0 : C) (P : @point R) : increasing (@radii R core shells) ->
  let l0 := @layer_of R ROps k0 eps_env core in let rest := map (@layer_of R ROps k0 eps_env) shells in
  let li := below (@radii R core shells) (pt_r P) in
  let m := @n_medium R ROps eps_env core shells li in let rho := @rho_at R ROps k0 m (pt_r P) in
  (forall n, (1 <= n <= n_max)%nat -> regular_stack e30 l0 rest n /\ regular_near e30 (l0 :: rest) n /\ regular_arg e30 rho n) ->
  exists As : nat -> list (@amps R), (forall n, (1 <= n <= n_max)%nat -> near_solution n l0 rest (As n)) /\
    let out := Nat.eqb li (length (@radii R core shells)) in let A n := nth li (As n) amp0 in
    let cart := @field_to_xyz R ROps (pt_theta P) (pt_phi P) in
    tends_vec (fun n_add => @E_s R ROps n_max n_add k0 eps_env core shells E0 P) (cart (rad_E E0 out A n_max rho (pt_theta P) (pt_phi P))) /\
    tends_vec (fun n_add => @H_s R ROps n_max n_add k0 eps_env core shells E0 P) (cart (rad_H m E0 out A n_max rho (pt_theta P) (pt_phi P))).
Proof.
  intros Hinc l0 rest li m rho Hreg.
  destruct (solutions_pick n_max (fun n As => near_solution n l0 rest As /\ forall i, tends_amps (fun n_add => nth i (@near_amps R ROps n_max n_add l0 rest n) amp0) (nth i As amp0))) as [As HA].
  { intros n Hn. destruct (Hreg n Hn) as (R1 & R2 & _). destruct (near_limit n_max n l0 rest ltac:(lia) R1 R2) as (As & S1 & _ & T). exists As. split; assumption. }
  exists As. split; [intros n Hn; exact (proj1 (HA n Hn))|]. intros out A cart.
  assert (T : forall n, In n (orders n_max) ->
    tends_vec (fun n_add => @E_order R ROps n_max n_add k0 eps_env core shells E0 P li n) (@E_region R ROps E0 out (A n) (rad_vsh n false rho (pt_theta P) (pt_phi P)) (rad_vsh n true rho (pt_theta P) (pt_phi P)) n) /\
    tends_vec (fun n_add => @H_order R ROps n_max n_add k0 eps_env core shells E0 P li n) (@H_region R ROps E0 m out (A n) (rad_vsh n false rho (pt_theta P) (pt_phi P)) (rad_vsh n true rho (pt_theta P) (pt_phi P)) n)).
  { intros n Hin. unfold orders in Hin. apply in_seq in Hin. assert (Hn : (1 <= n <= n_max)%nat) by lia. unfold E_order, H_order, amplitudes.
    apply region_tends; [exact (proj2 (HA n Hn) li)| |]; apply pena_vsh_tends; first [lia|exact (proj2 (proj2 (Hreg n Hn)))]. }
  unfold rad_E, rad_H, cart. rewrite <- !xyz_vsum.
  split.
  - eapply (tv_ext _ _ _ (fun k => proj1 (region_fields n_max k k0 eps_env core shells E0 P Hinc))).
    apply (tv_sum (fun k n => @field_to_xyz R ROps (pt_theta P) (pt_phi P) (@E_order R ROps n_max k k0 eps_env core shells E0 P li n))).
    intros n Hin. apply tv_xyz. exact (proj1 (T n Hin)).
  - eapply (tv_ext _ _ _ (fun k => proj2 (region_fields n_max k k0 eps_env core shells E0 P Hinc))).
    apply (tv_sum (fun k n => @field_to_xyz R ROps (pt_theta P) (pt_phi P) (@H_order R ROps n_max k k0 eps_env core shells E0 P li n))).
    intros n Hin. apply tv_xyz. exact (proj2 (T n Hin)).
Qed.
(** outside, incident expansion + scattered field = the total expansion of the boundary-value problem *)
Definition incident_amps : @amps R := {| na := RtoC 0; nb := RtoC 0; nc := RtoC 1; nd := RtoC 1 |}.
Lemma vsum_add (f g h : nat -> @vec3 R) l : (forall n, f n = @vadd R ROps (g n) (h n)) ->
  @vsum R ROps (map f l) = @vadd R ROps (@vsum R ROps (map g l)) (@vsum R ROps (map h l)).
Proof.
  intros E. unfold vsum.
  assert (Z : forall a b, fold_left (@vadd R ROps) (map f l) (@vadd R ROps a b) = @vadd R ROps (fold_left (@vadd R ROps) (map g l) a) (fold_left (@vadd R ROps) (map h l) b)).
  { induction l as [|n l IH]; intros a b; [reflexivity|]. cbn [map fold_left]. rewrite <- IH, E. f_equal.
    unfold vadd, v1, v2, v3. cbn [fst snd]. f_equal; [f_equal|]; toC; match goal with |- ?a = ?b => change (@eq C a b) end; ring. }
  rewrite <- Z. f_equal. unfold vadd, vzero, v1, v2, v3. cbn [fst snd]. f_equal; [f_equal|]; toC; match goal with |- ?a = ?b => change (@eq C a b) end; ring.
Qed.
Theorem exterior_total (m E0 : C) (A : nat -> @amps R) N (rho : C) th ph : (forall n, nc (A n) = RtoC 1 /\ nd (A n) = RtoC 1) ->
  rad_E E0 false A N rho th ph = @vadd R ROps (rad_E E0 true A N rho th ph) (rad_E E0 false (fun _ => incident_amps) N rho th ph) /\
  rad_H m E0 false A N rho th ph = @vadd R ROps (rad_H m E0 true A N rho th ph) (rad_H m E0 false (fun _ => incident_amps) N rho th ph).
Proof.
  intros H. unfold rad_E, rad_H. split; apply vsum_add; intros n; destruct (H n) as [Hc Hd]; unfold E_region, H_region, vscale, vsub, vadd, v1, v2, v3; rewrite ?Hc, ?Hd; cbn [fst snd incident_amps na nb nc nd];
    f_equal; [f_equal| |f_equal|]; toC; match goal with |- ?a = ?b => change (@eq C a b) end; ring.
Qed.
