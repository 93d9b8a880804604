(** C104: splitting a layer does not change the near fields. *)
From Coq Require Import Reals Lra Lia List Arith Bool.
From Coquelicot Require Import Coquelicot.
From Verif Require Import Ops ROps Spec StackSpec CLemmas CTrig ModelSpecial ModelMie QuietSpec ExampleStack ModelNear NearSpec SplitNear ExampleSplit.
Import ListNotations.
Open Scope R_scope.

(** C104: a shell of permittivity e ending at rx is described as two shells of
    the same permittivity, with a fictitious interface at ry. Scattered,
    internal and total fields are the same at every point, including points
    between and on the interfaces. *)
Theorem C104_shell : forall N n_add k0 env core pre rx ry e post E0 P,
  let lay := @layer_of R ROps k0 env in let shells := pre ++ (rx, e) :: post in let shells' := pre ++ (ry, e) :: (rx, e) :: post in
  increasing (@radii R core shells') ->
  (forall n, (1 <= n <= N)%nat -> quiet_stack N n_add (lay core) (map lay shells) n /\ quiet_stack N n_add (lay core) (map lay shells') n /\
    quiet_step N n_add (fst (lay (ry, e))) (snd (lay (ry, e))) n) ->
  @pD1 R ROps N n_add (snd (last (map lay shells) (lay core))) 0 <> Ci -> fst (lay (ry, e)) <> RtoC 0 ->
  @E_s R ROps N n_add k0 env core shells' E0 P = E_s N n_add k0 env core shells E0 P /\ @H_s R ROps N n_add k0 env core shells' E0 P = H_s N n_add k0 env core shells E0 P /\
  @E_t R ROps N n_add k0 env core shells' E0 P = E_t N n_add k0 env core shells E0 P /\ @H_t R ROps N n_add k0 env core shells' E0 P = H_t N n_add k0 env core shells E0 P.
Proof. exact fields_split. Qed.
Print Assumptions C104_shell.

(** C104: the same for the core, at points inside the inner part or outside
    the outer one. Between them order 1 keeps the small irregular amplitude
    that is zeroed in a core (C42). *)
Theorem C104_core : forall N n_add k0 env rx ry e shells E0 P,
  let lay := @layer_of R ROps k0 env in let shells' := (rx, e) :: shells in
  increasing (@radii R (ry, e) shells') ->
  (forall n, (1 <= n <= N)%nat -> quiet_stack N n_add (lay (rx, e)) (map lay shells) n /\ quiet_stack N n_add (lay (ry, e)) (map lay shells') n /\
    quiet_step N n_add (fst (lay (ry, e))) (snd (lay (ry, e))) n) ->
  @pD1 R ROps N n_add (snd (last (map lay shells) (lay (rx, e)))) 0 <> Ci -> fst (lay (ry, e)) <> RtoC 0 ->
  (pt_r P <= ry \/ rx < pt_r P) ->
  @E_s R ROps N n_add k0 env (ry, e) shells' E0 P = E_s N n_add k0 env (rx, e) shells E0 P /\ @H_s R ROps N n_add k0 env (ry, e) shells' E0 P = H_s N n_add k0 env (rx, e) shells E0 P /\
  @E_t R ROps N n_add k0 env (ry, e) shells' E0 P = E_t N n_add k0 env (rx, e) shells E0 P /\ @H_t R ROps N n_add k0 env (ry, e) shells' E0 P = H_t N n_add k0 env (rx, e) shells E0 P.
Proof. exact core_fields. Qed.
Print Assumptions C104_core.

(** a glass sphere of radius 1/2 with interfaces at 1/8, and at 1/8 and 1/4 *)
Example C104_instance : forall E0 P,
  @E_t R ROps 1 15 1 (RtoC 1) (1/8, glass) [(1/4, glass); (1/2, glass)] E0 P = E_t 1 15 1 (RtoC 1) (1/8, glass) [(1/2, glass)] E0 P.
Proof.
  intros E0 P. apply (C104_shell 1 15 1 (RtoC 1) (1/8, glass) [] (1/2) (1/4) glass [] E0 P).
  - cbn. lra.
  - intros n Hn. assert (n = 1%nat) as -> by lia. cbn [app map]. rewrite !glass_layer. cbn [fst snd]. split; [apply two_quiet; lra|]. split; [apply three_quiet; lra|apply glass_cut; lra].
  - cbn [app map last]. rewrite glass_layer. apply D1_real_neq_i.
  - rewrite glass_layer. cbn. apply RtoC_neq. lra.
Qed.
Example C104_instance_core : forall E0 th ph,
  @E_t R ROps 1 15 1 (RtoC 1) (1/4, glass) [(1/2, glass)] E0 {| pt_r := 1/5; pt_theta := th; pt_phi := ph |} =
  E_t 1 15 1 (RtoC 1) (1/2, glass) [] E0 {| pt_r := 1/5; pt_theta := th; pt_phi := ph |}.
Proof.
  intros E0 th ph. apply (C104_core 1 15 1 (RtoC 1) (1/2) (1/4) glass [] E0 {| pt_r := 1/5; pt_theta := th; pt_phi := ph |}).
  - cbn. lra.
  - intros n Hn. assert (n = 1%nat) as -> by lia. cbn [map]. rewrite !glass_layer. cbn [fst snd]. split; [exact ex_homog_quiet|]. split; [apply two_quiet; lra|apply glass_cut; lra].
  - cbn [map last]. rewrite glass_layer. apply D1_real_neq_i.
  - rewrite glass_layer. cbn. apply RtoC_neq. lra.
  - cbn. lra.
Qed.
