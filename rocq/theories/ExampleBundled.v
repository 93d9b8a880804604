(** A gold sphere with a silica shell, both from the database, in water. *)
From Coq Require Import Reals ZArith List Bool String Arith Lia Lra Permutation.
From Coquelicot Require Import Coquelicot.
From Verif Require Import Ops ROps CLemmas Tensor TensorProofs ModelMaterial MaterialSpec MaterialProofs ModelMie ModelBatch ModelObs BroadcastSpec BatchReal
  ModelParticle ParticleSpec ParticleProofs ParticleRun ParticleHist ParticleFull ParticleEnd ExampleParticle ModelBundled BundledSpec BundledProofs BundledPartSpec BundledEnd.
Import ListNotations.
Open Scope nat_scope.
Open Scope string_scope.
Open Scope list_scope.

Lemma database_made reg contents name d m : @mat_database R ROps reg contents name d = Ok (Some m) -> made (Db m).
Proof.
  unfold mat_database. destruct (find_source reg name) as [[|f sh]|]; cbn [bind]; try discriminate. destruct (assoc contents f) as [y|]; [|discriminate].
  destruct (load_db py_float py_int [y] d []) as [m0|] eqn:E; cbn [bind]; [|discriminate]. intros Q. injection Q as <-. right. exists py_float, py_int, [y], d, m0, []. now split.
Qed.
Lemma gold_file : file_for "Au" "Au_Johnson1972.yml".
Proof. split; [repeat split; discriminate|]. now exists "Johnson1972.yml". Qed.
Lemma silica_file : file_for "SiO2" "SiO2_Malitson1965.yml".
Proof. split; [repeat split; discriminate|]. now exists "Malitson1965.yml". Qed.
Lemma silica_range : valid_at "SiO2_Malitson1965.yml" 500 /\ ~ valid_at "SiO2_Malitson1965.yml" 9000.
Proof.
  split.
  - intros a b [E|[E|[E|[E|[E|[]]]]]]; try discriminate E. injection E as <- <-. lra.
  - intros H. specialize (H 210%R 6700%R ltac:(cbn; tauto)). lra.
Qed.
Lemma gold_range x : valid_at "Au_Johnson1972.yml" x.
Proof. intros a b [E|[E|[E|[E|[E|[]]]]]]; discriminate E. Qed.
Definition k0_500 : tensor R := vec [2 * PI / 500]%R.
Definition coated : @pargs R :=
  {| g_r_layers := Some (vec [20; 30]%R); g_eps_layers := None; g_mat_layers := Some [AObj 0; AObj 1]; g_mat_env := AScalar (RtoC (4/3)); g_device := None;
     g_r_core := None; g_mat_core := None; g_r_shell := None; g_mat_shell := None |}.
Lemma gold_silica (sj sy jr : @bessel_t R) : exists gold silica (h : @heap R) p dict, p_mats p = Some [0; 1] /\
  nth_error h 0 = Some (Db gold) /\ nth_error h 1 = Some (Db silica) /\
  physical_material (Db gold) (valid_at "Au_Johnson1972.yml") /\ physical_material (Db silica) (valid_at "SiO2_Malitson1965.yml") /\
  snd (get_mie_coefficients sj sy jr p k0_500 None kw1 h) = Ok dict.
Proof.
  destruct (bundled_db (map fst bundled) "Au_Johnson1972.yml" f_Au_Johnson1972 "Au" "Au" "cpu" (Permutation_refl _)) as (g & Eg & _ & _ & _);
    [cbn; tauto|exact gold_file|reflexivity|discriminate|].
  destruct (bundled_db (map fst bundled) "SiO2_Malitson1965.yml" f_SiO2_Malitson1965 "SiO2" "sio2" "cpu" (Permutation_refl _)) as (s & Es & _ & _ & _);
    [cbn; tauto|exact silica_file|reflexivity|discriminate|].
  assert (MG : made (Db g)) by exact (database_made _ _ _ _ _ Eg).
  assert (MS : made (Db s)) by exact (database_made _ _ _ _ _ Es).
  set (h0 := [Db g; Db s]).
  assert (Ac : accepted coated [20; 30]%R None (Some [AObj 0; AObj 1])) by (apply acc_mat with (vec [20; 30]%R); try reflexivity; [repeat split|discriminate]).
  assert (Us : List.Forall (usable h0) (mat_args coated)) by (repeat constructor).
  destruct (new_accepts coated h0 _ _ _ Ac Us) as (h1 & p1 & E & Hc & Hs & He & Hp & Hm & Hv).
  assert (Hr : reachable sj sy jr h1) by (eapply re_new; [apply re_start; constructor; [exact MG|constructor; [exact MS|constructor]]|exact E]).
  destruct (p_eps p1) eqn:Ep; [discriminate|]. destruct (p_mats p1) as [is|] eqn:Em; [|contradiction].
  inversion Hm as [|x y l l' Hx Hl]; subst. inversion Hl as [|x' y' m m' Hx' Hl']; subst. inversion Hl'; subst.
  destruct Hx as [-> (m0 & E0 & E1)]. cbn in E0. injection E0 as <-. destruct Hx' as [-> (m1 & E2 & E3)]. cbn in E2. injection E2 as <-. destruct Hv as [_ Hv].
  change (set_device_mat (device_of coated) (Db g)) with (Db (hrun g [HDev "cpu"])) in E1. change (set_device_mat (device_of coated) (Db s)) with (Db (hrun s [HDev "cpu"])) in E3.
  assert (PG : physical_material (Db (hrun g [HDev "cpu"])) (valid_at "Au_Johnson1972.yml")).
  { apply (pm_bundled "Au" "Au" _ f_Au_Johnson1972 "cpu"); [cbn; tauto|exact gold_file|reflexivity|discriminate|exact Eg]. }
  assert (PS : physical_material (Db (hrun s [HDev "cpu"])) (valid_at "SiO2_Malitson1965.yml")).
  { apply (pm_bundled "sio2" "SiO2" _ f_SiO2_Malitson1965 "cpu"); [cbn; tauto|exact silica_file|reflexivity|discriminate|exact Es]. }
  pose proof PI_RGT_0 as Pp.
  assert (WL : (2 * PI / (2 * PI / 500) = 500)%R) by (field; lra).
  destruct (bundled_particle sj sy jr "cpu" p1 h1 k0_500 None kw1 [0; 1] 2 1 [20; 30]%R (fun _ => 4/3 * (4/3))%R 1%Z Hr Hc Ep Em eq_refl ltac:(lia) Hs He)
    as (lf & h2 & o & dict & ta & tb & _ & G & _); try reflexivity; try lia.
  - cbn. lra.
  - intros [|l] Hl2; [cbn; lra|lia].
  - intros [|k] Hk; [|lia]. cbn. apply Rmult_lt_0_compat; lra.
  - intros [|[|l]] Hl2; [| |lia].
    + exists (Db (hrun g [HDev "cpu"])), (valid_at "Au_Johnson1972.yml"). split; [exact E1|]. split; [exact PG|]. intros; apply gold_range.
    + exists (Db (hrun s [HDev "cpu"])), (valid_at "SiO2_Malitson1965.yml"). split; [exact E3|]. split; [exact PS|]. intros [|k] Hk; [|lia].
      cbn [nth entries k0_500 vec shp indices map List.length seq flat_map List.app at_]. rewrite WL. apply silica_range.
  - intros k Hk. split; [lra|]. eexists. split; [exact Hv|]. rewrite RtoC_mult. apply const_eps.
  - exists (hrun g [HDev "cpu"]), (hrun s [HDev "cpu"]), h1, p1, dict. rewrite G. repeat split; assumption.
Qed.
Lemma bundled_named : List.Forall (fun fy => exists material, material <> "" /\ file_for material (fst fy)) bundled.
Proof.
  unfold bundled. repeat (apply List.Forall_cons || apply List.Forall_nil); cbn [fst];
  match goal with |- exists _, _ /\ file_for _ ?f => let m := eval vm_compute in (before_us f) in let r := eval vm_compute in (substring (S (String.length m)) (String.length f) f) in
    exists m; split; [discriminate|split; [repeat split; discriminate|now exists r]] end.
Qed.
