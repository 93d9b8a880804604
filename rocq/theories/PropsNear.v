(** Properties C41-C45, C74: near fields of the pena backend. *)
From Coq Require Import Reals ZArith Lra Lia List.
From Coquelicot Require Import Coquelicot.
From Verif Require Import Ops ROps Spec StackSpec CLemmas CTrig ModelSpecial ModelMie PenaProofs QuietSpec
  StackProofs ExampleStack ModelNear NearSpec NearProofs NearField NearJump ExampleNear.
Import ListNotations.
Open Scope C_scope.

(** C41: all interfaces, both polarisations, any number of layers and any exterior amplitudes. *)
Theorem C41_amplitudes_continuous : forall (n_max n_add : nat) (rest : list (C * C)) (l : C * C) (ext : @amps R) (n : nat),
  (forall i, (i <= length rest)%nat -> index_at (l :: rest) i <> RtoC 0) ->
  quiet_near n_max n_add (l :: rest) n -> forall i, (i <= length rest)%nat ->
  continuous_at n_max n_add (l :: rest) (@near_raw R ROps n_max n_add l rest ext n) n i.
Proof. exact near_continuous. Qed.
Print Assumptions C41_amplitudes_continuous.
(** C41: one amplitude record per region, the exterior ones last. *)
Theorem C41_amplitude_count : forall (n_max n_add : nat) (rest : list (C * C)) (l : C * C) (ext : @amps R) (n : nat),
  length (@near_raw R ROps n_max n_add l rest ext n) = S (S (length rest)).
Proof. exact near_raw_length. Qed.
Print Assumptions C41_amplitude_count.
(** C41: the inward step is the only solution of the interface equations. *)
Theorem C41_step_unique : forall (n_max n_add : nat) (tm : bool) (ml mp xl : C) (nxt : @amps R) (AB : C * C) (n : nat),
  ml <> RtoC 0 -> mp <> RtoC 0 -> quiet_step n_max n_add ml xl n ->
  interface_ok tm xl (rf_in n_max n_add n) ml AB (rf_in n_max n_add n) mp (pair_of tm nxt) ->
  AB = pair_of tm (@near_step R ROps n_max n_add ml mp xl nxt n).
Proof. exact step_unique. Qed.
Print Assumptions C41_step_unique.
Example C41_instance : quiet_near 1 15 [ex_core; ex_shell] 1 /\ (forall i, (i <= length [ex_shell])%nat -> index_at [ex_core; ex_shell] i <> RtoC 0).
Proof. split; [exact shell_quiet|exact shell_index]. Qed.

(** C42: nothing is thrown away by zeroing the core amplitudes at orders n >= 2. *)
Theorem C42_zeroing_harmless : forall (n_max n_add : nat) (l0 : C * C) (rest : list (C * C)) (n : nat),
  (2 <= n <= n_max + n_add)%nat -> quiet_stack n_max n_add l0 rest n -> quiet_near n_max n_add (l0 :: rest) n ->
  let ab := @pena_ab R ROps n_max n_add l0 rest n in
  @near_amps R ROps n_max n_add l0 rest n = @near_raw R ROps n_max n_add l0 rest (@exterior R ROps (fst ab) (snd ab)) n.
Proof. exact core_regular. Qed.
Print Assumptions C42_zeroing_harmless.
(** C42: at every order the dropped amplitude is the coefficient times the seed defect times a fixed response. *)
Theorem C42_dropped_amplitude : forall (n_max n_add : nat) (tm : bool) (l0 : C * C) (rest : list (C * C)) (n : nat),
  (1 <= n <= n_max + n_add)%nat -> quiet_stack n_max n_add l0 rest n ->
  (n = 1%nat -> @pD1 R ROps n_max n_add (snd (last rest l0)) 0 <> Ci) -> quiet_near n_max n_add (l0 :: rest) n ->
  let ab := @pena_ab R ROps n_max n_add l0 rest n in let x := snd (last rest l0) in
  fst (pair_of tm (hd amp0 (@near_raw R ROps n_max n_add l0 rest (@exterior R ROps (fst ab) (snd ab)) n))) =
  (if tm then fst ab else snd ab) * seed_defect n_max n_add x n *
    fst (pair_of tm (hd amp0 (@near_raw R ROps n_max n_add l0 rest (unit_slope n_max n_add x n) n))).
Proof. exact core_defect. Qed.
Print Assumptions C42_dropped_amplitude.
(** C42: the seed defect at order 1 is the error of the truncated D1_0 against cot x. *)
Theorem C42_order_one_defect : forall (n_max n_add : nat) (x : C), (1 <= n_max + n_add)%nat -> quiet_arg n_max n_add x 1 ->
  @ppsi R ROps n_max n_add x 1 * seed_defect n_max n_add x 1 =
  @pzeta R ROps n_max n_add x 0 * (Ccos x - @pD1 R ROps n_max n_add x 0 * Csin x).
Proof. exact defect_one. Qed.
Print Assumptions C42_order_one_defect.
(** C42: the amplitudes used by the fields are those of the inward recursion, except that both irregular core amplitudes are 0. *)
Theorem C42_core_amplitudes : forall (n_max n_add : nat) (l0 : C * C) (rest : list (C * C)) (n : nat),
  let ab := @pena_ab R ROps n_max n_add l0 rest n in
  let raw := @near_raw R ROps n_max n_add l0 rest (@exterior R ROps (fst ab) (snd ab)) n in
  let As := @near_amps R ROps n_max n_add l0 rest n in
  (na (nth 0 As amp0) = RtoC 0 /\ nb (nth 0 As amp0) = RtoC 0 /\ nc (nth 0 As amp0) = nc (nth 0 raw amp0) /\ nd (nth 0 As amp0) = nd (nth 0 raw amp0)) /\
  length As = length raw /\ forall i, (1 <= i)%nat -> nth i As amp0 = nth i raw amp0.
Proof. exact core_amps. Qed.
Print Assumptions C42_core_amplitudes.
Example C42_instance : (2 <= 2 <= 1 + 15)%nat /\ quiet_stack 1 15 ex_ball [] 2 /\ quiet_near 1 15 [ex_ball] 2.
Proof. split; [lia|exact ball_quiet]. Qed.
Example C42_instance_order_one : quiet_stack 1 15 ex_core [ex_shell] 1 /\ quiet_near 1 15 [ex_core; ex_shell] 1 /\
  @pD1 R ROps 1 15 (snd (last [ex_shell] ex_core)) 0 <> Ci.
Proof. split; [exact ex_quiet|]. split; [exact shell_quiet|apply D1_real_neq_i]. Qed.

(** C43 *)
Theorem C43_exactly_one_region : forall (l : list R) (r : R), l <> [] -> increasing l ->
  exists! li, (li <= length l)%nat /\ @in_region R ROps l r li = true.
Proof. exact one_region. Qed.
Print Assumptions C43_exactly_one_region.
Theorem C43_region_is : forall (l : list R) (r : R), l <> [] -> increasing l -> forall li, (li <= length l)%nat ->
  (@in_region R ROps l r li = true <-> li = below l r).
Proof. exact region_iff. Qed.
Print Assumptions C43_region_is.
Theorem C43_interface_inner : forall (l : list R) (i : nat), increasing l -> (i < length l)%nat ->
  @in_region R ROps l (nth i l 0%R) i = true.
Proof. exact interface_inner. Qed.
Print Assumptions C43_interface_inner.
(** the region masks pick exactly the expansion of the point's region at every order *)
Theorem C43_fields_of_region : forall (n_max n_add : nat) (k0 : R) (eps_env : C) (core : R * C) (shells : list (R * C)) (E0 : C) (P : @point R),
  increasing (@radii R core shells) ->
  let li := below (@radii R core shells) (pt_r P) in
  let sum f := @vsum R ROps (map (fun n => @field_to_xyz R ROps (pt_theta P) (pt_phi P) (f n)) (orders n_max)) in
  @E_s R ROps n_max n_add k0 eps_env core shells E0 P = sum (@E_order R ROps n_max n_add k0 eps_env core shells E0 P li) /\
  @H_s R ROps n_max n_add k0 eps_env core shells E0 P = sum (@H_order R ROps n_max n_add k0 eps_env core shells E0 P li).
Proof. exact region_fields. Qed.
Print Assumptions C43_fields_of_region.
Theorem C43_total_field : forall (n_max n_add : nat) (k0 : R) (eps_env : C) (core : R * C) (shells : list (R * C)) (E0 : C) (P : @point R),
  increasing (@radii R core shells) ->
  (below (@radii R core shells) (pt_r P) = length (@radii R core shells) ->
   @E_t R ROps n_max n_add k0 eps_env core shells E0 P = @vadd R ROps (@E_s R ROps n_max n_add k0 eps_env core shells E0 P) (@E_i R ROps k0 eps_env E0 P) /\
   @H_t R ROps n_max n_add k0 eps_env core shells E0 P = @vadd R ROps (@H_s R ROps n_max n_add k0 eps_env core shells E0 P) (@H_i R ROps k0 eps_env E0 P)) /\
  ((below (@radii R core shells) (pt_r P) < length (@radii R core shells))%nat ->
   @E_t R ROps n_max n_add k0 eps_env core shells E0 P = @E_s R ROps n_max n_add k0 eps_env core shells E0 P /\
   @H_t R ROps n_max n_add k0 eps_env core shells E0 P = @H_s R ROps n_max n_add k0 eps_env core shells E0 P).
Proof. exact total_fields. Qed.
Print Assumptions C43_total_field.
Example C43_instance : increasing [1; 2; 5]%R /\ below [1; 2; 5]%R 2 = 1%nat /\ below [1; 2; 5]%R 3 = 2%nat /\ below [1; 2; 5]%R 6 = 3%nat.
Proof. split; [cbn; lra|]. unfold below. cbn [filter]. repeat (destruct (Rlt_dec _ _); try lra). cbn. auto. Qed.

(** C44 *)
Theorem C44_linear : forall (n_max n_add : nat) (k0 : R) (eps_env : C) (core : R * C) (shells : list (R * C)) (c E0 : C) (P : @point R),
  let S v := @vscale R ROps c v in
  (@E_i R ROps k0 eps_env (c * E0) P = S (@E_i R ROps k0 eps_env E0 P) /\ @H_i R ROps k0 eps_env (c * E0) P = S (@H_i R ROps k0 eps_env E0 P)) /\
  (@E_s R ROps n_max n_add k0 eps_env core shells (c * E0) P = S (@E_s R ROps n_max n_add k0 eps_env core shells E0 P) /\
   @H_s R ROps n_max n_add k0 eps_env core shells (c * E0) P = S (@H_s R ROps n_max n_add k0 eps_env core shells E0 P)) /\
  (@E_t R ROps n_max n_add k0 eps_env core shells (c * E0) P = S (@E_t R ROps n_max n_add k0 eps_env core shells E0 P) /\
   @H_t R ROps n_max n_add k0 eps_env core shells (c * E0) P = S (@H_t R ROps n_max n_add k0 eps_env core shells E0 P)).
Proof. exact near_linear. Qed.
Print Assumptions C44_linear.

(** C45: [e10] is the clamp width 10 eps; off the clamp cone the field is the exact plane wave. *)
Theorem C45_plane_wave : forall (k0 : R) (eps_env E0 : C) (e10 x y z : R), (0 < e10 < 1)%R ->
  (Rabs z <= (1 - e10) * @norm3 R ROps x y z)%R ->
  let k := RtoC k0 * @csqrt R ROps eps_env in let P := point_of e10 x y z in
  @E_i R ROps k0 eps_env E0 P = (plane_wave k E0 z, RtoC 0, RtoC 0) /\
  @H_i R ROps k0 eps_env E0 P = (RtoC 0, @csqrt R ROps eps_env * plane_wave k E0 z, RtoC 0).
Proof. exact incident_eq. Qed.
Print Assumptions C45_plane_wave.
(** C45: inside the cone it is the plane wave at a z moved by at most e10 * r. *)
Theorem C45_in_the_cone : forall (k0 : R) (eps_env E0 : C) (e10 x y z : R), (0 < e10 < 1)%R ->
  let k := RtoC k0 * @csqrt R ROps eps_env in let P := point_of e10 x y z in
  exists z', (Rabs (z' - z) <= e10 * @norm3 R ROps x y z)%R /\
    @E_i R ROps k0 eps_env E0 P = (plane_wave k E0 z', RtoC 0, RtoC 0) /\
    @H_i R ROps k0 eps_env E0 P = (RtoC 0, @csqrt R ROps eps_env * plane_wave k E0 z', RtoC 0).
Proof. exact incident_near. Qed.
Print Assumptions C45_in_the_cone.
Theorem C45_unit_modulus : forall (k : R) (E0 : C) (z : R), Cmod (plane_wave (RtoC k) E0 z) = Cmod E0.
Proof. exact plane_wave_mod. Qed.
Print Assumptions C45_unit_modulus.
Example C45_instance : (0 < 1/10 < 1)%R /\ (Rabs 4 <= (1 - 1/10) * @norm3 R ROps 3 0 4)%R.
Proof.
  split; [lra|]. unfold norm3. cbn [rsqrt ROps radd]. rewrite !rsqr_R.
  replace (3 * 3 + 0 * 0 + 4 * 4)%R with (Rsqr 5) by (unfold Rsqr; ring). rewrite sqrt_Rsqr, Rabs_pos_eq by lra. lra.
Qed.

(** C74: tangential E and H, normal eps E and normal H of every order match at every interface,
    for the radial argument m x (the code adds 1e-8 to it, special.py:1490). *)
Theorem C74_interface_conditions : forall (n_max n_add : nat) (E0 n_env : C) (th ph : R) (n : nat) (l : C * C) (rest : list (C * C)) (ext : @amps R) (i : nat),
  (i <= length rest)%nat -> (forall j, (j <= length rest)%nat -> index_at (l :: rest) j <> RtoC 0) ->
  size_at (l :: rest) i <> RtoC 0 -> quiet_near n_max n_add (l :: rest) n ->
  let As := @near_raw R ROps n_max n_add l rest ext n in let x := size_at (l :: rest) i in
  let E j := E_at n_max n_add E0 x th ph n (index_at (l :: rest) j) (nth j As amp0) in
  let H j := H_at n_max n_add E0 n_env x th ph n (index_at (l :: rest) j) (nth j As amp0) in
  let eps j := index_at (l :: rest) j * index_at (l :: rest) j in
  (@eq C (v2 (E i)) (v2 (E (S i))) /\ @eq C (v3 (E i)) (v3 (E (S i))) /\ @eq C (v2 (H i)) (v2 (H (S i))) /\ @eq C (v3 (H i)) (v3 (H (S i)))) /\
  (@eq C (eps i * v1 (E i)) (eps (S i) * v1 (E (S i))) /\ @eq C (v1 (H i)) (v1 (H (S i)))).
Proof. exact near_maxwell. Qed.
Print Assumptions C74_interface_conditions.
Example C74_instance : quiet_near 1 15 [ex_core; ex_shell] 1 /\ size_at [ex_core; ex_shell] 1 <> RtoC 0.
Proof. split; [exact shell_quiet|]. unfold size_at. cbn. apply RtoC_neq. lra. Qed.
