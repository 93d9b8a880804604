(** Properties C19-C23: the torch/scipy core-shell coefficients. *)
From Coq Require Import Reals ZArith Lra Lia List.
From Coquelicot Require Import Coquelicot.
From Verif Require Import Ops ROps Spec StackSpec CLemmas CTrig ModelSpecial ModelMie QuietSpec
  ExampleStack TorchSpec TorchProofs TorchAgree BesselProofs TorchLossless.
Import ListNotations.
Open Scope C_scope.

(** C19: real indices, any real-valued Bessel backend (torch or scipy). *)
Theorem C19_lossless_coefficients : forall (fj fy : C -> nat -> C) (x y mc ms : R) (n : nat),
  (forall (z : R) k, snd (fj (RtoC z) k) = 0%R) -> (forall (z : R) k, snd (fy (RtoC z) k) = 0%R) ->
  let r := @radial_of R ROps fj fy (RtoC x) (RtoC y) (RtoC mc) (RtoC ms) n in
  let c := @miecoef R ROps fj fy (RtoC x) (RtoC y) (RtoC mc) (RtoC ms) n in
  (det_a r <> RtoC 0 -> (Cmod (an c) ^ 2 = fst (an c))%R) /\ (det_b r <> RtoC 0 -> (Cmod (bn c) ^ 2 = fst (bn c))%R).
Proof. exact lossless_miecoef. Qed.
Print Assumptions C19_lossless_coefficients.
(** C19: the torch backend itself; absorption is exactly zero, entry by entry. *)
Theorem C19_lossless_cross_sections : forall (n_max : nat) (depth : C -> nat) (k : C) (x y mc ms : R),
  let fj := fun z => @sph_jn_via_rec R ROps n_max (depth z) z in
  let r := @radial_of R ROps fj (@sph_yn R ROps) (RtoC x) (RtoC y) (RtoC mc) (RtoC ms) in
  let c := @miecoef_torch R ROps n_max depth (RtoC x) (RtoC y) (RtoC mc) (RtoC ms) in
  (forall n, (1 <= n <= n_max)%nat -> det_a (r n) <> RtoC 0 /\ det_b (r n) <> RtoC 0) ->
  let a n := an (c n) in let b n := bn (c n) in
  (forall n, (1 <= n <= n_max)%nat -> (Cmod (a n) ^ 2 = fst (a n))%R /\ (Cmod (b n) ^ 2 = fst (b n))%R) /\
  (forall t n, (1 <= n <= n_max)%nat -> @cs_abs_multipole R ROps k a b t n = 0%R) /\
  @cs_abs R ROps n_max k a b = 0%R /\ @cs_ext R ROps n_max k a b = @cs_sca R ROps n_max k a b.
Proof. exact lossless_torch. Qed.
Print Assumptions C19_lossless_cross_sections.
(** C19: the determinants are non-zero for every order when all arguments lie in
    [1/1000, 1], whatever the recurrence depth. *)
Theorem C19_nonsingular_small : forall (n_max : nat) (depth : C -> nat) (x y mc ms : R) (n : nat),
  (1 <= n <= n_max)%nat -> (forall z, (1 <= depth z)%nat) ->
  (1 / 1000 <= y <= 1)%R -> (1 / 1000 <= mc * x <= 1)%R -> (1 / 1000 <= ms * x <= 1)%R -> (1 / 1000 <= ms * y <= 1)%R ->
  let r := @radial_of R ROps (fun z => sph_jn_via_rec n_max (depth z) z) (@sph_yn R ROps) (RtoC x) (RtoC y) (RtoC mc) (RtoC ms) n in
  det_a r <> RtoC 0 /\ det_b r <> RtoC 0.
Proof. exact small_nonsingular. Qed.
Print Assumptions C19_nonsingular_small.
(* core index 2, shell index 3/2, size parameters 1/4 and 1/2, three orders, default depth 10 *)
Example C19_instance : forall n, (1 <= n <= 3)%nat ->
  let r := @radial_of R ROps (fun z => sph_jn_via_rec 3 10 z) (@sph_yn R ROps) (RtoC (1/4)) (RtoC (1/2)) (RtoC 2) (RtoC (3/2)) n in
  det_a r <> RtoC 0 /\ det_b r <> RtoC 0.
Proof. intros n Hn. apply (C19_nonsingular_small 3 (fun _ => 10%nat)); try exact Hn; try (intros; lia); lra. Qed.

(** C20: all eight boundary equations. *)
Theorem C20_boundary_equations : forall r : @radial R, det_a r <> RtoC 0 -> det_b r <> RtoC 0 ->
  let c := @miecoef_core R ROps r in
  tm_system r (an c) (gn c) (wn c) (dn c) /\ te_system r (bn c) (fn c) (vn c) (cn c).
Proof. exact (fun r Ha Hb => conj (tm_solves r Ha) (te_solves r Hb)). Qed.
Print Assumptions C20_boundary_equations.
Example C20_instance : exists r : @radial R, det_a r <> RtoC 0 /\ det_b r <> RtoC 0 /\ m1 r <> m2 r.
Proof.
  eexists. destruct (C19_instance 1%nat ltac:(lia)) as [Ha Hb]. split; [exact Ha|]. split; [exact Hb|].
  cbn. intros H. apply RtoC_inj' in H. lra.
Qed.

(** C21: uniqueness of all eight coefficients. *)
Theorem C21_unique : forall (r : @radial R) (a b c d f g v w : C), det_a r <> RtoC 0 -> det_b r <> RtoC 0 ->
  tm_system r a g w d -> te_system r b f v c ->
  let k := @miecoef_core R ROps r in
  (a = an k /\ g = gn k /\ w = wn k /\ d = dn k) /\ (b = bn k /\ f = fn k /\ v = vn k /\ c = cn k).
Proof. exact (fun r a b c d f g v w Ha Hb Ht He => conj (tm_unique r a g w d Ha Ht) (te_unique r b f v c Hb He)). Qed.
Print Assumptions C21_unique.
(** C21: hence the torch/scipy formulas evaluated on the radial functions of the
    pena backend return the pena coefficients (and are non-singular). *)
Theorem C21_backends_agree : forall (n_max n_add : nat) (mc ms x y : C) (n : nat),
  (1 <= n <= n_max + n_add)%nat -> quiet_stack n_max n_add (mc, x) [(ms, y)] n ->
  let r := radial_from (rf_in n_max n_add n) (rf_out n_max n_add n) mc ms x y in
  let c := @miecoef_core R ROps r in
  det_a r <> RtoC 0 /\ det_b r <> RtoC 0 /\
  (an c, bn c) = @pena_ab R ROps n_max n_add (mc, x) [(ms, y)] n.
Proof. exact agree. Qed.
Print Assumptions C21_backends_agree.
Example C21_instance : quiet_stack 1 15 ex_core [ex_shell] 1 /\ fst ex_core <> fst ex_shell.
Proof. split; [exact ex_quiet|]. cbn. intros H. apply RtoC_inj' in H. lra. Qed.

(** C22: core and shell of the same material; nothing on the right depends on the
    core size parameter x. *)
Theorem C22_equal_materials : forall (fj fy : C -> nat -> C) (x y m : C) (n : nat),
  let r := @radial_of R ROps fj fy x y m m n in
  det_a r <> RtoC 0 -> det_b r <> RtoC 0 ->
  let c := @miecoef R ROps fj fy x y m m n in
  let py := psi_y r in let dpy := dpsi_y r in let xy := xi_y r in let dxy := dxi_y r in
  let pm := m * y * fj (m * y) n in
  let dpm := fj (m * y) n + m * y * @f_der_at R ROps (m * y) (fj (m * y)) n in
  an c = (m * pm * dpy - py * dpm) / (m * pm * dxy - xy * dpm) /\
  bn c = (pm * dpy - m * py * dpm) / (pm * dxy - m * xy * dpm) /\
  cn c = fn c /\ dn c = gn c /\ vn c = RtoC 0 /\ wn c = RtoC 0.
Proof. exact equal_material_miecoef. Qed.
Print Assumptions C22_equal_materials.
Theorem C22_core_radius_irrelevant : forall (fj fy : C -> nat -> C) (x x' y m : C) (n : nat),
  let r := @radial_of R ROps fj fy x y m m n in let r' := @radial_of R ROps fj fy x' y m m n in
  det_a r <> RtoC 0 -> det_b r <> RtoC 0 -> det_a r' <> RtoC 0 -> det_b r' <> RtoC 0 ->
  an (@miecoef R ROps fj fy x y m m n) = an (@miecoef R ROps fj fy x' y m m n) /\
  bn (@miecoef R ROps fj fy x y m m n) = bn (@miecoef R ROps fj fy x' y m m n).
Proof. exact core_radius_irrelevant. Qed.
Print Assumptions C22_core_radius_irrelevant.
Example C22_instance :
  let r x := @radial_of R ROps (fun z => sph_jn_via_rec 3 10 z) (@sph_yn R ROps) (RtoC x) (RtoC (1/2)) (RtoC (3/2)) (RtoC (3/2)) 2 in
  (det_a (r (1/4)%R) <> RtoC 0 /\ det_b (r (1/4)%R) <> RtoC 0) /\ (det_a (r (1/3)%R) <> RtoC 0 /\ det_b (r (1/3)%R) <> RtoC 0).
Proof. split; apply (C19_nonsingular_small 3 (fun _ => 10%nat)); try (intros; lia); lra. Qed.

(** C23: recurrence and seeds of the torch spherical Bessel routines. *)
Theorem C23_jn_recurrence : forall (n_max n_add : nat) (z : C) (n : nat),
  (@rtenth R ROps 10 <= Cmod z)%R -> (1 <= n < n_max + n_add)%nat ->
  let j := @sph_jn_via_rec R ROps n_max n_add z in
  j (n - 1)%nat + j (n + 1)%nat = RtoC (INR (2 * n + 1)) / z * j n.
Proof. exact sph_jn_recurrence. Qed.
Print Assumptions C23_jn_recurrence.
Theorem C23_jn_seed : forall (n_max n_add : nat) (z : C),
  (@rtenth R ROps 10 <= Cmod z)%R -> @jrec_at R ROps z (n_max + n_add) 0 <> RtoC 0 ->
  @sph_jn_via_rec R ROps n_max n_add z 0 = Csin z / z.
Proof. exact sph_jn_0. Qed.
Print Assumptions C23_jn_seed.
Theorem C23_yn : forall (z : C), (@rtenth R ROps 10 <= Cmod z)%R ->
  let y := @sph_yn R ROps z in
  y 0%nat = - (Ccos z / z) /\ y 1%nat = - (Ccos z / (z * z)) - Csin z / z /\
  forall n, (1 <= n)%nat -> y (n - 1)%nat + y (n + 1)%nat = RtoC (INR (2 * n + 1)) / z * y n.
Proof. exact yn_all. Qed.
Print Assumptions C23_yn.
Theorem C23_wronskian : forall (n_max n_add : nat) (z : C) (n : nat),
  (@rtenth R ROps 10 <= Cmod z)%R -> (1 <= n <= n_max + n_add)%nat ->
  let j := @sph_jn_via_rec R ROps n_max n_add z in let y := @sph_yn R ROps z in
  j n * y (n - 1)%nat - j (n - 1)%nat * y n = j 1%nat * y 0%nat - j 0%nat * y 1%nat.
Proof. exact jy_casoratian. Qed.
Print Assumptions C23_wronskian.
Example C23_instance : (@rtenth R ROps 10 <= Cmod (RtoC (1/2)))%R /\ @jrec_at R ROps (RtoC (1/2)) (3 + 10) 0 <> RtoC 0.
Proof. exact (conj (z_e10 (1/2) ltac:(lra)) jrec_half_nz). Qed.
