(** Properties C17, C18, C24-C26, C67, C68: special functions, limits. *)
From Coq Require Import Reals ZArith Lra Lia List.
From Coquelicot Require Import Coquelicot.
From Verif Require Import Ops ROps Spec StackSpec CLemmas CTrig ComplexDiff ModelSpecial ModelMie
  BesselSpec ConvergeSpec BesselTrue BesselAlgos BesselFinal BesselPi TorchSpec TorchLossless TorchConverge StackProofs StackConverge ExampleTrue.
Import ListNotations.
Open Scope C_scope.

(** C17: limit of the downward recurrence.  [regular_from eps z n]: |z| >= eps and,
    up to the turning point, |psi_(k-1)(z)| > eps |psi_k(z)| for k > n. *)
Theorem C17_limit : forall (n_max n : nat) (z : C), regular_from (@eps30 R ROps) z n ->
  true_psi n z <> RtoC 0 /\
  exists d, Cderive (true_psi n) z d /\
    tends (fun n_add => @D1_at R ROps eps30 (n_max + n_add) z n) (d / true_psi n z).
Proof. exact log_derivative_limit. Qed.
Print Assumptions C17_limit.
(** C17: explicit geometric error bound, unconditional once n >= |z|. *)
Theorem C17_rate : forall (N n : nat) (z : C), (@eps30 R ROps <= Cmod z)%R -> (1 <= n < N)%nat -> (Cmod z <= INR n)%R ->
  true_psi n z <> RtoC 0 /\
  exists d, Cderive (true_psi n) z d /\
    (Cmod (@D1_at R ROps eps30 N z n - d / true_psi n z)%C <= 2 * (Cmod z / (Cmod z + 1)) ^ (2 * (N - 1 - n)))%R.
Proof. exact log_derivative_rate. Qed.
Print Assumptions C17_rate.
Example C17_instance : regular_from (@eps30 R ROps) (RtoC (1/2)) 0.
Proof. exact (proj1 (real_regular (1/2) ltac:(lra) ltac:(lra) ltac:(lra) ltac:(lra))). Qed.

(** C18: for every layered sphere the coefficients tend to the unique solution of
    the boundary conditions written with the true Riccati-Bessel functions. *)
Theorem C18_stack_limit : forall (tm : bool) (n_max n : nat) (l0 : C * C) (rest : list (C * C)),
  (1 <= n)%nat -> regular_stack (@eps30 R ROps) l0 rest n ->
  exists a : C, tends (fun n_add => sel tm (@pena_ab R ROps n_max n_add l0 rest n)) a /\
    (exists AB0 amps, solves tm (true_rf n) (true_rf n) l0 rest AB0 amps a (RtoC 1)) /\
    (forall AB0 amps A B, solves tm (true_rf n) (true_rf n) l0 rest AB0 amps A B -> A = a * B).
Proof. exact stack_limit. Qed.
Print Assumptions C18_stack_limit.
(** C18: homogeneous sphere, Bohren-Huffman (4.56)-(4.57). *)
Theorem C18_sphere_limit : forall (n_max n : nat) (m x : C), (1 <= n)%nat -> regular_stack (@eps30 R ROps) (m, x) [] n ->
  tends (fun n_add => fst (@pena_ab R ROps n_max n_add (m, x) [] n)) (bh_a m x n) /\
  tends (fun n_add => snd (@pena_ab R ROps n_max n_add (m, x) [] n)) (bh_b m x n).
Proof. exact sphere_limit. Qed.
Print Assumptions C18_sphere_limit.
Example C18_instance_sphere : regular_stack (@eps30 R ROps) (RtoC (3/2), RtoC (1/2)) [] 1.
Proof. exact bh_regular. Qed.
Example C18_instance_layers : regular_stack (@eps30 R ROps) (RtoC 3, RtoC (1/4)) [(RtoC (3/2), RtoC (1/2))] 1.
Proof. exact layered_regular. Qed.

(** C24: f_der applied to the code's y_n is its complex derivative. *)
Theorem C24_yn : forall (z : C) (n : nat), (@rtenth R ROps 10 < Cmod z)%R ->
  Cderive (fun w => @sph_yn R ROps w n) z (@f_der_at R ROps z (@sph_yn R ROps z) n).
Proof. exact fder_yn. Qed.
Print Assumptions C24_yn.
Theorem C24_jn : forall (z : C) (n : nat), z <> RtoC 0 ->
  Cderive (true_j n) z (@f_der_at R ROps z (fun k => true_j k z) n).
Proof. exact fder_jn. Qed.
Print Assumptions C24_jn.
(** C24: the code's y_n are the spherical Neumann functions. *)
Theorem C24_yn_exact : forall (z : C) (n : nat), (@rtenth R ROps 10 <= Cmod z)%R -> @sph_yn R ROps z n = true_y n z.
Proof. exact sph_yn_true. Qed.
Print Assumptions C24_yn_exact.
Example C24_instance : (@rtenth R ROps 10 < Cmod (Ci))%R.
Proof.
  rewrite Cmod_Ci. unfold rtenth. cbn [ROps rdiv rone rofZ]. apply (Rmult_lt_reg_r (IZR (10 ^ Z.of_nat 10))); [apply IZR_lt; reflexivity|].
  unfold Rdiv. rewrite Rmult_1_l, Rinv_l, Rmult_1_l by (apply not_0_IZR; discriminate). apply IZR_lt. reflexivity.
Qed.

(** C25: the two j_n algorithms. *)
Theorem C25_jn_algorithms : forall (n_max n_extra : nat) (z : C) (n : nat),
  (@rtenth R ROps 8 <= Cmod z)%R -> (n <= n_max + n_extra)%nat ->
  (forall k, (k <= n_max + n_extra)%nat -> @jrec_at R ROps z (S (n_max + n_extra)) k <> RtoC 0) ->
  @sph_jn_ratio R ROps n_max n_extra z n = @sph_jn_via_rec R ROps n_max (S n_extra) z n.
Proof. exact jn_algorithms_agree. Qed.
Print Assumptions C25_jn_algorithms.
Example C25_instance : forall k, (k <= 3 + 9)%nat -> @jrec_at R ROps (RtoC (1/2)) (S (3 + 9)) k <> RtoC 0.
Proof.
  intros k Hk. destruct (jrec_grow (1/2) ltac:(lra) (S (3 + 9)) (12 - k) ltac:(lia)) as (g & h & E & Hg & _).
  unfold jrec_at. replace (S (3 + 9) - k)%nat with (S (12 - k)) by lia. rewrite E. cbn [fst]. apply RtoC_neq. lra.
Qed.

(** C26: small-argument branch. *)
Theorem C26_small_argument : forall (n_max n_extra : nat) (z : C) (n : nat), (Cmod z < @rtenth R ROps 8)%R ->
  @sph_jn_ratio R ROps n_max n_extra z n = Cpow_n z n / RtoC (odd_dfact n).
Proof. exact jn_small_value. Qed.
Print Assumptions C26_small_argument.
Theorem C26_zero : forall (n_max n_extra n : nat),
  @sph_jn_ratio R ROps n_max n_extra (RtoC 0) n = RtoC (if Nat.eqb n 0 then 1 else 0).
Proof. exact jn_small_zero. Qed.
Print Assumptions C26_zero.
Example C26_instance : odd_dfact 3 = 105%R /\ (Cmod (RtoC 0) < @rtenth R ROps 8)%R.
Proof. split; [cbn; ring|]. rewrite Cmod_0. apply rtenth_pos. Qed.

(** C67: at outer size parameters with sin x_L = 0 all coefficients are 0, for every depth. *)
Theorem C67_dead_size_parameters : forall (n_max n_add : nat) (l0 : C * C) (rest : list (C * C)) (n : nat),
  Csin (snd (last rest l0)) = RtoC 0 -> @pena_ab R ROps n_max n_add l0 rest n = (RtoC 0, RtoC 0).
Proof. exact dead_coefficients. Qed.
Print Assumptions C67_dead_size_parameters.
(** C67: so the coefficients are not those of Lorenz-Mie theory at every size parameter. *)
Theorem C67_correct_everywhere_refuted : exists m x : C, bh_a m x 1 <> RtoC 0 /\
  forall n_max n_add, fst (@pena_ab R ROps n_max n_add (m, x) [] 1) = RtoC 0.
Proof.
  exact (ex_intro _ (RtoC (1/2)) (ex_intro _ (RtoC PI)
    (conj bh_pi (fun n_max n_add => f_equal fst (dead_coefficients n_max n_add (RtoC (1/2), RtoC PI) [] 1 sin_PI_C))))).
Qed.
Print Assumptions C67_correct_everywhere_refuted.

(** C68: Miller's algorithm converges. *)
Theorem C68_jn_limit : forall (n_max n : nat) (z : C), (@rtenth R ROps 10 <= Cmod z)%R -> Csin z <> RtoC 0 ->
  tends (fun n_add => @sph_jn_via_rec R ROps n_max n_add z n) (true_j n z).
Proof. exact miller_limit. Qed.
Print Assumptions C68_jn_limit.
(** C68: all eight core-shell coefficients of the torch backend tend to the unique
    solution of the boundary system of the true Riccati-Bessel functions. *)
Theorem C68_torch_limit : forall (n_max n : nat) (x y mc ms : C), (1 <= n)%nat ->
  miller_arg y -> miller_arg (mc * x) -> miller_arg (ms * x) -> miller_arg (ms * y) ->
  let r := radial_from (true_rf n) (true_rf n) mc ms x y in
  det_a r <> RtoC 0 -> det_b r <> RtoC 0 ->
  let ck k := @miecoef_torch R ROps n_max (fun _ => k) x y mc ms n in
  exists a b c d f g v w : C,
    (tends (fun k => an (ck k)) a /\ tends (fun k => gn (ck k)) g /\ tends (fun k => wn (ck k)) w /\ tends (fun k => dn (ck k)) d) /\
    (tends (fun k => bn (ck k)) b /\ tends (fun k => fn (ck k)) f /\ tends (fun k => vn (ck k)) v /\ tends (fun k => cn (ck k)) c) /\
    tm_system r a g w d /\ te_system r b f v c /\
    (forall a' g' w' d', tm_system r a' g' w' d' -> a' = a /\ g' = g /\ w' = w /\ d' = d) /\
    (forall b' f' v' c', te_system r b' f' v' c' -> b' = b /\ f' = f /\ v' = v /\ c' = c).
Proof. exact torch_limit. Qed.
Print Assumptions C68_torch_limit.
(** C68: for lossless particles the exact system is never singular. *)
Theorem C68_exact_nonsingular : forall (n : nat) (x y mc ms : R),
  (1 <= n)%nat -> x <> 0%R -> y <> 0%R -> mc <> 0%R -> ms <> 0%R ->
  let r := radial_from (true_rf n) (true_rf n) (RtoC mc) (RtoC ms) (RtoC x) (RtoC y) in
  det_a r <> RtoC 0 /\ det_b r <> RtoC 0.
Proof. exact exact_nonsingular. Qed.
Print Assumptions C68_exact_nonsingular.
Example C68_instance : miller_arg (RtoC (1/2)) /\ miller_arg (RtoC 2 * RtoC (1/4)) /\ miller_arg (RtoC (3/2) * RtoC (1/2)).
Proof.
  rewrite <- !RtoC_mult.
  repeat split; try (apply z_e10; lra); rewrite Csin_R; apply RtoC_neq; apply Rgt_not_eq, sin_gt_0; pose proof PI2_1; lra.
Qed.
