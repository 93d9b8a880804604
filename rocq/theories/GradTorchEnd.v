(** Derivatives of the torch backend by automatic differentiation (C106). *)
From Coq Require Import Reals ZArith Lra Lia List Bool Arith.
From Coquelicot Require Import Coquelicot.
From Verif Require Import Ops ROps Spec CTrig CLemmas ModelSpecial ModelMie ModelBatch ModelGrad GradSpec GradOps GradPena GradStack GradObs StackConsequences TruncProofs TorchSpec TorchBatch ModelGradTorch GradTorchSpec GradTorch.
Import ListNotations.
Open Scope R_scope.

Section End.
  Variables (n_max : nat) (t0 : R) (k0 : R -> R) (env : R -> C) (core shell : R -> (R * C)%type) (dy d1 d2 d3 : R -> nat).
  Variables (dk : dual) (denv : cplx dual) (dcore dshell : dual * cplx dual).
  Hypothesis Hk : carries t0 k0 dk.
  Hypothesis He : ccarries t0 env denv.
  Hypothesis Hc : carries_shell t0 core dcore.
  Hypothesis Hs : carries_shell t0 shell dshell.
  Hypothesis Sy : steady t0 dy. Hypothesis S1 : steady t0 d1. Hypothesis S2 : steady t0 d2. Hypothesis S3 : steady t0 d3.
  Hypothesis Hsm : smooth_torch n_max (dy t0) (d1 t0) (d2 t0) (d3 t0) (k0 t0) (env t0) (core t0) (shell t0).
  Let co t n := torch_coeffs n_max (dy t) (d1 t) (d2 t) (d3 t) (k0 t, env t, [core t; shell t]) n.
  Let dco n := grad_torch n_max (dy t0) (d1 t0) (d2 t0) (d3 t0) dk denv dcore dshell n.

  Lemma torch_fixed n : (1 <= n <= n_max)%nat ->
    carries_coeffs t0 (fun t => torch_coeffs n_max (dy t0) (d1 t0) (d2 t0) (d3 t0) (k0 t, env t, [core t; shell t]) n) (dco n).
  Proof.
    intros Hn. destruct Hsm as (Oe & Oc & Os & By & B1 & B2 & B3 & Hd). specialize (Hd n Hn).
    destruct (cl_layer_of t0 k0 env core dk denv dcore Hk He Hc Oe Oc) as [Mc Xc].
    destruct (cl_layer_of t0 k0 env shell dk denv dshell Hk He Hs Oe Os) as [Ms Xs].
    pose proof (kmul t0 _ _ _ _ Mc Xc) as Z1. pose proof (kmul t0 _ _ _ _ Ms Xc) as Z2. pose proof (kmul t0 _ _ _ _ Ms Xs) as Z3.
    unfold dco, grad_torch. cbv zeta.
    apply (core_carried t0 (fun t => let c := @layer_of R ROps (k0 t) (env t) (core t) in let s := @layer_of R ROps (k0 t) (env t) (shell t) in
      @radial_of7 R ROps (snd c) (snd s) (fst c) (fst s)
      (sph_jn_via_rec n_max (dy t0) (snd s)) (sph_jn_via_rec n_max (d1 t0) (cmul (fst c) (snd c))) (sph_jn_via_rec n_max (d2 t0) (cmul (fst s) (snd c)))
      (sph_jn_via_rec n_max (d3 t0) (cmul (fst s) (snd s))) (sph_yn (snd s)) (sph_yn (cmul (fst s) (snd c))) (sph_yn (cmul (fst s) (snd s))) n));
      [|exact (proj1 Hd)|exact (proj2 Hd)].
    apply (radial_carried t0 (fun t => snd (@layer_of R ROps (k0 t) (env t) (core t))) (fun t => snd (@layer_of R ROps (k0 t) (env t) (shell t)))
      (fun t => fst (@layer_of R ROps (k0 t) (env t) (core t))) (fun t => fst (@layer_of R ROps (k0 t) (env t) (shell t)))).
    - exact Xc.
    - exact Xs.
    - exact Mc.
    - exact Ms.
    - exact (big_neq0 _ (proj1 By)).
    - exact (big_neq0 _ (proj1 B1)).
    - exact (big_neq0 _ (proj1 B2)).
    - exact (big_neq0 _ (proj1 B3)).
    - intros i. exact (cc_jn t0 n_max (dy t0) _ _ i Xs By).
    - intros i. exact (cc_jn t0 n_max (d1 t0) _ _ i Z1 B1).
    - intros i. exact (cc_jn t0 n_max (d2 t0) _ _ i Z2 B2).
    - intros i. exact (cc_jn t0 n_max (d3 t0) _ _ i Z3 B3).
    - intros i. exact (cc_yn t0 _ _ Xs (proj1 By) i).
    - intros i. exact (cc_yn t0 _ _ Z2 (proj1 B2) i).
    - intros i. exact (cc_yn t0 _ _ Z3 (proj1 B3) i).
  Qed.
  Lemma torch_coefficients n : (1 <= n <= n_max)%nat -> carries_coeffs t0 (fun t => co t n) (dco n).
  Proof.
    intros Hn. pose proof (torch_fixed n Hn) as ((A & B) & (c1 & c2 & c3 & c4 & c5 & c6)).
    assert (L : locally t0 (fun t => torch_coeffs n_max (dy t0) (d1 t0) (d2 t0) (d3 t0) (k0 t, env t, [core t; shell t]) n = co t n)).
    { unfold co. unfold steady in *. generalize (filter_and _ _ (filter_and _ _ Sy S1) (filter_and _ _ S2 S3)). apply filter_imp.
      intros t [[E1 E2] [E3 E4]]. now rewrite E1, E2, E3, E4. }
    assert (G : forall (g : @coeffs R -> C) d, ccarries t0 (fun t => g (torch_coeffs n_max (dy t0) (d1 t0) (d2 t0) (d3 t0) (k0 t, env t, [core t; shell t]) n)) d ->
      ccarries t0 (fun t => g (co t n)) d).
    { intros g d. apply cc_loc. revert L. apply filter_imp. intros t E. now rewrite E. }
    split; [split|repeat match goal with |- _ /\ _ => split end]; apply G; assumption.
  Qed.
  Let k t := @cmul R ROps (cofr (k0 t)) (csqrt (env t)).
  Let r t := fst (shell t).
  Lemma torch_efficiencies : k0 t0 <> 0 -> r t0 <> 0 ->
    carries t0 (fun t => @q_ext R ROps n_max (k t) (r t) (fun n => an (co t n)) (fun n => bn (co t n)))
      (@q_ext dual DOps n_max (grad_k dk denv) (fst dshell) (fun n => an (dco n)) (fun n => bn (dco n))) /\
    carries t0 (fun t => @q_sca R ROps n_max (k t) (r t) (fun n => an (co t n)) (fun n => bn (co t n)))
      (@q_sca dual DOps n_max (grad_k dk denv) (fst dshell) (fun n => an (dco n)) (fun n => bn (dco n))) /\
    carries t0 (fun t => @q_abs R ROps n_max (k t) (r t) (fun n => an (co t n)) (fun n => bn (co t n)))
      (@q_abs dual DOps n_max (grad_k dk denv) (fst dshell) (fun n => an (dco n)) (fun n => bn (dco n))).
  Proof.
    intros Hk0 Hr0. pose proof (proj1 Hsm) as Oe. apply (car_q t0 n_max k r (fun t n => an (co t n)) (fun t n => bn (co t n))).
    - apply cc_mul; [now apply cc_ofr|now apply cc_sqrt].
    - unfold k. toC. apply Cmult_neq_0; [now apply RtoC_neq|]. apply csqrt_neq0.
      intros E. rewrite E in Oe. destruct Oe as [Oe|Oe]; cbn in Oe; lra.
    - exact (proj1 Hs).
    - exact Hr0.
    - intros n Hn. exact (proj1 (proj1 (torch_coefficients n Hn))).
    - intros n Hn. exact (proj2 (proj1 (torch_coefficients n Hn))).
  Qed.
  Lemma torch_intensities (theta : R -> R) (dtheta : dual) : carries t0 theta dtheta ->
    carries t0 (fun t => @i_per R ROps n_max (fun n => an (co t n)) (fun n => bn (co t n)) (theta t))
      (@i_per dual DOps n_max (fun n => an (dco n)) (fun n => bn (dco n)) dtheta) /\
    carries t0 (fun t => @i_par R ROps n_max (fun n => an (co t n)) (fun n => bn (co t n)) (theta t))
      (@i_par dual DOps n_max (fun n => an (dco n)) (fun n => bn (dco n)) dtheta) /\
    carries t0 (fun t => @i_unpol R ROps n_max (fun n => an (co t n)) (fun n => bn (co t n)) (theta t))
      (@i_unpol dual DOps n_max (fun n => an (dco n)) (fun n => bn (dco n)) dtheta).
  Proof.
    intros Ht. apply (car_int t0 n_max (fun t n => an (co t n)) (fun t n => bn (co t n)) theta).
    - exact Ht.
    - intros n Hn. exact (proj1 (proj1 (torch_coefficients n Hn))).
    - intros n Hn. exact (proj2 (proj1 (torch_coefficients n Hn))).
  Qed.
End End.

(** ** the automatic depth is locally constant away from its steps *)
Lemma steady_auto (t0 : R) (v : R -> R) : continuous v t0 -> 0 < v t0 -> (forall i : Z, 3 / 2 * v t0 <> IZR i) -> steady t0 (fun t => @n_add_auto R ROps (v t)).
Proof.
  intros Hc Hp Hi. set (i := Int_part (3 / 2 * v t0)). destruct (Int_part_bounds (3 / 2 * v t0)) as [B1 B2]. fold i in B1, B2.
  assert (B1' : IZR i < 3 / 2 * v t0) by (destruct B1 as [B1|B1]; [exact B1|]; exfalso; exact (Hi i (eq_sym B1))).
  assert (U : locally (v t0) (fun x => 0 < x /\ (2 / 3 * IZR i < x /\ x < 2 / 3 * (IZR i + 1)))).
  { apply filter_and; [exact (open_gt 0 _ Hp)|apply filter_and; [apply (open_gt (2 / 3 * IZR i)); lra|apply (open_lt (2 / 3 * (IZR i + 1))); lra]]. }
  assert (V : forall x, 0 < x /\ (2 / 3 * IZR i < x /\ x < 2 / 3 * (IZR i + 1)) -> @n_add_auto R ROps x = Z.to_nat (if (Z.max 10 i >? 35)%Z then 35 else Z.max 10 i)%Z).
  { intros x (X0 & X1 & X2). unfold n_add_auto. cbv zeta. replace (rtrunc (rmul (rdiv (rofZ 3) (rofZ 2)) x)) with i; [reflexivity|].
    cbn [rtrunc rmul rdiv rofZ ROps]. unfold Rtrunc. destruct (Rle_dec 0 (3 / 2 * x)); [|lra].
    destruct (Int_part_bounds (3 / 2 * x)) as [C1 C2]. set (j := Int_part (3 / 2 * x)) in *.
    assert (IZR i < IZR j + 1) by lra. assert (IZR j < IZR i + 1) by lra.
    assert (i < j + 1)%Z by (apply lt_IZR; rewrite plus_IZR; lra). assert (j < i + 1)%Z by (apply lt_IZR; rewrite plus_IZR; lra). lia. }
  unfold steady. pose proof (Hc _ U) as L. pose proof (locally_singleton _ _ U) as U0. eapply filter_imp; [|exact L]. intros t Ht. cbv beta in Ht, U0 |- *. rewrite (V _ Ht), (V _ U0). reflexivity.
Qed.

(** ** example: the particle of ExampleGrad.v, three orders *)
From Verif Require Import TorchProofs TorchLossless ExampleStack ExampleGrad.
Lemma smooth_bessel_small (z : R) : 1 / 1000 <= z <= 1 -> smooth_bessel 3 10 (RtoC z).
Proof.
  intros Hz. split.
  - rewrite Cmod_R, Rabs_pos_eq by lra. unfold rtenth. cbn [rdiv rone rofZ ROps].
    apply Rlt_le_trans with (1 / 1000); [|lra]. apply Rmult_lt_compat_l; [lra|].
    apply Rinv_lt_contravar; [apply Rmult_lt_0_compat; [lra|apply IZR_lt; reflexivity]|]. apply IZR_lt. reflexivity.
  - destruct (jrec_grow z ltac:(lra) 13 12 ltac:(lia)) as (g & h & E & Hg & _).
    change (fst (@jrec R ROps (RtoC z) 13 13) <> RtoC 0). rewrite E. cbn [fst]. apply RtoC_neq. lra.
Qed.
Lemma ex_torch_smooth : smooth_torch 3 10 10 10 10 (ex_k0 (1/2)) (ex_env (1/2)) (ex_core_path (1/2)) (ex_shell_path (1/2)).
Proof.
  unfold smooth_torch. cbv zeta. destruct ex_paths as [-> ->]. cbn [ex_core ex_shell fst snd].
  assert (Z1 : (RtoC 2 * RtoC (1/4))%C = RtoC (1/2)) by (rewrite <- RtoC_mult; f_equal; lra).
  assert (Z2 : (RtoC (3/2) * RtoC (1/4))%C = RtoC (3/8)) by (rewrite <- RtoC_mult; f_equal; lra).
  assert (Z3 : (RtoC (3/2) * RtoC (1/2))%C = RtoC (3/4)) by (rewrite <- RtoC_mult; f_equal; lra).
  split; [left; unfold ex_env; cbn; lra|]. split; [left; unfold ex_core_path; cbn; lra|]. split; [left; unfold ex_shell_path; cbn; lra|].
  split; [apply (smooth_bessel_small (1/2)); lra|]. split; [rewrite Z1; apply smooth_bessel_small; lra|]. split; [rewrite Z2; apply smooth_bessel_small; lra|].
  split; [rewrite Z3; apply smooth_bessel_small; lra|].
  intros n Hn. exact (small_nonsingular 3 (fun _ => 10%nat) (1/4) (1/2) 2 (3/2) n Hn (fun _ => le_n_S 0 9 (Nat.le_0_l 9)) ltac:(lra) ltac:(lra) ltac:(lra) ltac:(lra)).
Qed.
