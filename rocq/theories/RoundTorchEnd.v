(** Coefficients, efficiencies and intensities of the torch backend in rounded arithmetic (C107). *)
From Coq Require Import Reals ZArith Lra Lia List Bool Arith.
From Coquelicot Require Import Coquelicot.
From Verif Require Import Ops ROps Spec CTrig CLemmas ModelSpecial ModelMie ModelBatch ModelRound RoundSpec GradSpec GradOps GradPena GradStack GradObs StackConsequences RoundOps RoundPena RoundObs RoundBinary RoundEnd
  TruncProofs TorchSpec TorchProofs TorchBatch GradTorchSpec GradTorch ModelRoundTorch RoundTorchSpec RoundTorch.
Import ListNotations.
Open Scope R_scope.
Arguments Cmod x%C_scope.

Section End.
  Variables (n_max dy d1 d2 d3 : nat) (k0 : R) (env : C) (core shell : R * C).
  Variables (qy q1 q2 q3 : arithmetic -> nat) (qk : arithmetic -> R) (qenv : arithmetic -> C) (qcore qshell : arithmetic -> R * C).
  Hypothesis Ay : agreed qy dy. Hypothesis A1 : agreed q1 d1. Hypothesis A2 : agreed q2 d2. Hypothesis A3 : agreed q3 d3.
  Hypothesis Hk : settles qk k0.
  Hypothesis He : csettles qenv env.
  Hypothesis Hc : settles_shell qcore core.
  Hypothesis Hs : settles_shell qshell shell.
  Hypothesis Hsm : smooth_torch n_max dy d1 d2 d3 k0 env core shell.
  Let co n := torch_coeffs n_max dy d1 d2 d3 (k0, env, [core; shell]) n.
  Let qco A n := round_torch A n_max (qy A) (q1 A) (q2 A) (q3 A) (qk A) (qenv A) (qcore A) (qshell A) n.

  Lemma rt_fixed n : (1 <= n <= n_max)%nat -> cst_coeffs (fun A => round_torch A n_max dy d1 d2 d3 (qk A) (qenv A) (qcore A) (qshell A) n) (co n).
  Proof.
    intros Hn. destruct Hsm as (Oe & Oc & Os & By & B1 & B2 & B3 & Hd). specialize (Hd n Hn). pose proof (proj2 (cst_iff _ _) He) as He'.
    destruct (lst_layer_of _ _ _ _ _ _ Hk He' (shell_sst _ _ Hc) Oe Oc) as [Mc Xc].
    destruct (lst_layer_of _ _ _ _ _ _ Hk He' (shell_sst _ _ Hs) Oe Os) as [Ms Xs].
    pose proof (cst_mul _ _ _ _ Mc Xc) as Z1. pose proof (cst_mul _ _ _ _ Ms Xc) as Z2. pose proof (cst_mul _ _ _ _ Ms Xs) as Z3.
    unfold co, torch_coeffs, round_torch. cbv zeta.
    apply core_settles; [|exact (proj1 Hd)|exact (proj2 Hd)].
    apply (radial_settles (fun A => snd (round_layer A (qk A) (qenv A) (qcore A))) (fun A => snd (round_layer A (qk A) (qenv A) (qshell A)))
      (fun A => fst (round_layer A (qk A) (qenv A) (qcore A))) (fun A => fst (round_layer A (qk A) (qenv A) (qshell A)))).
    - exact Xc.
    - exact Xs.
    - exact Mc.
    - exact Ms.
    - exact (big_neq0 _ (proj1 By)).
    - exact (big_neq0 _ (proj1 B1)).
    - exact (big_neq0 _ (proj1 B2)).
    - exact (big_neq0 _ (proj1 B3)).
    - intros i. exact (cst_jn n_max dy _ _ i Xs By).
    - intros i. exact (cst_jn n_max d1 _ _ i Z1 B1).
    - intros i. exact (cst_jn n_max d2 _ _ i Z2 B2).
    - intros i. exact (cst_jn n_max d3 _ _ i Z3 B3).
    - intros i. exact (cst_yn _ _ Xs (proj1 By) i).
    - intros i. exact (cst_yn _ _ Z2 (proj1 B2) i).
    - intros i. exact (cst_yn _ _ Z3 (proj1 B3) i).
  Qed.
  Lemma rt_coefficients' n : (1 <= n <= n_max)%nat -> cst_coeffs (fun A => qco A n) (co n).
  Proof.
    intros Hn. pose proof (rt_fixed n Hn) as ((A & B) & (c1 & c2 & c3 & c4 & c5 & c6)).
    assert (L : eventually (fun A => round_torch A n_max dy d1 d2 d3 (qk A) (qenv A) (qcore A) (qshell A) n = qco A n)).
    { unfold qco. unfold agreed in *. eapply ev_imp; [|exact (ev_and _ _ (ev_and _ _ Ay A1) (ev_and _ _ A2 A3))].
      intros X [[E1 E2] [E3 E4]]. now rewrite E1, E2, E3, E4. }
    assert (G : forall (g : @coeffs R -> C), cst (fun X => g (round_torch X n_max dy d1 d2 d3 (qk X) (qenv X) (qcore X) (qshell X) n)) (g (co n)) ->
      cst (fun X => g (qco X n)) (g (co n))).
    { intros g. apply cst_ev. eapply ev_imp; [|exact L]. intros X E. cbv beta in E. now rewrite E. }
    split; [split|repeat match goal with |- _ /\ _ => split end]; apply G; assumption.
  Qed.
  Lemma rt_coefficients n : (1 <= n <= n_max)%nat -> settles_coeffs (fun A => qco A n) (co n).
  Proof.
    intros Hn. pose proof (rt_coefficients' n Hn) as ((A & B) & (c1 & c2 & c3 & c4 & c5 & c6)).
    split; [split|repeat match goal with |- _ /\ _ => split end]; apply cst_iff; assumption.
  Qed.
  Let k := @cmul R ROps (cofr k0) (csqrt env).
  Lemma rt_efficiencies : k0 <> 0 -> fst shell <> 0 ->
    let a n := an (co n) in let b n := bn (co n) in let a' A n := an (qco A n) in let b' A n := bn (qco A n) in
    let k' A := round_k A (qk A) (qenv A) in let r' A := fst (qshell A) in
    settles (fun A => @q_ext R (ar_ops A) n_max (k' A) (r' A) (a' A) (b' A)) (@q_ext R ROps n_max k (fst shell) a b) /\
    settles (fun A => @q_sca R (ar_ops A) n_max (k' A) (r' A) (a' A) (b' A)) (@q_sca R ROps n_max k (fst shell) a b) /\
    settles (fun A => @q_abs R (ar_ops A) n_max (k' A) (r' A) (a' A) (b' A)) (@q_abs R ROps n_max k (fst shell) a b).
  Proof.
    intros Hk0 Hr0. cbv zeta. pose proof (proj1 Hsm) as Oe. apply st_q.
    - apply cst_mul; [now apply cst_ofr|apply cst_root; [now apply cst_iff|exact Oe]].
    - unfold k. toC. apply Cmult_neq_0; [now apply RtoC_neq|]. apply csqrt_neq0. now apply off_cut_neq.
    - exact (proj1 Hs).
    - exact Hr0.
    - intros n Hn. exact (proj1 (proj1 (rt_coefficients' n Hn))).
    - intros n Hn. exact (proj2 (proj1 (rt_coefficients' n Hn))).
  Qed.
  Lemma rt_intensities qth th : settles qth th ->
    let a n := an (co n) in let b n := bn (co n) in let a' A n := an (qco A n) in let b' A n := bn (qco A n) in
    settles (fun A => @i_per R (ar_ops A) n_max (a' A) (b' A) (qth A)) (@i_per R ROps n_max a b th) /\
    settles (fun A => @i_par R (ar_ops A) n_max (a' A) (b' A) (qth A)) (@i_par R ROps n_max a b th) /\
    settles (fun A => @i_unpol R (ar_ops A) n_max (a' A) (b' A) (qth A)) (@i_unpol R ROps n_max a b th).
  Proof.
    intros Ht. cbv zeta. apply st_int; [exact Ht| |].
    - intros n Hn. exact (proj1 (proj1 (rt_coefficients' n Hn))).
    - intros n Hn. exact (proj2 (proj1 (rt_coefficients' n Hn))).
  Qed.
End End.

(** ** the automatic depth *)
Lemma agreed_auto (q : arithmetic -> C) (z : C) : csettles q z -> z <> RtoC 0 -> (forall i : Z, 3 / 2 * Cmod z <> IZR i) ->
  eventually (fun A => truncates A -> @n_add_auto R (ar_ops A) (@cabs R (ar_ops A) (q A)) = @n_add_auto R ROps (@cabs R ROps z)).
Proof.
  intros Hq Hz Hi. apply Cmod_gt_0 in Hz. apply cst_iff in Hq. pose proof (st_abs _ _ Hq) as Ha.
  set (v := 3 / 2 * Cmod z) in *. set (i := Int_part v). destruct (Int_part_bounds v) as [B1 B2]. fold i in B1, B2.
  assert (B1' : IZR i < v) by (destruct B1 as [B1|B1]; [exact B1|]; exfalso; exact (Hi i (eq_sym B1))).
  assert (Hv : settles (fun A => @rmul R (op A) (@rdiv R (op A) (@rofZ R (op A) 3) (@rofZ R (op A) 2)) (@cabs R (op A) (q A))) v)
    by (apply st_mul; [apply st_div; [apply st_ofZ|apply st_ofZ|lra]|exact Ha]).
  assert (V0 : 0 < v) by (unfold v; lra).
  eapply ev_imp; [|exact (ev_and _ _ (st_lt _ _ _ _ (st_const 0) Hv V0) (ev_and _ _ (st_lt _ _ _ _ (st_const (IZR i)) Hv B1') (st_lt _ _ _ _ Hv (st_const (IZR i + 1)) B2)))].
  intros A (X0 & X1 & X2) HT. cbv beta in X0, X1, X2. unfold n_add_auto. cbv zeta. rewrite HT.
  assert (T : forall x, 0 < x -> IZR i < x -> x < IZR i + 1 -> Rtrunc x = i).
  { intros x Y0 Y1 Y2. unfold Rtrunc. destruct (Rle_dec 0 x); [|lra]. destruct (Int_part_bounds x) as [C1 C2]. set (j := Int_part x) in *.
    assert (i < j + 1)%Z by (apply lt_IZR; rewrite plus_IZR; lra). assert (j < i + 1)%Z by (apply lt_IZR; rewrite plus_IZR; lra). lia. }
  rewrite (T _ X0 X1 X2). cbn [rtrunc rmul rdiv rofZ ROps]. change (@cabs R ROps z) with (Cmod z). fold v. rewrite (T v V0 B1' B2). reflexivity.
Qed.
Lemma torch_bits n_max dy d1 d2 d3 k0 env core shell n tol : smooth_torch n_max dy d1 d2 d3 k0 env core shell -> (1 <= n <= n_max)%nat -> 0 < tol ->
  exists p0, forall p, (p0 <= p)%nat ->
    let c' := round_torch (binary p) n_max dy d1 d2 d3 k0 env core shell n in let c := torch_coeffs n_max dy d1 d2 d3 (k0, env, [core; shell]) n in
    Cmod (an c' - an c)%C < tol /\ Cmod (bn c' - bn c)%C < tol.
Proof.
  intros Hs Hn Ht.
  destruct (rt_coefficients n_max dy d1 d2 d3 k0 env core shell (fun _ => dy) (fun _ => d1) (fun _ => d2) (fun _ => d3) (fun _ => k0) (fun _ => env) (fun _ => core) (fun _ => shell)
    (ev_imp _ _ (fun _ _ => eq_refl) ev_true) (ev_imp _ _ (fun _ _ => eq_refl) ev_true) (ev_imp _ _ (fun _ _ => eq_refl) ev_true) (ev_imp _ _ (fun _ _ => eq_refl) ev_true)
    (st_const k0) (proj1 (cst_iff _ _) (cst_const env)) (conj (st_const _) (proj1 (cst_iff _ _) (cst_const _))) (conj (st_const _) (proj1 (cst_iff _ _) (cst_const _))) Hs n Hn) as [[H1 H2] _].
  destruct (ev_bits _ (ev_and _ _ (H1 tol Ht) (H2 tol Ht))) as [p0 K]. exists p0. intros p Hp. exact (K p Hp).
Qed.
Lemma binary_truncates p : truncates (binary p). Proof. intros x. reflexivity. Qed.
Lemma torch_bits_auto n_max k0 env core shell n tol :
  let l := @layer_of R ROps k0 env core in let s := @layer_of R ROps k0 env shell in
  let y := snd s in let z1 := @cmul R ROps (fst l) (snd l) in let z2 := @cmul R ROps (fst s) (snd l) in let z3 := @cmul R ROps (fst s) (snd s) in
  let dy := depth_in ROps y in let d1 := depth_in ROps z1 in let d2 := depth_in ROps z2 in let d3 := depth_in ROps z3 in
  smooth_torch n_max dy d1 d2 d3 k0 env core shell -> off_step y -> off_step z1 -> off_step z2 -> off_step z3 -> (1 <= n <= n_max)%nat -> 0 < tol ->
  exists p0, forall p, (p0 <= p)%nat ->
    let A := binary p in let O := ar_ops A in let l' := round_layer A k0 env core in let s' := round_layer A k0 env shell in
    let c' := round_torch A n_max (depth_in O (snd s')) (depth_in O (@cmul R O (fst l') (snd l'))) (depth_in O (@cmul R O (fst s') (snd l'))) (depth_in O (@cmul R O (fst s') (snd s')))
      k0 env core shell n in
    let c := torch_coeffs n_max dy d1 d2 d3 (k0, env, [core; shell]) n in
    Cmod (an c' - an c)%C < tol /\ Cmod (bn c' - bn c)%C < tol.
Proof.
  intros l s y z1 z2 z3 dy d1 d2 d3 Hs Oy O1 O2 O3 Hn Ht. destruct (torch_bits _ _ _ _ _ _ _ _ _ n tol Hs Hn Ht) as [p1 K].
  destruct Hs as (Oe & Oc & Os & By & B1 & B2 & B3 & _).
  destruct (lst_layer_of (fun _ => k0) k0 (fun _ => env) env (fun _ => core) core (st_const k0) (cst_const env) (conj (st_const _) (cst_const _)) Oe Oc) as [Mc Xc].
  destruct (lst_layer_of (fun _ => k0) k0 (fun _ => env) env (fun _ => shell) shell (st_const k0) (cst_const env) (conj (st_const _) (cst_const _)) Oe Os) as [Ms Xs].
  pose proof (proj1 (cst_iff _ _) Xs) as Zy. pose proof (proj1 (cst_iff _ _) (cst_mul _ _ _ _ Mc Xc)) as Z1. pose proof (proj1 (cst_iff _ _) (cst_mul _ _ _ _ Ms Xc)) as Z2. pose proof (proj1 (cst_iff _ _) (cst_mul _ _ _ _ Ms Xs)) as Z3.
  pose proof (agreed_auto _ _ Zy (big_neq0 _ (proj1 By)) Oy) as Ey. pose proof (agreed_auto _ _ Z1 (big_neq0 _ (proj1 B1)) O1) as E1.
  pose proof (agreed_auto _ _ Z2 (big_neq0 _ (proj1 B2)) O2) as E2. pose proof (agreed_auto _ _ Z3 (big_neq0 _ (proj1 B3)) O3) as E3.
  destruct (ev_bits _ (ev_and _ _ (ev_and _ _ Ey E1) (ev_and _ _ E2 E3))) as [p2 E]. exists (max p1 p2). intros p Hp.
  destruct (E p ltac:(lia)) as [[G1 G2] [G3 G4]]. specialize (G1 (binary_truncates p)). specialize (G2 (binary_truncates p)). specialize (G3 (binary_truncates p)). specialize (G4 (binary_truncates p)).
  cbv beta in G1, G2, G3, G4. pose proof (K p ltac:(lia)) as Kp. cbv zeta in Kp |- *. unfold dy, d1, d2, d3, depth_in in Kp |- *. rewrite G1, G2, G3, G4. exact Kp.
Qed.
