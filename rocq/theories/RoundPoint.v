(** Positions computed in rounded arithmetic (C108). *)
From Coq Require Import Reals ZArith Lra Lia List Bool Arith.
From Coquelicot Require Import Coquelicot.
From Verif Require Import Ops ROps Spec CTrig CLemmas ModelSpecial ModelMie ModelNear ModelRound ModelRoundNear RoundSpec RoundNearSpec GradSpec GradNearSpec NearField RoundOps RoundPena RoundObs RoundNear RoundBinary RoundEnd RoundNearEnd.
Import ListNotations.
Open Scope R_scope.

Lemma st_acos p x : settles p x -> -1 < x < 1 -> settles (fun A => @racos R (op A) (p A)) (acos x).
Proof.
  intros H Hb. apply (st_round _ (fun A => acos (p A)) _ (fun A => -1 <= p A <= 1)).
  - apply (st_cont acos); [exact H|]. apply (ex_derive_continuous acos). exists (-1 / sqrt (1 - x²)). apply is_derive_Reals. exact (derive_pt_eq_1 _ _ _ _ (derive_pt_acos x Hb)).
  - eapply ev_imp; [|exact (ev_and _ _ (st_lt _ _ _ _ (st_const (-1)) H (proj1 Hb)) (st_lt _ _ _ _ H (st_const 1) (proj2 Hb)))]. intros A [H1 H2]. cbv beta in *. lra.
  - intros u A HA D. now apply (pr_acos _ _ HA).
Qed.
Lemma st_Ratan2 q p y x : settles q y -> settles p x -> x <> 0 -> 0 < x \/ y <> 0 -> settles (fun A => Ratan2 (q A) (p A)) (Ratan2 y x).
Proof.
  intros Hy Hx Hn Hc.
  assert (T : settles (fun A => atan (q A * / p A)) (atan (y * / x))).
  { apply (st_cont atan (fun A => q A * / p A)); [apply st_mult; [exact Hy|now apply st_inv]|]. apply (ex_derive_continuous atan). eexists. apply is_derive_Reals, derivable_pt_lim_atan. }
  assert (K : forall c, atan (y * / x) + c = Ratan2 y x -> eventually (fun A => atan (q A * / p A) + c = Ratan2 (q A) (p A)) -> settles (fun A => Ratan2 (q A) (p A)) (Ratan2 y x)).
  { intros c <- Hl. apply (st_ev (fun A => atan (q A * / p A) + c)); [exact Hl|]. apply st_plus; [exact T|apply st_const]. }
  pose proof (st_const 0) as Z.
  destruct (Rtotal_order x 0) as [L|[L|L]]; [|contradiction|].
  - assert (Hy0 : y <> 0) by (destruct Hc; [lra|assumption]). pose proof (st_lt _ _ _ _ Hx Z L) as Lx.
    destruct (Rtotal_order y 0) as [M|[M|M]]; [|contradiction|].
    + apply (K (- PI)).
      * unfold Ratan2. destruct (Rlt_dec 0 x); [lra|]. destruct (Rlt_dec x 0); [|lra]. destruct (Rle_dec 0 y); [lra|]. reflexivity.
      * pose proof (st_lt _ _ _ _ Hy Z M) as Ly. eapply ev_imp; [|exact (ev_and _ _ Lx Ly)]. intros A [A1 A2]. cbv beta in *.
        unfold Ratan2. destruct (Rlt_dec 0 (p A)); [lra|]. destruct (Rlt_dec (p A) 0); [|lra]. destruct (Rle_dec 0 (q A)); [lra|]. reflexivity.
    + apply (K PI).
      * unfold Ratan2. destruct (Rlt_dec 0 x); [lra|]. destruct (Rlt_dec x 0); [|lra]. destruct (Rle_dec 0 y); [|lra]. reflexivity.
      * pose proof (st_lt _ _ _ _ Z Hy M) as Ly. eapply ev_imp; [|exact (ev_and _ _ Lx Ly)]. intros A [A1 A2]. cbv beta in *.
        unfold Ratan2. destruct (Rlt_dec 0 (p A)); [lra|]. destruct (Rlt_dec (p A) 0); [|lra]. destruct (Rle_dec 0 (q A)); [|lra]. reflexivity.
  - apply (K 0).
    + unfold Ratan2. destruct (Rlt_dec 0 x); [|lra]. unfold Rdiv. ring.
    + eapply ev_imp; [|exact (st_lt _ _ _ _ Z Hx L)]. intros A A1. cbv beta in *. unfold Ratan2. destruct (Rlt_dec 0 (p A)); [|lra]. unfold Rdiv. ring.
Qed.
Lemma st_atan2 q p y x : settles q y -> settles p x -> x <> 0 -> 0 < x \/ y <> 0 -> settles (fun A => @ratan2 R (op A) (q A) (p A)) (Ratan2 y x).
Proof.
  intros Hy Hx Hn Hc. apply (st_round _ (fun A => Ratan2 (q A) (p A)) _ (fun A => p A <> 0)); [now apply st_Ratan2|exact (st_neq _ _ Hx Hn)|].
  intros u A HA D. now apply (pr_atan2 _ _ HA).
Qed.
Lemma eqb_ev p x : settles p x -> x <> 0 -> eventually (fun A => @reqb R (op A) (p A) (@rzero R (op A)) = false).
Proof.
  intros H Hn. eapply ev_imp; [|exact (ev_and _ _ ev_prec (st_neq _ _ H Hn))]. intros A [HA D]. cbv beta in *. rewrite (pr_eqb _ _ HA), (pr_zero _ _ HA). unfold Reqb. destruct (Req_EM_T (p A) 0); [contradiction|reflexivity].
Qed.

Lemma positions_round (e x y z : R) (qe qx qy qz : arithmetic -> R) : settles qe e -> settles qx x -> settles qy y -> settles qz z -> off_axis e x y z ->
  settles_point (fun A => round_point A (qe A) (qx A) (qy A) (qz A)) (point_of e x y z).
Proof.
  intros He Hx Hy Hz (Hn & Hc & Hcl).
  assert (Hr2 : 0 < x * x + y * y + z * z) by nra.
  set (r := sqrt (x * x + y * y + z * z)) in *. assert (Hr0 : 0 < r) by (apply sqrt_lt_R0; exact Hr2).
  assert (Er : @norm3 R ROps x y z = r) by (unfold norm3, rsqr, r; cbn [rsqrt radd rmul rone ROps]; f_equal; ring).
  assert (Hr : settles (fun A => @norm3 R (op A) (qx A) (qy A) (qz A)) r).
  { assert (Q : settles (fun A => @radd R (op A) (@radd R (op A) (@rsqr R (op A) (qx A)) (@rsqr R (op A) (qy A))) (@rsqr R (op A) (qz A))) (x * x + y * y + z * z)).
    { eapply st_val; [apply st_add; [apply st_add|]; apply st_sqr; eassumption|]. unfold rsqr; cbn; ring. }
    unfold norm3, r. apply (st_sqrt (fun A => @radd R (op A) (@radd R (op A) (@rsqr R (op A) (qx A)) (@rsqr R (op A) (qy A))) (@rsqr R (op A) (qz A)))); [|exact Q].
    eapply ev_imp; [|exact (st_lt _ _ _ _ (st_const 0) Q Hr2)]. intros A HA. cbv beta in HA. lra. }
  set (qr := fun A => @norm3 R (op A) (qx A) (qy A) (qz A)) in *.
  pose proof (st_div _ _ _ _ Hz Hr ltac:(lra)) as Hq. set (qq := fun A => @rdiv R (op A) (qz A) (qr A)) in *.
  assert (Hb : - 1 + e < z / r < 1 - e).
  { apply Rabs_def2 in Hcl. destruct Hcl as [C1 C2]. split; (apply (Rmult_lt_reg_r r); [exact Hr0|]); unfold Rdiv; rewrite ?Rmult_assoc, ?Rinv_l, ?Rmult_1_r by lra; lra. }
  assert (Hb1 : -1 < z / r < 1).
  { assert (Z1 : Rabs z < r).
    { unfold r. rewrite <- (sqrt_Rsqr_abs z). apply sqrt_lt_1_alt. unfold Rsqr. split; nra. }
    apply Rabs_def2 in Z1. destruct Z1 as [C1 C2]. split; (apply (Rmult_lt_reg_r r); [exact Hr0|]); unfold Rdiv; rewrite ?Rmult_assoc, ?Rinv_l, ?Rmult_1_r by lra; lra. }
  pose proof (st_add _ _ _ _ (st_opp _ _ st_one) He) as Hlo. pose proof (st_sub _ _ _ _ st_one He) as Hhi.
  pose proof (ltb_ev _ _ _ _ Hq Hlo ltac:(lra)) as Llo. pose proof (ltb_ev _ _ _ _ Hhi Hq ltac:(lra)) as Lhi.
  pose proof (eqb_ev _ _ Hr ltac:(lra)) as Lr. pose proof (eqb_ev _ _ Hx Hn) as Lx.
  assert (Ept : point_of e x y z = {| pt_r := r; pt_theta := acos (z / r); pt_phi := Ratan2 y x |}).
  { unfold point_of, xyz_to_sph. rewrite Er. cbn [reqb rzero ROps]. unfold Reqb. destruct (Req_EM_T r 0); [lra|]. destruct (Req_EM_T x 0); [contradiction|].
    unfold clamp_t. cbn [rltb radd rmul rdiv ropp rone rzero racos ratan2 ROps]. unfold rsub. cbn [radd ropp rone ROps]. unfold Rltb.
    destruct (Rlt_dec (z / r) (- (1) + e)); [lra|]. destruct (Rlt_dec (1 + - e) (z / r)); [lra|]. rewrite Rmult_0_l, Rplus_0_r. reflexivity. }
  rewrite Ept. unfold settles_point. cbn [pt_r pt_theta pt_phi]. split; [exact Hr|]. split.
  - apply (st_ev (fun A => @racos R (op A) (qq A))); [|apply st_acos; [exact Hq|exact Hb1]].
    eapply ev_imp; [|exact (ev_and _ _ Lr (ev_and _ _ Llo Lhi))]. intros A (A1 & A2 & A3). cbv beta in A1, A2, A3.
    unfold round_point, xyz_to_sph. cbn [pt_theta]. fold (qr A). rewrite A1. unfold clamp_t. fold (qq A).
    assert (B1 : @rltb R ROps (z / r) (- (1) + e) = false) by (cbn [rltb ROps]; unfold Rltb; destruct (Rlt_dec _ _); [lra|reflexivity]).
    assert (B2 : @rltb R ROps (1 - e) (z / r) = false) by (cbn [rltb ROps]; unfold Rltb; destruct (Rlt_dec _ _); [lra|reflexivity]).
    rewrite B1 in A2. rewrite B2 in A3. rewrite A2, A3. reflexivity.
  - apply (st_ev (fun A => @ratan2 R (op A) (qy A) (@radd R (op A) (qx A) (@rmul R (op A) (@rzero R (op A)) (qe A))))).
    + eapply ev_imp; [|exact Lx]. intros A A1. cbv beta in A1. unfold round_point, xyz_to_sph. cbn [pt_phi]. rewrite A1. reflexivity.
    + apply (st_atan2 qy (fun A => @radd R (op A) (qx A) (@rmul R (op A) (@rzero R (op A)) (qe A)))); [exact Hy| |exact Hn|exact Hc].
      eapply st_val; [apply st_add; [exact Hx|apply st_mul; [exact st_zero|exact He]]|ring].
Qed.
Lemma cartesian_round (n_max : nat) (k0 : R) (env : C) (core : R * C) (shells : list (R * C)) (E0 : C) (e x y z : R)
    (qk : arithmetic -> R) (qenv : arithmetic -> C) (qcore : arithmetic -> R * C) (qshells : list (arithmetic -> R * C)) (qE : arithmetic -> C) (qe qx qy qz : arithmetic -> R) :
  settles qk k0 -> csettles qenv env -> settles_shell qcore core -> Forall2 settles_shell qshells shells -> csettles qE E0 ->
  settles qe e -> settles qx x -> settles qy y -> settles qz z -> off_axis e x y z ->
  smooth_field n_max k0 env core shells (sqrt (x * x + y * y + z * z)) ->
  let sh A := map (fun s => s A) qshells in let qP A := round_point A (qe A) (qx A) (qy A) (qz A) in let P := point_of e x y z in
  settles_vec (fun A => round_E_t A n_max 15 (qk A) (qenv A) (qcore A) (sh A) (qE A) (qP A)) (@E_t R ROps n_max 15 k0 env core shells E0 P) /\
  settles_vec (fun A => round_H_t A n_max 15 (qk A) (qenv A) (qcore A) (sh A) (qE A) (qP A)) (@H_t R ROps n_max 15 k0 env core shells E0 P).
Proof.
  intros Hk He Hc HF HE Hee Hx Hy Hz Ho Hs sh qP P.
  assert (Er : sqrt (x * x + y * y + z * z) = pt_r P) by (unfold P, point_of, xyz_to_sph, norm3, rsqr; cbn [pt_r rsqrt radd rmul rone ROps]; f_equal; ring).
  rewrite Er in Hs.
  exact (proj2 (proj2 (proj2 (proj2 (near_rounds n_max k0 env core shells E0 P qk qenv qcore qshells qE qP Hk He Hc HF HE (positions_round e x y z qe qx qy qz Hee Hx Hy Hz Ho) Hs))))).
Qed.
