(** The ghost dipole and the transparent sphere (C98). *)
From Coq Require Import Reals ZArith Lra Lia List Bool Arith.
From Coquelicot Require Import Coquelicot.
From Verif Require Import Ops ROps Spec CTrig CLemmas ModelSpecial ModelMie ModelRound RoundSpec GradOps GradPena RoundOps SmallSpec SmallRound SmallNearest.
Import ListNotations.
Open Scope R_scope.
Arguments Cmod x%C_scope.
Notation er := (@eps30 R ROps).

Lemma er_pos : 0 < er. Proof. unfold eps30, rtenth. cbn [rdiv rone rofZ ROps]. apply Rdiv_lt_0_compat; [lra|]. apply IZR_lt. reflexivity. Qed.
Lemma er_lt1 : er < 1. Proof. unfold eps30, rtenth. cbn [rdiv rone rofZ ROps]. assert (1 < IZR (10 ^ Z.of_nat 30)) by (apply IZR_lt; reflexivity). apply (Rmult_lt_reg_r (IZR (10 ^ Z.of_nat 30))); [lra|]. unfold Rdiv. rewrite Rmult_assoc, Rinv_l by lra. lra. Qed.
Lemma guard_r x : er <= x -> @guard R ROps er (RtoC x) = RtoC x.
Proof. intros H. pose proof er_pos. unfold guard. cbn [rltb ROps]. change (@cabs R ROps (RtoC x)) with (Cmod (RtoC x)). rewrite Cmod_R, Rabs_pos_eq by lra. rewrite (proj2 (Rltb_false _ _)); [reflexivity|exact H]. Qed.
(* exact arithmetic: D1 of a small positive argument is real and not negative *)
Lemma exact_chain x N k : er <= x <= 1 -> (k <= N)%nat -> exists d, 0 <= d /\ @d1_iter R ROps er (RtoC x) N k = RtoC d.
Proof.
  intros Hx. pose proof er_pos as E0. pose proof er_lt1. induction k as [|k IH]; intros Hk; [exists 0; split; [lra|reflexivity]|]. destruct (IH ltac:(lia)) as (d & Hd & E). cbn [d1_iter]. rewrite E. unfold d1_step. toC. rewrite ?cofn_C.
  set (j := (N - k)%nat). assert (J : 1 <= INR j) by (apply (le_INR 1); unfold j; lia). assert (Ix : 1 <= / x) by (rewrite <- Rinv_1; apply Rinv_le_contravar; lra). assert (J2 : 1 <= INR j / x) by (unfold Rdiv; nra).
  rewrite <- RtoC_div, <- RtoC_plus by lra. rewrite guard_r by lra. change (@cone R ROps) with (RtoC 1). rewrite <- RtoC_div, <- RtoC_minus by lra. exists (INR j / x - 1 / (d + INR j / x)). split; [|reflexivity].
  assert (1 / (d + INR j / x) <= 1); [|lra]. apply (Rmult_le_reg_r (d + INR j / x)); [lra|]. unfold Rdiv at 1. rewrite Rmult_assoc, Rinv_l by lra. lra.
Qed.
Lemma exact_transparent n_max n_add x : er <= x <= 1 -> (2 <= n_max + n_add)%nat -> @pena_ab R ROps n_max n_add (RtoC 1, RtoC x) [] 1 = (RtoC 0, RtoC 0).
Proof.
  intros Hx HN. pose proof er_pos as E0. set (N := (n_max + n_add)%nat) in *. destruct (exact_chain x N (N - 1) Hx ltac:(lia)) as (d & Hd & E).
  assert (Ix : 1 <= / x) by (rewrite <- Rinv_1; apply Rinv_le_contravar; lra).
  assert (D1 : @pD1 R ROps n_max n_add (RtoC x) 1 = RtoC d) by (unfold pD1, D1_at; fold N; rewrite guard_r by lra; exact E).
  assert (D0 : @pD1 R ROps n_max n_add (RtoC x) 0 = RtoC (1 / x - 1 / (d + 1 / x))).
  { unfold pD1, D1_at. fold N. rewrite guard_r by lra. replace (N - 0)%nat with (S (N - 1)) by lia. cbn [d1_iter]. rewrite E. unfold d1_step. toC. rewrite ?cofn_C. replace (N - (N - 1))%nat with 1%nat by lia. change (INR 1) with 1.
    pose proof er_lt1. assert (1 <= 1 / x) by lra. rewrite <- RtoC_div, <- RtoC_plus by lra. rewrite guard_r by lra. change (@cone R ROps) with (RtoC 1). rewrite <- RtoC_div, <- RtoC_minus by lra. reflexivity. }
  assert (Q : 0 < d + 1 / x) by lra.
  assert (Psi1 : @ppsi R ROps n_max n_add (RtoC x) 1 = (@ppsi R ROps n_max n_add (RtoC x) 0 * RtoC (1 / (d + 1 / x)))%C).
  { unfold ppsi, pPZ. rewrite pz_S. cbv zeta. cbn [fst]. rewrite guard_r by lra. change (@D1_at R ROps _ _ (RtoC x) 0) with (@pD1 R ROps n_max n_add (RtoC x) 0). toC. f_equal. change (Nat.add n_max n_add) with N. fold N. rewrite D0, ?cofn_C. change (INR 1) with 1. rewrite <- RtoC_div, <- RtoC_minus by lra. f_equal. ring. }
  assert (EH : @pena_H R ROps n_max n_add (RtoC 1, RtoC x) [] 1 = (RtoC d, RtoC d)).
  { unfold pena_H. cbn [pena_layers]. unfold pena_first. cbn [fst snd]. toC. rewrite Cmult_1_l. rewrite D1. reflexivity. }
  unfold pena_ab. cbn [last]. rewrite EH. unfold pena_final. cbn [fst snd Nat.sub]. rewrite guard_r by lra. rewrite Psi1. toC. rewrite ?cofn_C. change (INR 1) with 1. set (p0 := @ppsi R ROps n_max n_add (RtoC x) 0).
  assert (Za : ((RtoC d / RtoC 1 + RtoC 1 / RtoC x) * (p0 * RtoC (1 / (d + 1 / x))) - p0)%C = RtoC 0).
  { rewrite <- !RtoC_div, <- RtoC_plus by lra. replace (d / 1) with d by field. replace (RtoC (d + 1 / x) * (p0 * RtoC (1 / (d + 1 / x))))%C with (p0 * (RtoC (d + 1 / x) * RtoC (1 / (d + 1 / x))))%C by ring. rewrite <- RtoC_mult. replace ((d + 1 / x) * (1 / (d + 1 / x))) with 1 by (field; split; nra). ring. }
  assert (Zb : ((RtoC 1 * RtoC d + RtoC 1 / RtoC x) * (p0 * RtoC (1 / (d + 1 / x))) - p0)%C = RtoC 0).
  { rewrite <- Za. f_equal. f_equal. f_equal. rewrite <- RtoC_mult, <- RtoC_div by lra. f_equal. field. }
  rewrite Za, Zb. unfold Cdiv. rewrite !Cmult_0_l. reflexivity.
Qed.
(** ** rounded arithmetic *)
Lemma ghost u v A x m n_max n_add : 0 <= u <= 1 / 100 -> precise u A -> absorbing v A -> 4 * er <= x -> x <= 1 / 20 -> x * x <= v / 4 -> 0 < m -> 4 * er <= m * x -> m * x <= 1 / 20 -> (m * x) * (m * x) <= v / 4 -> (2 <= n_max + n_add)%nat ->
  x * x * x / 10 <= Cmod (snd (@pena_ab R (ar_ops A) n_max n_add (RtoC m, RtoC x) [] 1)).
Proof.
  intros Hu P Ha X0 X1 Xv Hm Z0 Z1 Zv HN. pose proof er_pos as E0. pose proof (a_prod u A Hu P m x ltac:(lra)) as B. set (z := @radd R (ar_ops A) (@rmul R (ar_ops A) m x) 0) in *.
  assert (z * z <= v / 2) by nra. pose proof (ghost_lemma u v A Hu P Ha x m n_max n_add ltac:(lra) ltac:(lra) ltac:(nra) Hm ltac:(fold z; lra) ltac:(fold z; lra) ltac:(fold z; assumption) HN) as G.
  eapply Rle_trans; [apply Rge_le; exact G|]. set (w := snd (@pena_ab R (ar_ops A) n_max n_add (RtoC m, RtoC x) [] 1)). pose proof (Rmax_Cmod w) as M. pose proof (Rmax_r (Rabs (fst w)) (Rabs (snd w))). eapply Rle_trans; [|exact M]. assumption.
Qed.
Lemma high_orders u v A l0 rest n_max n_add x n : 0 <= u <= 1 / 100 -> precise u A -> absorbing v A -> snd (last rest l0) = RtoC x -> 2 * er <= x -> x <= 1 / 10 -> x * x <= v / 2 -> (2 <= n <= n_max + n_add)%nat ->
  @pena_ab R (ar_ops A) n_max n_add l0 rest n = (RtoC 0, RtoC 0).
Proof. intros Hu P Ha E X0 X1 Xv Hn. unfold pena_ab. exact (final_high u v A Hu P Ha _ _ n_max n_add x n E X0 X1 Xv Hn). Qed.
Lemma collapse u v A x n_max n_add n : 0 <= u <= 1 / 100 -> precise u A -> absorbing v A -> 2 * er <= x -> x <= 1 / 10 -> x * x <= v / 2 -> (1 <= n <= n_max + n_add)%nat -> @ppsi R (ar_ops A) n_max n_add (RtoC x) n = RtoC 0.
Proof. intros Hu P Ha X0 X1 Xv Hn. exact (psi_small u v A Hu P Ha x X0 X1 Xv n_max n_add n Hn). Qed.
Lemma half_inv n : (1 / 2) ^ n = / 2 ^ n. Proof. replace (1 / 2) with (/ 2) by lra. now rewrite pow_inv. Qed.
Lemma double_ok : 0 <= (1 / 2) ^ 52 <= 1 / 100 /\ 4 * er <= 1 / 10 ^ 9 /\ 1 / 10 ^ 9 <= 1 / 20 /\ 1 / 10 ^ 9 * (1 / 10 ^ 9) <= (1 / 2) ^ (52 + 3) / 4.
Proof.
  unfold eps30, rtenth. cbn [rdiv rone rofZ ROps]. replace (IZR (10 ^ Z.of_nat 30)) with (10 ^ 30) by (rewrite <- pow_IZR; reflexivity). rewrite !half_inv. change (52 + 3)%nat with 55%nat.
  replace (2 ^ 52) with 4503599627370496 by ring. replace (2 ^ 55) with 36028797018963968 by ring. replace (10 ^ 30) with 1000000000000000000000000000000 by ring. replace (10 ^ 9) with 1000000000 by ring. repeat split; lra.
Qed.
Lemma double_refuted n_max :
  @pena_ab R ROps n_max 15 (RtoC 1, RtoC (1 / 10 ^ 9)) [] 1 = (RtoC 0, RtoC 0) /\
  (1 / 10 ^ 9) * (1 / 10 ^ 9) * (1 / 10 ^ 9) / 10 <= Cmod (snd (@pena_ab R (ar_ops (nearest 52)) n_max 15 (RtoC 1, RtoC (1 / 10 ^ 9)) [] 1)).
Proof.
  destruct double_ok as (U & X0 & X1 & Xv). pose proof er_pos. set (x := 1 / 10 ^ 9) in *. clearbody x. split; [apply exact_transparent; [lra|lia]|].
  apply (ghost ((1 / 2) ^ 52) ((1 / 2) ^ (52 + 3))); try assumption; try lra; [apply nearest_precise|apply nearest_absorbing|lia].
Qed.
Lemma glass_ok : let x := 1 / 10 ^ 9 / 2 in let m := 3 / 2 in let v := (1 / 2) ^ (52 + 3) in
  0 <= (1 / 2) ^ 52 <= 1 / 100 /\ 4 * er <= x /\ x <= 1 / 20 /\ x * x <= v / 4 /\ 0 < m /\ 4 * er <= m * x /\ m * x <= 1 / 20 /\ (m * x) * (m * x) <= v / 4.
Proof.
  cbv zeta. unfold eps30, rtenth. cbn [rdiv rone rofZ ROps]. replace (IZR (10 ^ Z.of_nat 30)) with (10 ^ 30) by (rewrite <- pow_IZR; reflexivity). rewrite !half_inv. change (52 + 3)%nat with 55%nat.
  replace (2 ^ 52) with 4503599627370496 by ring. replace (2 ^ 55) with 36028797018963968 by ring. replace (10 ^ 30) with 1000000000000000000000000000000 by ring. replace (10 ^ 9) with 1000000000 by ring. repeat split; lra.
Qed.
