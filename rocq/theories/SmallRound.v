(** What the pena recurrences return for small size parameters in rounded arithmetic (C98). *)
From Coq Require Import Reals ZArith Lra Lia List Bool Arith.
From Coquelicot Require Import Coquelicot.
From Verif Require Import Ops ROps Spec CTrig CLemmas ModelSpecial ModelMie ModelRound RoundSpec GradOps GradPena RoundOps SmallSpec.
Import ListNotations.
Open Scope R_scope.
Arguments Cmod x%C_scope.

Lemma rel_bd u x y : 0 <= u <= 1 / 100 -> 0 <= y -> rel u x y -> 99 / 100 * y <= x <= 101 / 100 * y.
Proof.
  unfold rel. intros Hu Hy H. rewrite (Rabs_pos_eq y Hy) in H. assert (u * y <= 1 / 100 * y) by (apply Rmult_le_compat_r; lra). assert (K : Rabs (x - y) <= 1 / 100 * y) by lra. apply Rabs_le_between in K. lra.
Qed.
Lemma rel_0 u x : rel u x 0 -> x = 0.
Proof. unfold rel. rewrite Rabs_R0, Rmult_0_r, Rminus_0_r. intros H. destruct (Req_dec x 0) as [E|N]; [exact E|]. pose proof (Rabs_pos_lt x N). lra. Qed.

Section A.
  Variables (u v : R) (A : arithmetic).
  Hypothesis Hu : 0 <= u <= 1 / 100.
  Hypothesis P : precise u A.
  Notation "x ⊕ y" := (@radd R (op A) x y) (at level 50, left associativity).
  Notation "x ⊗ y" := (@rmul R (op A) x y) (at level 40, left associativity).
  Notation "x ⊘ y" := (@rdiv R (op A) x y) (at level 40, left associativity).
  Notation e30a := (@eps30 R (op A)).
  Notation e30r := (@eps30 R ROps).
  Lemma a_add x y : 0 <= x + y -> 99 / 100 * (x + y) <= x ⊕ y <= 101 / 100 * (x + y). Proof. intros H. exact (rel_bd u _ _ Hu H (pr_add _ _ P x y)). Qed.
  Lemma a_mul x y : 0 <= x * y -> 99 / 100 * (x * y) <= x ⊗ y <= 101 / 100 * (x * y). Proof. intros H. exact (rel_bd u _ _ Hu H (pr_mul _ _ P x y)). Qed.
  Lemma a_div x y : 0 <= x / y -> y <> 0 -> 99 / 100 * (x / y) <= x ⊘ y <= 101 / 100 * (x / y). Proof. intros H N. exact (rel_bd u _ _ Hu H (pr_div _ _ P x y N)). Qed.
  Lemma a_00 : 0 ⊕ 0 = 0. Proof. apply (rel_0 u). pose proof (pr_add _ _ P 0 0) as H. now rewrite Rplus_0_l in H. Qed.
  Lemma a_self x : x ⊕ (- x) = 0. Proof. apply (rel_0 u). pose proof (pr_add _ _ P x (- x)) as H. now rewrite Rplus_opp_r in H. Qed.
  Lemma a_m0 x : x ⊗ 0 = 0. Proof. apply (rel_0 u). pose proof (pr_mul _ _ P x 0) as H. now rewrite Rmult_0_r in H. Qed.
  Lemma a_0m x : 0 ⊗ x = 0. Proof. apply (rel_0 u). pose proof (pr_mul _ _ P 0 x) as H. now rewrite Rmult_0_l in H. Qed.
  Lemma a_0d x : x <> 0 -> 0 ⊘ x = 0. Proof. intros N. apply (rel_0 u). pose proof (pr_div _ _ P 0 x N) as H. unfold Rdiv in H. now rewrite Rmult_0_l in H. Qed.
  Lemma a_opp x : @ropp R (op A) x = - x. Proof. apply (pr_opp _ _ P). Qed.
  Lemma a_one : @rone R (op A) = 1. Proof. apply (pr_one _ _ P). Qed.
  Lemma a_zero : @rzero R (op A) = 0. Proof. apply (pr_zero _ _ P). Qed.
  Lemma a_sqr x : 98 / 100 * (x * x) <= @rsqr R (op A) x <= 103 / 100 * (x * x).
  Proof.
    unfold rsqr. rewrite a_one. assert (G : forall y, 0 <= y -> 98 / 100 * (y * y) <= y ⊗ (y ⊗ 1) <= 103 / 100 * (y * y)).
    { intros y Hy. pose proof (a_mul y 1 ltac:(lra)) as [M1 M2]. rewrite Rmult_1_r in M1, M2. pose proof (a_mul y (y ⊗ 1) ltac:(nra)) as [M3 M4]. split; nra. }
    destruct (Rle_lt_dec 0 x) as [L|L]; [now apply G|].
    pose proof (pr_mul _ _ P x 1) as M. rewrite Rmult_1_r in M. unfold rel in M. rewrite (Rabs_left x L) in M. apply Rabs_le_between in M.
    assert (M1 : - (101 / 100 * - x) <= x ⊗ 1 <= - (99 / 100 * - x)) by nra. pose proof (a_mul x (x ⊗ 1) ltac:(nra)) as [M3 M4]. split; nra.
  Qed.
  Lemma a_sqr0 : @rsqr R (op A) 0 = 0. Proof. unfold rsqr. apply a_0m. Qed.
  Lemma a_norm x y : 97 / 100 * (x * x + y * y) <= @rsqr R (op A) x ⊕ @rsqr R (op A) y <= 105 / 100 * (x * x + y * y).
  Proof. pose proof (a_sqr x). pose proof (a_sqr y). assert (0 <= x * x) by nra. assert (0 <= y * y) by nra. pose proof (a_add (@rsqr R (op A) x) (@rsqr R (op A) y) ltac:(lra)). lra. Qed.
  (** ** real numbers stored as complex ones *)
  Lemma cinv_real z : 0 < z -> exists w, @cinv R (op A) (z, 0) = (w, 0) /\ 9 / 10 * / z <= w <= 11 / 10 * / z.
  Proof.
    intros Hz. unfold cinv. cbn [fst snd]. rewrite a_opp, Ropp_0. pose proof (a_norm z 0) as N. set (n := @rsqr R (op A) z ⊕ @rsqr R (op A) 0) in *. assert (0 < z * z) by nra. rewrite (a_0d n) by lra.
    eexists. split; [reflexivity|]. assert (Hn : 0 < n) by lra. assert (Q : 0 <= z / n) by (apply Rlt_le, Rdiv_lt_0_compat; lra). pose proof (a_div z n Q ltac:(lra)) as D.
    assert (Q1 : 95 / 100 * / z <= z / n). { apply (Rmult_le_reg_r (z * n)); [nra|]. replace (95 / 100 * / z * (z * n)) with (95 / 100 * n) by (field; lra). replace (z / n * (z * n)) with (z * z) by (field; lra). lra. }
    assert (Q2 : z / n <= 104 / 100 * / z). { apply (Rmult_le_reg_r (z * n)); [nra|]. replace (104 / 100 * / z * (z * n)) with (104 / 100 * n) by (field; lra). replace (z / n * (z * n)) with (z * z) by (field; lra). lra. }
    assert (0 < / z) by now apply Rinv_0_lt_compat. lra.
  Qed.
  Lemma cmul_real x y : @cmul R (op A) (x, 0) (y, 0) = (x ⊗ y ⊕ 0, 0).
  Proof. unfold cmul, rsub. cbn [fst snd]. rewrite a_opp, !a_m0, !a_0m, Ropp_0, a_00. reflexivity. Qed.
  Lemma cadd_real x y : @cadd R (op A) (x, 0) (y, 0) = (x ⊕ y, 0). Proof. unfold cadd. cbn [fst snd]. now rewrite a_00. Qed.
  Lemma csub_real x y : @csub R (op A) (x, 0) (y, 0) = (x ⊕ - y, 0). Proof. unfold csub, copp. cbn [fst snd]. rewrite !a_opp, Ropp_0. apply cadd_real. Qed.
  Lemma a_prod x y : 0 <= x * y -> 98 / 100 * (x * y) <= x ⊗ y ⊕ 0 <= 103 / 100 * (x * y).
  Proof. intros H. pose proof (a_mul x y H). pose proof (a_add (x ⊗ y) 0 ltac:(lra)). lra. Qed.
  Lemma cdiv_real x z : 0 <= x -> 0 < z -> exists c d, @cdiv R (op A) (x, 0) (z, 0) = (c ⊕ d, 0) /\ 88 / 100 * (x * / z) <= c ⊕ d <= 114 / 100 * (x * / z).
  Proof.
    intros Hx Hz. destruct (cinv_real z Hz) as (w & E & W). unfold cdiv. rewrite E, cmul_real. assert (0 < / z) by now apply Rinv_0_lt_compat.
    exists (x ⊗ w), 0. split; [reflexivity|]. pose proof (a_prod x w ltac:(nra)). assert (9 / 10 * (x * / z) <= x * w) by nra. assert (x * w <= 11 / 10 * (x * / z)) by nra. nra.
  Qed.
  Lemma cmul_0 z : @cmul R (op A) z (0, 0) = (0, 0). Proof. unfold cmul, rsub. cbn [fst snd]. now rewrite !a_m0, a_opp, Ropp_0, a_00. Qed.
  Lemma cmul_0l z : @cmul R (op A) (0, 0) z = (0, 0). Proof. unfold cmul, rsub. cbn [fst snd]. now rewrite !a_0m, a_opp, Ropp_0, a_00. Qed.
  Lemma csub_00 : @csub R (op A) (0, 0) (0, 0) = (0, 0). Proof. rewrite csub_real, Ropp_0, a_00. reflexivity. Qed.
  Lemma a_ofn n : 99 / 100 * INR n <= @rofn R (op A) n <= 101 / 100 * INR n.
  Proof. unfold rofn. rewrite INR_IZR_INZ. apply (rel_bd u); [exact Hu|apply IZR_le; lia|apply (pr_ofZ _ _ P)]. Qed.
  Lemma a_eps : 0 < e30a <= 11 / 10 * e30r.
  Proof.
    unfold eps30, rtenth. rewrite a_one. cbn [rdiv rone rofZ ROps]. set (T := (10 ^ Z.of_nat 30)%Z). assert (HT : 0 < IZR T) by (apply IZR_lt; reflexivity).
    pose proof (rel_bd u _ _ Hu (Rlt_le _ _ HT) (pr_ofZ _ _ P T)) as B. set (t := @rofZ R (op A) T) in *. assert (Ht : 0 < t) by lra. assert (Q : 0 < 1 / t) by (apply Rdiv_lt_0_compat; lra).
    pose proof (a_div 1 t ltac:(lra) ltac:(lra)) as D. assert (Q2 : 1 / t <= 108 / 100 * (1 / IZR T)). { apply (Rmult_le_reg_r (t * IZR T)); [nra|]. replace (1 / t * (t * IZR T)) with (IZR T) by (field; lra). replace (108 / 100 * (1 / IZR T) * (t * IZR T)) with (108 / 100 * t) by (field; lra). lra. }
    assert (0 < 1 / IZR T) by (apply Rdiv_lt_0_compat; lra). lra.
  Qed.
  Lemma guard_big (z : C) x : 0 <= x -> x * x <= fst z * fst z + snd z * snd z -> 2 * e30r <= x -> @guard R (op A) e30a z = z.
  Proof.
    intros Hx H He. unfold guard. rewrite (pr_ltb _ _ P). rewrite (proj2 (Rltb_false _ _)); [reflexivity|]. unfold cabs. pose proof (a_norm (fst z) (snd z)) as N. set (n := @rsqr R (op A) (fst z) ⊕ @rsqr R (op A) (snd z)) in *.
    assert (S : 9 / 10 * x <= sqrt n). { rewrite <- (sqrt_square (9 / 10 * x)) by nra. apply sqrt_le_1_alt. nra. }
    pose proof (pr_sqrt _ _ P n ltac:(nra)) as R0. pose proof (rel_bd u _ _ Hu (sqrt_pos n) R0) as B. pose proof a_eps. lra.
  Qed.
  Lemma guard_real x : 2 * e30r <= x -> @guard R (op A) e30a (x, 0) = (x, 0).
  Proof. intros H. apply (guard_big _ x); cbn [fst snd]; [pose proof a_eps; lra|nra|exact H]. Qed.
  (** ** the recurrences *)
  Hypothesis Hv : absorbing v A.
  Section Z.
    Variable z : R.
    Hypothesis Z0 : 2 * e30r <= z.
    Hypothesis Z1 : z <= 1 / 10.
    Hypothesis Zv : z * z <= v / 2.
    Lemma z_pos : 0 < z. Proof. pose proof a_eps. lra. Qed.
    Definition nz (n : nat) : R := fst (@cdiv R (op A) (@cofn R (op A) n) (z, 0)).
    Lemma e_small : 2 * e30r <= 1 / 10. Proof. lra. Qed.
    Lemma z_inv : z * / z = 1. Proof. pose proof z_pos. field. lra. Qed.
    Lemma z_inv10 : 10 <= / z. Proof. pose proof z_pos. pose proof z_inv. assert (0 < / z) by now apply Rinv_0_lt_compat. nra. Qed.
    Lemma num n : (1 <= n)%nat -> exists c d, @cdiv R (op A) (@cofn R (op A) n) (z, 0) = (nz n, 0) /\ nz n = c ⊕ d /\ 85 / 100 * (INR n * / z) <= nz n <= 12 / 10 * (INR n * / z).
    Proof.
      intros Hn. assert (N1 : 1 <= INR n) by (apply (le_INR 1); exact Hn). pose proof (a_ofn n) as B. pose proof z_pos. pose proof z_inv10.
      unfold nz, cofn, cofr. rewrite a_zero. destruct (cdiv_real (@rofn R (op A) n) z ltac:(lra) ltac:(lra)) as (c & d & E & W). exists c, d. rewrite E. cbn [fst]. split; [reflexivity|]. split; [reflexivity|]. nra.
    Qed.
    Lemma step n d : (1 <= n)%nat -> 0 <= d -> @d1_step R (op A) e30a (z, 0) n (d, 0) = (nz n, 0).
    Proof.
      intros Hn Hd. assert (N1 : 1 <= INR n) by (apply (le_INR 1); exact Hn). destruct (num n Hn) as (c & c' & E & Ec & B). unfold d1_step. rewrite E, cadd_real. pose proof z_inv10 as I10. pose proof z_pos as Hz. pose proof z_inv as ZI.
      pose proof (a_add d (nz n) ltac:(nra)) as S. set (s := d ⊕ nz n) in *. assert (Hs : 8 / 10 * / z <= s) by nra. rewrite guard_real by (pose proof e_small; lra).
      unfold cone, cofr. rewrite a_one, a_zero. destruct (cdiv_real 1 s ltac:(lra) ltac:(lra)) as (t & t' & Et & Bt). rewrite Et, csub_real. rewrite Rmult_1_l in Bt. f_equal. rewrite Ec. apply Hv. rewrite <- Ec.
      assert (Is : / s <= 125 / 100 * z). { apply (Rmult_le_reg_r s); [lra|]. rewrite Rinv_l by lra. nra. }
      assert (0 < / s) by (apply Rinv_0_lt_compat; lra). rewrite Rabs_Ropp, !Rabs_pos_eq by nra.
      assert (V : 2 * z <= v * / z). { apply (Rmult_le_reg_r z); [exact Hz|]. replace (v * / z * z) with v by (field; lra). lra. }
      assert (0 < v) by nra. assert (/ z <= INR n * / z) by nra. nra.
    Qed.
    Lemma chain N k : (k < N)%nat -> @d1_iter R (op A) e30a (z, 0) N (S k) = (nz (N - k), 0).
    Proof.
      induction k as [|k IH]; intros Hk; cbn [d1_iter].
      - unfold czero, cofr. rewrite a_zero. apply step; [lia|lra].
      - change (@d1_step R (op A) e30a (z, 0) (N - S k) (@d1_iter R (op A) e30a (z, 0) N (S k)) = (nz (N - S k), 0)). rewrite IH by lia. apply step; [lia|]. destruct (num (N - k) ltac:(lia)) as (_ & _ & _ & _ & B). pose proof z_inv10. pose proof (pos_INR (N - k)). nra.
    Qed.
    Variables n_max n_add : nat.
    Lemma D1_small n : (n < n_max + n_add)%nat -> @pD1 R (op A) n_max n_add (z, 0) n = (nz (S n), 0).
    Proof.
      intros Hn. unfold pD1, D1_at. rewrite guard_real by exact Z0. replace (n_max + n_add - n)%nat with (S (n_max + n_add - n - 1)) by lia. rewrite chain by lia. do 2 f_equal. lia.
    Qed.
    Lemma psi_small n : (1 <= n <= n_max + n_add)%nat -> @ppsi R (op A) n_max n_add (z, 0) n = (0, 0).
    Proof.
      intros Hn. destruct n as [|n]; [lia|]. unfold ppsi, pPZ. rewrite pz_S. cbv zeta. cbn [fst]. rewrite guard_real by exact Z0. destruct (num (S n) ltac:(lia)) as (_ & _ & E & _). rewrite E.
      change (@D1_at R (op A) _ _ (z, 0) n) with (@pD1 R (op A) n_max n_add (z, 0) n). rewrite D1_small by lia. rewrite csub_real, a_self. apply cmul_0.
    Qed.
  End Z.
  Lemma final_high l H n_max n_add z n : snd l = (z, 0) -> 2 * e30r <= z -> z <= 1 / 10 -> z * z <= v / 2 -> (2 <= n <= n_max + n_add)%nat ->
    @pena_final R (op A) n_max n_add l H n = ((0, 0), (0, 0)).
  Proof.
    intros E Z0 Z1 Zv Hn. destruct l as [ml xl]. cbn in E. subst xl. unfold pena_final. cbn [fst snd]. rewrite !(psi_small z Z0 Z1 Zv) by lia. rewrite !cmul_0, !csub_00. unfold cdiv. rewrite !cmul_0l. reflexivity.
  Qed.
  (** ** the magnetic dipole *)
  Lemma a_addabs x y : Rabs (x ⊕ y) <= 101 / 100 * (Rabs x + Rabs y).
  Proof. pose proof (pr_add _ _ P x y) as H. unfold rel in H. pose proof (Rabs_triang x y) as T. pose proof (Rabs_triang (x ⊕ y - (x + y)) (x + y)) as T2. replace (x ⊕ y - (x + y) + (x + y)) with (x ⊕ y) in T2 by ring. pose proof (Rabs_pos (x + y)). nra. Qed.
  Lemma a_mulneg x y : x * y <= 0 -> 101 / 100 * (x * y) <= x ⊗ y <= 99 / 100 * (x * y).
  Proof. intros H. pose proof (pr_mul _ _ P x y) as M. unfold rel in M. rewrite (Rabs_left1 _ H) in M. apply Rabs_le_between in M. nra. Qed.
  Lemma a_addneg x y : x + y <= 0 -> 101 / 100 * (x + y) <= x ⊕ y <= 99 / 100 * (x + y).
  Proof. intros H. pose proof (pr_add _ _ P x y) as M. unfold rel in M. rewrite (Rabs_left1 _ H) in M. apply Rabs_le_between in M. nra. Qed.
  Lemma a_two : 198 / 100 <= @rtwo R (op A) <= 202 / 100. Proof. unfold rtwo. rewrite a_one. pose proof (a_add 1 1 ltac:(lra)). lra. Qed.
  Lemma a_cosh0 : 95 / 100 <= @rcosh R (op A) 0 <= 106 / 100.
  Proof.
    unfold rcosh. rewrite a_opp, Ropp_0. pose proof (rel_bd u _ _ Hu (Rlt_le _ _ (exp_pos 0)) (pr_exp _ _ P 0)) as E. rewrite exp_0 in E. set (e := @rexp R (op A) 0) in *.
    pose proof (a_add e e ltac:(lra)) as S. set (s := e ⊕ e) in *. pose proof a_two as T. set (t := @rtwo R (op A)) in *. assert (Q : 97 / 100 <= s / t <= 104 / 100).
    { split; apply (Rmult_le_reg_r t); try lra; replace (s / t * t) with s by (field; lra); lra. }
    pose proof (a_div s t ltac:(lra) ltac:(lra)). lra.
  Qed.
  Lemma a_sinh0 : @rsinh R (op A) 0 = 0.
  Proof. unfold rsinh, rsub. rewrite !a_opp, Ropp_0, a_self. apply a_0d. pose proof a_two. lra. Qed.
  Lemma sin_bd x : 0 <= x <= 1 / 10 -> 9 / 10 * x <= sin x <= x.
  Proof.
    intros H. destruct (Req_dec x 0) as [->|N]; [rewrite sin_0; lra|]. split; [|left; apply sin_lt_x; lra].
    pose proof (pre_sin_bound x 0 ltac:(lra) ltac:(lra)) as [B _]. unfold sin_approx, sum_f_R0, sin_term in B. cbn in B. nra.
  Qed.
  Lemma cos_bd x : 0 <= x <= 1 / 10 -> 99 / 100 <= cos x <= 1.
  Proof.
    intros H. split; [|apply COS_bound]. pose proof (pre_cos_bound x 0 ltac:(lra) ltac:(lra)) as [B _]. unfold cos_approx, sum_f_R0, cos_term in B. cbn in B. nra.
  Qed.
  Lemma csin_real x : 0 <= x <= 1 / 10 -> exists p, @csin R (op A) (x, 0) = (p, 0) /\ 8 / 10 * x <= p <= 11 / 10 * x.
  Proof.
    intros H. unfold csin. cbn [fst snd]. rewrite a_sinh0, a_m0. eexists. split; [reflexivity|]. pose proof (sin_bd x H) as S. pose proof (rel_bd u _ (sin x) Hu ltac:(lra) (pr_sin _ _ P x)) as B. pose proof a_cosh0 as C0.
    set (s := @rsin R (op A) x) in *. set (c := @rcosh R (op A) 0) in *. pose proof (a_mul s c ltac:(nra)). nra.
  Qed.
  Lemma ccos_real x : 0 <= x <= 1 / 10 -> exists k, @ccos R (op A) (x, 0) = (k, 0) /\ 9 / 10 <= k <= 11 / 10.
  Proof.
    intros H. unfold ccos. cbn [fst snd]. rewrite a_sinh0, a_m0, a_opp, Ropp_0. eexists. split; [reflexivity|]. pose proof (cos_bd x H) as S. pose proof (rel_bd u _ (cos x) Hu ltac:(lra) (pr_cos _ _ P x)) as B. pose proof a_cosh0 as C0.
    set (s := @rcos R (op A) x) in *. set (c := @rcosh R (op A) 0) in *. pose proof (a_mul s c ltac:(nra)). nra.
  Qed.
  Lemma zeta0 x : 0 <= x <= 1 / 10 -> exists a b, @csub R (op A) (@csin R (op A) (x, 0)) (@cmul R (op A) (@ci R (op A)) (@ccos R (op A) (x, 0))) = (a, - b) /\ 0 <= a <= 12 / 10 * x /\ 85 / 100 <= b <= 12 / 10.
  Proof.
    intros H. destruct (csin_real x H) as (p & Ep & Bp). destruct (ccos_real x H) as (k & Ek & Bk). rewrite Ep, Ek. unfold ci, cmul, rsub. cbn [fst snd]. rewrite a_one, a_zero, a_0m, a_m0, a_opp, Ropp_0, a_00, a_0m.
    pose proof (a_mul 1 k ltac:(lra)) as M. set (k1 := 1 ⊗ k) in *. pose proof (a_add 0 k1 ltac:(lra)) as M2. set (k2 := 0 ⊕ k1) in *.
    unfold csub, cadd, copp. cbn [fst snd]. rewrite !a_opp, Ropp_0. pose proof (a_add p 0 ltac:(lra)) as M3. pose proof (a_addneg 0 (- k2) ltac:(lra)) as M4. exists (p ⊕ 0), (- (0 ⊕ - k2)). rewrite Ropp_involutive. split; [reflexivity|]. lra.
  Qed.
  Section Ghost.
    Variables (x m : R) (n_max n_add : nat).
    Hypothesis X0 : 2 * e30r <= x.
    Hypothesis X1 : x <= 1 / 10.
    Hypothesis Xv : x * x <= v / 2.
    Hypothesis Hm : 0 < m.
    Let z := m ⊗ x ⊕ 0.
    Hypothesis Z0 : 2 * e30r <= z.
    Hypothesis Z1 : z <= 1 / 10.
    Hypothesis Zv : z * z <= v / 2.
    Hypothesis HN : (2 <= n_max + n_add)%nat.
    Let y := / x.
    Lemma xy : x * y = 1. Proof. unfold y. pose proof (z_pos x X0). field. lra. Qed.
    Lemma y10 : 10 <= y. Proof. exact (z_inv10 x X0 X1). Qed.
    Lemma zeta1 a b q : @pzeta R (op A) n_max n_add (x, 0) 0 = (a, - b) -> @cdiv R (op A) (@cofn R (op A) 1) (x, 0) = (q, 0) -> 0 <= a <= 12 / 10 * x -> 85 / 100 <= b <= 12 / 10 -> 85 / 100 * y <= q <= 12 / 10 * y ->
      exists r i, @pzeta R (op A) n_max n_add (x, 0) 1 = (r, - i) /\ Rabs r <= 125 / 100 /\ 69 / 100 * y <= i <= 152 / 100 * y.
    Proof.
      intros Es Eq Ba Bb Bq. pose proof xy as XY. pose proof y10 as Y10. pose proof (z_pos x X0) as Hx.
      assert (E : @pzeta R (op A) n_max n_add (x, 0) 1 = @cmul R (op A) (@pzeta R (op A) n_max n_add (x, 0) 0) (@csub R (op A) (@cdiv R (op A) (@cofn R (op A) 1) (@guard R (op A) e30a (x, 0))) (@ci R (op A)))) by (unfold pzeta, pPZ; rewrite pz_S; reflexivity).
      rewrite E, Es, guard_real, Eq by exact X0. unfold ci. rewrite a_zero, a_one. unfold csub, cadd, copp. cbn [fst snd]. rewrite !a_opp, Ropp_0.
      pose proof (a_add q 0 ltac:(nra)) as Q. set (q1 := q ⊕ 0) in *. pose proof (a_addneg 0 (-1) ltac:(lra)) as O. set (o := 0 ⊕ -1) in *.
      unfold cmul, rsub. cbn [fst snd]. rewrite a_opp.
      pose proof (a_mul a q1 ltac:(nra)) as M1. pose proof (a_mul (- b) o ltac:(nra)) as M2. pose proof (a_mulneg a o ltac:(nra)) as M3. pose proof (a_mulneg (- b) q1 ltac:(nra)) as M4.
      assert (a * q1 <= 147 / 100) by nra. assert (0 <= a * q1) by nra. assert (83 / 100 <= - b * o <= 1215 / 1000) by nra. assert (- (13 / 100) <= a * o <= 0) by nra. assert (- (1455 / 1000) * y <= - b * q1 <= - (71 / 100) * y) by (clear - Bb Q Bq Y10; split; nra).
      set (c1 := a ⊗ q1) in *. set (c2 := - b ⊗ o) in *. set (c3 := a ⊗ o) in *. set (c4 := - b ⊗ q1) in *.
      pose proof (a_addabs c1 (- c2)) as R1. pose proof (pr_add _ _ P c1 (- c2)) as R2. unfold rel in R2.
      assert (R3 : Rabs (c1 + - c2) <= 123 / 100) by (apply Rabs_le; lra). assert (R4 : Rabs (c1 ⊕ - c2) <= 125 / 100). { pose proof (Rabs_triang (c1 ⊕ - c2 - (c1 + - c2)) (c1 + - c2)) as T2. replace (c1 ⊕ - c2 - (c1 + - c2) + (c1 + - c2)) with (c1 ⊕ - c2) in T2 by ring. pose proof (Rabs_pos (c1 + - c2)). nra. }
      pose proof (a_addneg c3 c4 ltac:(lra)) as I. exists (c1 ⊕ - c2), (- (c3 ⊕ c4)). rewrite Ropp_involutive. split; [reflexivity|]. split; [exact R4|]. lra.
    Qed.
    Lemma ghost_lemma : Rabs (snd (snd (@pena_ab R (op A) n_max n_add ((m, 0), (x, 0)) [] 1))) >= x * x * x / 10.
    Proof.
      pose proof xy as XY. pose proof y10 as Y10. pose proof (z_pos x X0) as Hx. pose proof (z_pos z Z0) as Hz.
      destruct (zeta0 x ltac:(lra)) as (a & b & Es & Ba & Bb). destruct (csin_real x ltac:(lra)) as (p & Ep & Bp).
      destruct (num x X0 X1 1 ltac:(lia)) as (_ & _ & Eq & _ & Bq). set (q := nz x 1) in *. change (INR 1) with 1 in Bq. rewrite Rmult_1_l in Bq. fold y in Bq.
      destruct (num z Z0 Z1 2 ltac:(lia)) as (_ & _ & _ & _ & Bh). set (h := nz z 2) in *. replace (INR 2) with 2 in Bh by (cbn; lra).
      destruct (zeta1 a b q Es Eq Ba Bb Bq) as (r & i & Ez & Br & Bi).
      assert (EH : @pena_H R (op A) n_max n_add ((m, 0), (x, 0)) [] 1 = ((h, 0), (h, 0))).
      { unfold pena_H. cbn [pena_layers]. unfold pena_first. cbn [fst snd]. rewrite cmul_real. fold z. rewrite (D1_small z Z0 Z1 Zv) by lia. reflexivity. }
      unfold pena_ab. cbn [last]. rewrite EH. unfold pena_final. cbn [fst snd Nat.sub]. rewrite guard_real, Eq by exact X0. rewrite (psi_small x X0 X1 Xv) by lia. rewrite cmul_0, Ez.
      change (@pzeta R (op A) n_max n_add (x, 0) 0) with (@csub R (op A) (@csin R (op A) (x, 0)) (@cmul R (op A) (@ci R (op A)) (@ccos R (op A) (x, 0)))). rewrite Es.
      change (@ppsi R (op A) n_max n_add (x, 0) 0) with (@csin R (op A) (x, 0)). rewrite Ep. rewrite csub_real, cmul_real, cadd_real.
      (* the boundary term *)
      assert (Bz : 98 / 100 * (m * x) <= z <= 103 / 100 * (m * x)) by (apply a_prod; nra). set (k := / z) in *. assert (ZK : z * k = 1) by (unfold k; field; lra). assert (K0 : 0 < k) by (unfold k; now apply Rinv_0_lt_compat).
      assert (MK : 97 / 100 * y <= m * k <= 103 / 100 * y).
      { assert (E1 : m * k * z = m) by (replace (m * k * z) with (m * (z * k)) by ring; rewrite ZK; ring). assert (E2 : m * x * y = m) by (replace (m * x * y) with (m * (x * y)) by ring; rewrite XY; ring). split; apply (Rmult_le_reg_r z); try lra; rewrite E1; nra. }
      assert (MH : 164 / 100 * y <= m * h <= 248 / 100 * y) by (split; nra).
      pose proof (a_prod m h ltac:(nra)) as BM. set (mh := m ⊗ h ⊕ 0) in *. pose proof (a_add mh q ltac:(lra)) as BT. set (t := mh ⊕ q) in *. assert (Bt : 242 / 100 * y <= t <= 381 / 100 * y) by lra.
      clear BT BM MH MK Bz Bh EH.
      (* the denominator *)
      unfold cmul at 1, rsub. cbn [fst snd]. rewrite !a_0m, a_opp, Ropp_0.
      assert (TI : 166 / 100 * (y * y) <= t * i <= 58 / 10 * (y * y)) by (split; nra).
      assert (Y2 : 100 <= y * y) by nra. assert (Y1 : y <= y * y / 10) by nra. assert (TN : t * - i = - (t * i)) by ring.
      pose proof (a_mulneg t (- i) ltac:(lra)) as D1. rewrite TN in D1. set (d1 := t ⊗ - i) in *. pose proof (a_addneg d1 0 ltac:(lra)) as D2. set (d2 := d1 ⊕ 0) in *.
      assert (TR : Rabs (t * r) <= 477 / 100 * y). { rewrite Rabs_mult, (Rabs_pos_eq t) by nra. pose proof (Rabs_pos r). nra. }
      pose proof (pr_mul _ _ P t r) as E1. unfold rel in E1. set (e1 := t ⊗ r) in *.
      assert (E2 : Rabs e1 <= 482 / 100 * y). { pose proof (Rabs_triang (e1 - t * r) (t * r)) as T2. replace (e1 - t * r + t * r) with e1 in T2 by ring. pose proof (Rabs_pos (t * r)). nra. }
      pose proof (a_addabs e1 0) as E3. rewrite Rabs_R0 in E3. set (e2 := e1 ⊕ 0) in *.
      unfold csub at 1, cadd, copp. cbn [fst snd]. rewrite !a_opp, Ropp_involutive.
      pose proof (a_addabs e2 (- a)) as E4. rewrite Rabs_Ropp, (Rabs_pos_eq a) in E4 by lra. set (dr := e2 ⊕ - a) in *.
      assert (Edr : Rabs dr <= 1 / 2 * (y * y)) by lra.
      pose proof (a_addneg d2 b ltac:(lra)) as D3. set (di := d2 ⊕ b) in *. assert (Bdi : 159 / 100 * (y * y) <= - di <= 6 * (y * y)) by lra.
      rewrite (guard_big (dr, di) (- di)); cbn [fst snd]; [|lra|nra|pose proof e_small x X0 X1; lra].
      (* the quotient *)
      unfold cdiv, cinv. cbn [fst snd]. rewrite !a_opp. pose proof (a_norm dr di) as NN. set (nn := @rsqr R (op A) dr ⊕ @rsqr R (op A) di) in *.
      set (w1 := dr ⊘ nn). pose proof (a_addneg 0 (- p) ltac:(lra)) as NU. set (nu := 0 ⊕ - p) in *.
      assert (DR : dr * dr <= 1 / 4 * ((y * y) * (y * y))). { apply Rabs_le_between in Edr. clear - Edr Y2. nra. }
      set (Y := y * y) in *. set (dn := - di) in *. assert (Nn : nn <= 105 / 100 * (dr * dr + dn * dn)) by (unfold dn; nra). assert (Np : 0 < nn) by (assert (0 < di * di) by (clear - Bdi Y2; unfold dn in *; nra); assert (0 <= dr * dr) by (clear; nra); lra).
      assert (Q : 157 / 1000 * (x * x) <= dn / nn).
      { apply (Rmult_le_reg_r (nn * Y)); [nra|]. replace (dn / nn * (nn * Y)) with (dn * Y) by (field; lra). replace (157 / 1000 * (x * x) * (nn * Y)) with (157 / 1000 * nn * ((x * y) * (x * y))) by (unfold Y; ring). rewrite XY.
        assert (Nn2 : nn <= 105 / 100 * (1 / 4 * (Y * Y) + dn * dn)) by lra. nra. }
      assert (X2 : 0 < x * x) by (apply Rmult_lt_0_compat; exact Hx). assert (X3 : 0 < x * (x * x)) by (apply Rmult_lt_0_compat; [exact Hx|exact X2]). pose proof (a_div dn nn ltac:(lra) ltac:(lra)) as W. set (w2 := dn ⊘ nn) in *.
      unfold cmul, rsub. cbn [fst snd]. rewrite a_0m. assert (NW : nu * w2 <= - (12 / 100) * (x * (x * x))) by (assert (N1 : nu <= - (792 / 1000) * x) by lra; assert (N2 : 155 / 1000 * (x * x) <= w2) by lra; clear - N1 N2 X2 Hx X3; nra).
      pose proof (a_mulneg nu w2 ltac:(lra)) as F1. set (f1 := nu ⊗ w2) in *. pose proof (a_addneg f1 0 ltac:(lra)) as F2. rewrite Rabs_left1 by lra. lra.
    Qed.
  End Ghost.
End A.
