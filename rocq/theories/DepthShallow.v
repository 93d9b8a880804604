(** A recurrence started far below the argument: pena_D1_n with few orders requested (C101). *)
From Coq Require Import Reals ZArith Lra Lia Bool List Arith.
From Coquelicot Require Import Coquelicot.
From Verif Require Import Ops ROps Spec CLemmas CTrig ComplexDiff ModelSpecial ModelMie PenaProofs
  BesselSpec BesselTrue BesselMinimal StackSpec ConvergeSpec BesselLimits.
Import ListNotations.
Open Scope R_scope.

Section Shallow.
  Variables (e z : R).
  Hypothesis He : 0 < e <= 1.
  Hypothesis Hz : 1000 <= z.
  Hypothesis Hez : e * z <= 1.
  Notation D N n := (gD1 e N (RtoC z) n).
  Let Hm : e <= Cmod (RtoC z). Proof. rewrite Cmod_R, Rabs_pos_eq; lra. Qed.
  Let zC : RtoC z <> RtoC 0. Proof. apply RtoC_neq. lra. Qed.
  Lemma step_real N n d : (S n <= N)%nat -> D N (S n) = RtoC d -> e <= Rabs (d + INR (S n) / z) -> D N n = RtoC (INR (S n) / z - 1 / (d + INR (S n) / z)).
  Proof.
    intros Hn Hd Hg. assert (E : (RtoC d + Cn (S n) / RtoC z)%C = RtoC (d + INR (S n) / z)) by (rewrite RtoC_plus, RtoC_div by lra; reflexivity).
    assert (Hnz : d + INR (S n) / z <> 0) by (intros Q; rewrite Q, Rabs_R0 in Hg; lra).
    rewrite (gD1_step e N (RtoC z) Hm n Hn); rewrite Hd, E.
    - rewrite RtoC_minus, !RtoC_div by (assumption || lra). reflexivity.
    - unfold no_guard. now rewrite Cmod_R.
  Qed.
  Lemma two_steps N k b lo hi : (2 + k <= N)%nat -> (k <= 14)%nat -> D N (2 + k) = RtoC (b / z) -> 0 <= lo <= b -> b <= hi <= 140 ->
    exists b', D N k = RtoC (b' / z) /\ lo + 2 * INR k + 3 <= b' <= hi + 2 * INR k + 4.
  Proof.
    intros HN Hk HD Hlo Hhi. assert (K : 0 <= INR k <= 14) by (split; [apply pos_INR|replace 14 with (INR 14) by (cbn; ring); now apply le_INR]).
    set (s := b + INR k + 2). assert (Hs : 2 <= s <= 156) by (unfold s; lra).
    assert (E1 : b / z + INR (S (S k)) / z = s / z) by (unfold s; rewrite !S_INR; field; lra).
    assert (D1 : D N (S k) = RtoC ((INR k + 2) / z - z / s)).
    { rewrite (step_real N (S k) (b / z)); [|lia|exact HD|].
      - f_equal. rewrite E1, !S_INR. field. lra.
      - rewrite E1. assert (e <= 1 / z).
        { apply (Rmult_le_reg_r z); [lra|]. unfold Rdiv. rewrite Rmult_assoc, Rinv_l by lra. lra. }
        assert (1 / z <= s / z). { unfold Rdiv. apply Rmult_le_compat_r; [|lra]. left. apply Rinv_0_lt_compat. lra. }
        rewrite Rabs_pos_eq; [lra|]. apply Rle_trans with (1 / z); [|assumption]. left. apply Rdiv_lt_0_compat; lra. }
    set (c := 2 * INR k + 3). assert (Hc : 3 <= c <= 31) by (unfold c; lra).
    assert (Z2 : 1000000 <= z * z) by nra.
    assert (W : 0 < z * z - c * s) by nra.
    assert (E2 : (INR k + 2) / z - z / s + INR (S k) / z = - ((z * z - c * s) / (s * z))) by (unfold c; rewrite S_INR; field; lra).
    assert (P : 1 <= (z * z - c * s) / (s * z)).
    { apply (Rmult_le_reg_r (s * z)); [nra|]. unfold Rdiv. rewrite Rmult_assoc, Rinv_l by nra. nra. }
    exists (INR k + 1 + s * (z * z) / (z * z - c * s)). split.
    - rewrite (step_real N k _ ltac:(lia) D1).
      + f_equal. rewrite E2, S_INR. field. split; [|split]; lra.
      + rewrite E2, Rabs_Ropp, Rabs_pos_eq; lra.
    - set (q := s * (z * z) / (z * z - c * s)). assert (Eq : q * (z * z - c * s) = s * (z * z)) by (unfold q; field; lra).
      assert (s <= q) by (apply (Rmult_le_reg_r (z * z - c * s)); [exact W|]; rewrite Eq; nra).
      assert (c * s * (s + 1) <= z * z) by nra.
      assert (q <= s + 1) by (apply (Rmult_le_reg_r (z * z - c * s)); [exact W|]; rewrite Eq; nra).
      unfold s in *. lra.
  Qed.
  Lemma shallow : exists d1, D 16 1 = RtoC d1 /\ 2 / z - z / 135 <= d1 <= 2 / z - z / 142 /\ D 16 0 = RtoC (1 / z - 1 / (d1 + 1 / z)).
  Proof.
    assert (T : D 16 16 = RtoC (0 / z)) by (rewrite gD1_top; f_equal; field; lra).
    destruct (two_steps 16 14 0 0 0 ltac:(lia) ltac:(lia) T ltac:(lra) ltac:(lra)) as (b1 & T1 & B1). replace (INR 14) with 14 in B1 by (cbn; ring).
    destruct (two_steps 16 12 b1 31 32 ltac:(lia) ltac:(lia) T1 ltac:(lra) ltac:(lra)) as (b2 & T2 & B2). replace (INR 12) with 12 in B2 by (cbn; ring).
    destruct (two_steps 16 10 b2 58 60 ltac:(lia) ltac:(lia) T2 ltac:(lra) ltac:(lra)) as (b3 & T3 & B3). replace (INR 10) with 10 in B3 by (cbn; ring).
    destruct (two_steps 16 8 b3 81 84 ltac:(lia) ltac:(lia) T3 ltac:(lra) ltac:(lra)) as (b4 & T4 & B4). replace (INR 8) with 8 in B4 by (cbn; ring).
    destruct (two_steps 16 6 b4 100 104 ltac:(lia) ltac:(lia) T4 ltac:(lra) ltac:(lra)) as (b5 & T5 & B5). replace (INR 6) with 6 in B5 by (cbn; ring).
    destruct (two_steps 16 4 b5 115 120 ltac:(lia) ltac:(lia) T5 ltac:(lra) ltac:(lra)) as (b6 & T6 & B6). replace (INR 4) with 4 in B6 by (cbn; ring).
    destruct (two_steps 16 2 b6 126 132 ltac:(lia) ltac:(lia) T6 ltac:(lra) ltac:(lra)) as (b7 & T7 & B7). replace (INR 2) with 2 in B7 by (cbn; ring).
    assert (E1 : b7 / z + INR 2 / z = (b7 + 2) / z) by (cbn; field; lra).
    assert (Iz : 0 < / z <= / 1000) by (split; [apply Rinv_0_lt_compat|apply Rinv_le_contravar]; lra).
    assert (Be : e <= / z). { apply (Rmult_le_reg_r z); [lra|]. rewrite Rinv_l by lra. lra. }
    assert (G1 : e <= Rabs ((b7 + 2) / z)) by (unfold Rdiv; rewrite Rabs_pos_eq; nra).
    assert (D1 : D 16 1 = RtoC (2 / z - z / (b7 + 2))).
    { rewrite (step_real 16 1 (b7 / z) ltac:(lia) T7) by (rewrite E1; exact G1). rewrite E1. f_equal. cbn. field. lra. }
    exists (2 / z - z / (b7 + 2)). split; [exact D1|].
    assert (I1 : / 142 <= / (b7 + 2) <= / 135) by (split; apply Rinv_le_contravar; lra).
    assert (I2 : z * / 142 <= z * / (b7 + 2) <= z * / 135) by (split; apply Rmult_le_compat_l; lra).
    split; [unfold Rdiv; lra|].
    assert (S1 : 2 / z - z / (b7 + 2) + 1 / z <= - 1).
    { unfold Rdiv. lra. }
    rewrite (step_real 16 0 _ ltac:(lia) D1); replace (INR 1) with 1 by (cbn; ring); [reflexivity|]. rewrite Rabs_left1 by lra. lra.
  Qed.
End Shallow.
