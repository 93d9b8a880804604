(** Limits of the three scalar sums, and of the vector expansion. *)
From Coq Require Import Reals ZArith Lra Lia Bool List Arith.
From Coquelicot Require Import Coquelicot.
From Verif Require Import Ops ROps Spec CLemmas CTrig ComplexDiff ModelSpecial AngularProofs BesselProofs BesselSpec BesselTrue ConvergeSpec BesselMinimal BesselLimits PlaneExp PlaneSum.
Import ListNotations.
Open Scope C_scope.

Section Lim.
  Variables (mu : R) (z : C).
  Hypothesis Hmu : (-1 <= mu <= 1)%R.
  Hypothesis Hz : z <> 0.
  Notation p n := (RtoC (pi_ mu n)).
  Notation m := (Cmod z).
  Notation q n := (Cpow_n Ci n).
  Notation J := true_j.
  Open Scope R_scope.
  Lemma Ci_mod : Cmod Ci = 1.
  Proof. unfold Cmod, Ci. cbn [fst snd]. replace (0 ^ 2 + 1 ^ 2) with 1 by ring. apply sqrt_1. Qed.
  Lemma q_mod n : Cmod (q n) = 1.
  Proof. rewrite Cpow_n_mod, Ci_mod. apply pow1. Qed.
  Lemma Cmod_n k : Cmod (RtoC (INR k)) = INR k. Proof. rewrite Cmod_R. apply Rabs_pos_eq, pos_INR. Qed.
  Lemma p_mod n : Cmod (p n) <= INR n * (INR n + 1) / 2.
  Proof. rewrite Cmod_R. now apply pi_bound. Qed.
  Lemma c2_mod n : Cmod (RtoC (INR n) + 1 + 1)%C = INR n + 2.
  Proof. rewrite <- !RtoC_plus, Cmod_R, Rabs_pos_eq by (pose proof (pos_INR n); lra). ring. Qed.
  Lemma tpow_le t k : 0 <= t <= 1 -> 0 <= t ^ k <= 1.
  Proof. intros Ht. split; [apply pow_le; lra|]. rewrite <- (pow1 k). apply pow_incr. lra. Qed.
  Lemma mp' : 0 < m. Proof. now apply Cmod_gt_0. Qed.
  (* the defect of the differential equation, times z *)
  Lemma Ab_bound N t : (1 <= N)%nat -> 0 < t <= 1 -> Cmod (z * Ab mu (RtoC t * z) N)%C <= ee z N + ee z (S N).
  Proof.
    intros HN Ht. pose proof mp' as Hm. pose proof (ray_nz z Hz t (proj1 Ht)) as Hw. set (w := (RtoC t * z)%C) in *.
    pose proof (j_pow z Hz N t Ht) as B0. pose proof (j_pow z Hz (S N) t Ht) as B1. fold w in B0, B1.
    assert (Ew : Cmod w = t * m) by (unfold w; rewrite Cmod_mult, Cmod_R, Rabs_pos_eq; lra).
    pose proof (bb_pos z N) as P0. pose proof (bb_pos z (S N)) as P1. pose proof (pos_INR N) as HI.
    assert (K : forall n (c : R), (1 <= n)%nat -> 0 <= c -> Cmod (J n w) <= bb z n * (t * m) ^ n -> m * (c * (Cmod (J n w) / (t * m))) <= c * (bb z n * m ^ n)).
    { intros n c0 Hn Hc HB. destruct n as [|n]; [lia|]. pose proof (bb_pos z (S n)) as P. assert (Hpm : 0 < m ^ n) by now apply pow_lt.
      apply Rle_trans with (m * (c0 * (bb z (S n) * (t * m) ^ S n / (t * m)))).
      - apply Rmult_le_compat_l; [lra|]. apply Rmult_le_compat_l; [exact Hc|]. unfold Rdiv. apply Rmult_le_compat_r; [left; apply Rinv_0_lt_compat; nra|exact HB].
      - replace (m * (c0 * (bb z (S n) * (t * m) ^ S n / (t * m)))) with (c0 * (bb z (S n) * m ^ S n) * t ^ n) by (rewrite Rpow_mult_distr; cbn [pow]; field; lra).
        pose proof (tpow_le t n ltac:(lra)). assert (0 <= c0 * (bb z (S n) * m ^ S n)) by (cbn [pow]; apply Rmult_le_pos; [exact Hc|]; apply Rmult_le_pos; [lra|]; apply Rmult_le_pos; lra). nra. }
    unfold Ab. rewrite Cmult_plus_distr_l. eapply Rle_trans; [apply Cmod_triangle|]. apply Rplus_le_compat.
    - rewrite Cmod_mult, Cmod_opp, !Cmod_mult, q_mod, Cmod_n, Rmult_1_l. rewrite (Cmod_div (J N w) w Hw), Ew.
      pose proof (p_mod (S N)) as Hp. rewrite S_INR in Hp. pose proof (Cmod_ge_0 (p (S N))) as Hp0.
      apply Rle_trans with (INR N * Cmod (p (S N)) * (bb z N * m ^ N)); [apply (K N); [exact HN|nra|exact B0]|].
      unfold ee. apply Rmult_le_compat_r; [apply Rmult_le_pos; [lra|apply pow_le; lra]|]. cbn [pow].
      apply Rle_trans with (INR N * ((INR N + 1) * (INR N + 1 + 1) / 2)); [apply Rmult_le_compat_l; lra|]. nra.
    - rewrite !Cmod_mult, Ci_mod, q_mod, !Rmult_1_l, c2_mod. rewrite (Cmod_div (J (S N) w) w Hw), Ew.
      pose proof (p_mod N) as Hp. pose proof (Cmod_ge_0 (p N)) as Hp0.
      apply Rle_trans with (Cmod (p N) * (INR N + 2) * (bb z (S N) * m ^ S N)); [apply (K (S N)); [lia|nra|exact B1]|].
      unfold ee. apply Rmult_le_compat_r; [apply Rmult_le_pos; [lra|apply pow_le; lra]|]. rewrite S_INR. cbn [pow].
      apply Rle_trans with ((INR N * (INR N + 1) / 2) * (INR N + 2)); [apply Rmult_le_compat_r; lra|]. nra.
  Qed.
  (* e^(-i mu w) along the ray *)
  Definition ex (w : C) : C := Cexp (- Ci * RtoC mu * w)%C.
  Lemma ex_derive (w : C) : Cderive ex w (- Ci * RtoC mu * ex w)%C.
  Proof.
    unfold ex. eapply Cderive_val; [|apply (Cderive_comp Cexp (fun w => - Ci * RtoC mu * w)%C); [apply Cderive_exp|apply (Cderive_scal (- Ci * RtoC mu)%C (fun w => w)), Cderive_id]].
    cbv beta. match goal with |- ?a = ?b => change (@eq C a b) end. ring.
  Qed.
  Lemma Cexp_mod (w : C) : Cmod (Cexp w) <= exp (Cmod w).
  Proof.
    assert (E : Cmod (Cexp w) = exp (fst w)).
    { unfold Cexp, Cmod. cbn [fst snd]. replace ((exp (fst w) * cos (snd w)) ^ 2 + (exp (fst w) * sin (snd w)) ^ 2) with (Rsqr (exp (fst w)) * (Rsqr (sin (snd w)) + Rsqr (cos (snd w)))) by (unfold Rsqr; ring).
      rewrite sin2_cos2, Rmult_1_r, sqrt_Rsqr; [reflexivity|]. left. apply exp_pos. }
    rewrite E. pose proof (fst_le w) as H. pose proof (Rle_abs (fst w)).
    destruct (Req_dec (fst w) (Cmod w)) as [->|]; [lra|]. left. apply exp_increasing. lra.
  Qed.
  Definition XM : R := exp m.
  Lemma ex_bound t : 0 <= t <= 1 -> Cmod (ex (RtoC t * z)%C) <= XM.
  Proof.
    intros Ht. unfold ex, XM. eapply Rle_trans; [apply Cexp_mod|].
    assert (Cmod (- Ci * RtoC mu * (RtoC t * z))%C <= m).
    { rewrite !Cmod_mult, Cmod_opp, Ci_mod, !Cmod_R, (Rabs_pos_eq t) by lra. pose proof mp'. assert (0 <= Rabs mu <= 1) by (split; [apply Rabs_pos|apply Rabs_le; lra]). assert (Rabs mu * t <= 1) by nra. rewrite Rmult_1_l, <- Rmult_assoc. nra. }
    destruct (Req_dec (Cmod (- Ci * RtoC mu * (RtoC t * z))%C) m) as [->|]; [lra|]. left. apply exp_increasing. lra.
  Qed.
  Lemma XM_pos : 0 < XM. Proof. apply exp_pos. Qed.
  Definition phi_ N (w : C) : C := (Gs mu N w * ex w)%C.
  Lemma phi_derive N (w : C) : w <> 0%C -> Cderive (phi_ N) w (Ab mu w N * ex w)%C.
  Proof.
    intros Hw. unfold phi_. eapply Cderive_val; [|apply Cderive_mult; [apply (Gs_derive mu N w Hw)|apply ex_derive]].
    rewrite (Gs_ode mu N w Hw). ring.
  Qed.
  Lemma phi_step N a : (1 <= N)%nat -> 0 < a <= 1 -> Cmod (phi_ N z - phi_ N (RtoC a * z))%C <= 2 * (XM * (ee z N + ee z (S N))).
  Proof.
    intros HN Ha. pose proof (ee_pos z N Hz). pose proof (ee_pos z (S N) Hz). pose proof XM_pos.
    set (K := (ee z N + ee z (S N)) * XM). assert (HK : 0 < K) by (unfold K; nra).
    replace z with (RtoC 1 * z)%C at 1 by ring.
    eapply Rle_trans; [apply (ray_pow (phi_ N) (fun w => Ab mu w N * ex w)%C z K a 1 0)|].
    - lra.
    - intros s Hs. apply phi_derive, ray_nz; [exact Hz|lra].
    - intros s Hs. rewrite pow_O, Rmult_1_r, Cmult_assoc, Cmod_mult. unfold K.
      apply Rmult_le_compat; [apply Cmod_ge_0|apply Cmod_ge_0|apply Ab_bound; [exact HN|lra]|apply ex_bound; lra].
    - cbn [pow]. replace (INR 1) with 1 by reflexivity. unfold K in *. unfold Rdiv. rewrite Rinv_1. nra.
  Qed.
  (** behaviour at the origin *)
  Lemma cos_near s : 0 <= s <= 1 -> Cmod (Ccos (RtoC s * z) - 1)%C <= 2 * (m * cM z) * s.
  Proof.
    intros Hs. assert (Q : Cmod (Ccos (RtoC s * z) - Ccos (RtoC 0 * z))%C <= 2 * (m * cM z * (s ^ 1 - 0 ^ 1) / INR 1)).
    { apply (ray_pow Ccos (fun w => - Csin w)%C); [lra|intros; apply Cderive_cos|]. intros s' Hs'. rewrite Cmod_mult, Cmod_opp, pow_O, Rmult_1_r.
      apply Rmult_le_compat_l; [left; apply mp'|]. apply trig_bound. lra. }
    replace (RtoC 0 * z)%C with (RtoC 0) in Q by ring. replace (Ccos 0) with (RtoC 1) in Q.
    2:{ unfold Ccos. cbn. rewrite cos_0, sin_0, Ropp_0, exp_0. apply C_eq; cbn; field. }
    eapply Rle_trans; [exact Q|]. right. simpl INR. field.
  Qed.
  Lemma j0_near a : 0 < a <= 1 -> Cmod (J 0 (RtoC a * z) - 1)%C <= 2 * (m * cM z) * a.
  Proof.
    intros Ha. pose proof mp' as Hm. pose proof (ray_nz z Hz a (proj1 Ha)) as Hw.
    assert (Q : Cmod ((Csin (RtoC a * z) - RtoC a * z) - (Csin (RtoC 0 * z) - RtoC 0 * z))%C <= 2 * (m * (2 * (m * cM z)) * (a ^ 2 - 0 ^ 2) / INR 2)).
    { apply (ray_pow (fun w => Csin w - w)%C (fun w => Ccos w - 1)%C); [lra|intros; apply Cderive_minus; [apply Cderive_sin|apply Cderive_id]|].
      intros s Hs. rewrite Cmod_mult, pow_1, Rmult_assoc. apply Rmult_le_compat_l; [lra|]. apply cos_near. lra. }
    replace (RtoC 0 * z)%C with (RtoC 0) in Q by ring. rewrite Csin_0 in Q. replace (Csin (RtoC a * z) - RtoC a * z - (0 - 0))%C with (Csin (RtoC a * z) - RtoC a * z)%C in Q by ring.
    replace (J 0 (RtoC a * z)%C) with (Csin (RtoC a * z) / (RtoC a * z))%C by reflexivity.
    replace (Csin (RtoC a * z) / (RtoC a * z) - 1)%C with ((Csin (RtoC a * z) - RtoC a * z) / (RtoC a * z))%C.
    2:{ field. split; [exact Hz|apply RtoC_neq; lra]. }
    rewrite Cmod_div by exact Hw. replace (Cmod (RtoC a * z)%C) with (a * m) by (rewrite Cmod_mult, Cmod_R, Rabs_pos_eq; lra).
    apply (Rmult_le_reg_r (a * m)); [nra|]. unfold Rdiv. rewrite Rmult_assoc, Rinv_l, Rmult_1_r by nra. eapply Rle_trans; [exact Q|]. right. simpl INR. field.
  Qed.
  Lemma gk_near k : exists K, 0 < K /\ forall a, 0 < a <= 1 -> Cmod (gk mu (RtoC a * z) (S k))%C <= K * a.
  Proof.
    pose proof mp' as Hm. set (c0 := (INR k + 1 + (INR k + 1) + 1 + 1 + 1) * (Cmod (p (S (S k))) + 1)). pose proof (bb_pos z (S (S k))) as Pb. pose proof (pos_INR k).
    pose proof (Cmod_ge_0 (p (S (S k)))). assert (Hc : 0 < c0) by (unfold c0; nra). pose proof (pow_lt m (S k) Hm) as Hp.
    exists (c0 * (bb z (S (S k)) * m ^ S k)). split; [apply Rmult_lt_0_compat; [exact Hc|]; apply Rmult_lt_0_compat; assumption|]. intros a Ha.
    pose proof (ray_nz z Hz a (proj1 Ha)) as Hw. pose proof (j_pow z Hz (S (S k)) a Ha) as B.
    unfold gk. rewrite c_S, !Cmod_mult, q_mod, Rmult_1_l.
    replace (Cmod (RtoC (INR k) + 1 + (RtoC (INR k) + 1) + 1 + 1 + 1)%C) with (INR k + 1 + (INR k + 1) + 1 + 1 + 1) by (rewrite <- !RtoC_plus, Cmod_R, Rabs_pos_eq; lra).
    rewrite (Cmod_div _ _ Hw). replace (Cmod (RtoC a * z)%C) with (a * m) by (rewrite Cmod_mult, Cmod_R, Rabs_pos_eq; lra).
    assert (B' : Cmod (J (S (S k)) (RtoC a * z)%C) / (a * m) <= bb z (S (S k)) * m ^ S k * a).
    { apply (Rmult_le_reg_r (a * m)); [nra|]. unfold Rdiv. rewrite Rmult_assoc, Rinv_l, Rmult_1_r by nra. eapply Rle_trans; [exact B|].
      rewrite Rpow_mult_distr. cbn [pow]. replace (bb z (S (S k)) * (a * (a * a ^ k) * (m * (m * m ^ k)))) with (bb z (S (S k)) * (m * (m * m ^ k)) * (a * a) * a ^ k) by ring.
      replace (bb z (S (S k)) * (m * m ^ k) * a * (a * m)) with (bb z (S (S k)) * (m * (m * m ^ k)) * (a * a) * 1) by ring.
      apply Rmult_le_compat_l; [|apply tpow_le; lra]. pose proof (pow_lt m k Hm) as Hk. apply Rmult_le_pos; [|nra]. apply Rmult_le_pos; [lra|]. apply Rmult_le_pos; [lra|]. apply Rmult_le_pos; lra. }
    rewrite Rmult_assoc with (r1 := c0). apply Rmult_le_compat; [nra| |unfold c0; nra|exact B'].
    apply Rdiv_le_0_compat; [apply Cmod_ge_0|nra].
  Qed.
  Lemma Gs_near N : exists K, 0 < K /\ forall a, 0 < a <= 1 -> Cmod (Gs mu (S N) (RtoC a * z) - 1)%C <= K * a.
  Proof.
    pose proof mp' as Hm. induction N as [|N (K & HK & IH)].
    - exists (2 * (m * cM z) + bb z 2 * (m * m)). pose proof (bb_pos z 2). pose proof (cM_pos z).
      assert (0 < m * cM z) by (apply Rmult_lt_0_compat; lra). assert (0 < bb z 2 * (m * m)) by (apply Rmult_lt_0_compat; nra).
      split; [lra|]. intros a Ha. unfold Gs. cbn [sum0].
      rewrite (gk_alt mu _ 0 (ray_nz z Hz a (proj1 Ha))). rewrite pi_1. cbn [Cpow_n].
      replace (0 + 1 * 1 * (J 0 (RtoC a * z) + J 2 (RtoC a * z)) - 1)%C with ((J 0 (RtoC a * z) - 1) + J 2 (RtoC a * z))%C by ring.
      eapply Rle_trans; [apply Cmod_triangle|]. rewrite Rmult_plus_distr_r. apply Rplus_le_compat; [now apply j0_near|].
      eapply Rle_trans; [apply (j_pow z Hz 2 a Ha)|]. replace ((a * m) ^ 2) with (m * m * (a * a)) by ring.
      assert (a * a <= a) by nra. replace (bb z 2 * (m * m) * a) with (bb z 2 * (m * m * a)) by ring. apply Rmult_le_compat_l; [lra|]. apply Rmult_le_compat_l; nra.
    - destruct (gk_near N) as (K' & HK' & B). exists (K + K'). split; [lra|]. intros a Ha.
      change (Gs mu (S (S N)) (RtoC a * z)%C) with (Gs mu (S N) (RtoC a * z)%C + gk mu (RtoC a * z)%C (S N))%C.
      replace (Gs mu (S N) (RtoC a * z) + gk mu (RtoC a * z) (S N) - 1)%C with (Gs mu (S N) (RtoC a * z) - 1 + gk mu (RtoC a * z) (S N))%C by ring.
      eapply Rle_trans; [apply Cmod_triangle|]. rewrite Rmult_plus_distr_r. apply Rplus_le_compat; [now apply IH|now apply B].
  Qed.
  Lemma ex_near a : 0 <= a <= 1 -> Cmod (ex (RtoC a * z) - 1)%C <= 2 * (m * XM) * a.
  Proof.
    intros Ha. assert (Q : Cmod (ex (RtoC a * z) - ex (RtoC 0 * z))%C <= 2 * (m * XM * (a ^ 1 - 0 ^ 1) / INR 1)).
    { apply (ray_pow ex (fun w => - Ci * RtoC mu * ex w)%C); [lra|intros; apply ex_derive|]. intros s Hs.
      rewrite !Cmod_mult, Cmod_opp, Ci_mod, Cmod_R, pow_O, Rmult_1_r. apply Rmult_le_compat_l; [left; apply mp'|].
      pose proof (ex_bound s ltac:(lra)). pose proof XM_pos. assert (0 <= Rabs mu <= 1) by (split; [apply Rabs_pos|apply Rabs_le; lra]). pose proof (Cmod_ge_0 (ex (RtoC s * z)%C)). nra. }
    replace (RtoC 0 * z)%C with (RtoC 0) in Q by ring. unfold ex at 2 in Q. replace (- Ci * RtoC mu * 0)%C with (RtoC 0) in Q by ring. rewrite Cexp_0 in Q.
    eapply Rle_trans; [exact Q|]. right. simpl INR. field.
  Qed.
  Lemma phi_final N : (1 <= N)%nat -> Cmod (phi_ N z - 1)%C <= 2 * (XM * (ee z N + ee z (S N))).
  Proof.
    intros HN. destruct N as [|N]; [lia|]. destruct (Gs_near N) as (K & HK & B). pose proof mp' as Hm. pose proof XM_pos as HX.
    set (L := K * XM + 2 * (m * XM)). assert (HL : 0 < L) by (unfold L; assert (0 < K * XM) by nra; assert (0 < m * XM) by nra; lra).
    apply le_epsilon. intros eps He. set (a := Rmin 1 (eps / L)).
    assert (Ha : 0 < a <= 1) by (unfold a; split; [apply Rmin_glb_lt; [lra|now apply Rdiv_lt_0_compat]|apply Rmin_l]).
    assert (HaL : L * a <= eps). { apply Rle_trans with (L * (eps / L)); [apply Rmult_le_compat_l; [lra|apply Rmin_r]|]. right. field. lra. }
    replace (phi_ (S N) z - 1)%C with ((phi_ (S N) z - phi_ (S N) (RtoC a * z)) + ((Gs mu (S N) (RtoC a * z) - 1) * ex (RtoC a * z) + (ex (RtoC a * z) - 1)))%C by (unfold phi_; ring).
    eapply Rle_trans; [apply Cmod_triangle|]. apply Rplus_le_compat; [apply phi_step; [lia|exact Ha]|].
    eapply Rle_trans; [|exact HaL]. eapply Rle_trans; [apply Cmod_triangle|]. unfold L. rewrite Rmult_plus_distr_r. apply Rplus_le_compat; [|apply ex_near; lra].
    rewrite Cmod_mult. replace (K * XM * a) with (K * a * XM) by ring. apply Rmult_le_compat; [apply Cmod_ge_0|apply Cmod_ge_0|now apply B|apply ex_bound; lra].
  Qed.
  Definition pw : C := Cexp (Ci * RtoC mu * z)%C.
  Lemma pw_ex : (pw * ex z)%C = RtoC 1.
  Proof. unfold pw, ex. rewrite <- Cexp_plus. replace (Ci * RtoC mu * z + - Ci * RtoC mu * z)%C with (RtoC 0) by ring. apply Cexp_0. Qed.
  Theorem Gs_tends : tends (fun N => Gs mu N z) pw.
  Proof.
    apply (vanish_tends _ _ (fun N => XM * (2 * (XM * (ee z N + ee z (S N)))))).
    - pose proof XM_pos. apply vanish_scal; [lra|]. apply vanish_scal; [lra|]. apply vanish_scal; [lra|]. pose proof (vanish_ee z Hz). apply vanish_plus; [assumption|now apply vanish_S].
    - intros N HN. replace (Gs mu N z - pw)%C with (pw * (phi_ N z - 1))%C.
      2:{ unfold phi_. replace (pw * (Gs mu N z * ex z - 1))%C with (Gs mu N z * (pw * ex z) - pw)%C by ring. rewrite pw_ex. ring. }
      rewrite Cmod_mult. apply Rmult_le_compat; [apply Cmod_ge_0|apply Cmod_ge_0| |now apply phi_final].
      unfold pw, XM. eapply Rle_trans; [apply Cexp_mod|]. assert (Cmod (Ci * RtoC mu * z)%C <= m).
      { rewrite !Cmod_mult, Ci_mod, Cmod_R. pose proof mp'. assert (0 <= Rabs mu <= 1) by (split; [apply Rabs_pos|apply Rabs_le; lra]). nra. }
      destruct (Req_dec (Cmod (Ci * RtoC mu * z)%C) m) as [->|]; [lra|]. left. apply exp_increasing. lra.
  Qed.
  Lemma j_at n : Cmod (J n z) <= bb z n * m ^ n.
  Proof. pose proof (j_pow z Hz n 1 ltac:(lra)) as B. rewrite Cmult_1_l, Rmult_1_l in B. exact B. Qed.
  Lemma frac_mod n : Cmod (RtoC (INR n) / (RtoC (INR n) + 1))%C <= 1 /\ Cmod ((RtoC (INR n) + 1 + 1) / (RtoC (INR n) + 1))%C <= 2.
  Proof.
    pose proof (pos_INR n). rewrite <- !RtoC_plus, <- !RtoC_div, !Cmod_R by lra. assert (0 <= INR n / (INR n + 1)) by (apply Rdiv_le_0_compat; lra). assert (0 <= (INR n + 1 + 1) / (INR n + 1)) by (apply Rdiv_le_0_compat; lra).
    rewrite !Rabs_pos_eq by assumption. split; apply (Rmult_le_reg_r (INR n + 1)); try lra; unfold Rdiv; rewrite Rmult_assoc, Rinv_l, Rmult_1_r; lra.
  Qed.
  Lemma pJ_bound a b : (b = a \/ b = S a \/ a = S b)%nat -> Cmod (p a) * Cmod (J b z) <= ee z b.
  Proof.
    intros Hab. pose proof (p_mod a) as Hp. pose proof (j_at b) as Hj. unfold ee. pose proof mp' as Hm. pose proof (bb_pos z b). pose proof (pow_lt m b Hm). pose proof (pos_INR b). pose proof (pos_INR a).
    apply Rmult_le_compat; [apply Cmod_ge_0|apply Cmod_ge_0| |exact Hj]. eapply Rle_trans; [exact Hp|]. cbn [pow].
    assert (INR a <= INR b + 1) by (rewrite <- S_INR; apply le_INR; lia). nra.
  Qed.
  Lemma TP_bound N : Cmod (TP mu z N) <= ee z N + 2 * ee z (S N).
  Proof.
    unfold TP. eapply Rle_trans; [apply Cmod_triangle|]. destruct (frac_mod N) as [F1 F2].
    rewrite !Cmod_mult, Ci_mod, q_mod, !Rmult_1_l. pose proof (pJ_bound (S N) N ltac:(auto)) as A. pose proof (pJ_bound N (S N) ltac:(auto)) as B.
    pose proof (Cmod_ge_0 (p (S N))). pose proof (Cmod_ge_0 (J N z)). pose proof (Cmod_ge_0 (p N)). pose proof (Cmod_ge_0 (J (S N) z)).
    assert (0 <= Cmod (p (S N)) * Cmod (J N z)) by nra. assert (0 <= Cmod (p N) * Cmod (J (S N) z)) by nra. apply Rplus_le_compat; nra.
  Qed.
  Lemma uu_bound N : Cmod (uu mu z N) <= ee z N.
  Proof. unfold uu. rewrite !Cmod_mult, q_mod, Rmult_1_l. apply pJ_bound. auto. Qed.
  Lemma TT_bound N : Cmod (TT mu z N) <= ee z (S N) + 3 * ee z N.
  Proof.
    unfold TT. eapply Rle_trans; [apply Cmod_triangle|]. destruct (frac_mod N) as [F1 _]. rewrite Cmod_mult.
    pose proof (uu_bound N) as A. pose proof (uu_bound (S N)) as B. pose proof (Cmod_triangle (uu mu z N) (uu mu z N)) as D.
    assert (E : Cmod (uu mu z (S N) - uu mu z N)%C <= ee z (S N) + ee z N) by (unfold Cminus; eapply Rle_trans; [apply Cmod_triangle|]; rewrite Cmod_opp; lra).
    pose proof (Cmod_ge_0 (uu mu z (S N) - uu mu z N)%C). pose proof (Cmod_ge_0 (RtoC (INR N) / (RtoC (INR N) + 1))%C). nra.
  Qed.
  Theorem xp_tends : tends (fun N => sum0 (xp mu z) N) pw.
  Proof.
    apply (tends_ev (fun N => Gs mu N z + TP mu z N)%C); [exists 0%nat; intros N _; symmetry; now apply xp_sum|].
    replace pw with (pw + 0)%C by ring. apply tends_plus; [exact Gs_tends|].
    apply (vanish_tends _ _ (fun N => ee z N + 2 * ee z (S N))).
    - pose proof (vanish_ee z Hz). apply vanish_plus; [assumption|]. apply vanish_scal; [lra|]. now apply vanish_S.
    - intros N _. replace (TP mu z N - 0)%C with (TP mu z N) by ring. apply TP_bound.
  Qed.
  Theorem xt_tends : tends (fun N => sum0 (xt mu z) N) (RtoC mu * pw)%C.
  Proof.
    apply (tends_ev (fun N => RtoC mu * Gs mu N z + TT mu z N)%C); [exists 0%nat; intros N _; symmetry; now apply xt_sum|].
    replace (RtoC mu * pw)%C with (RtoC mu * pw + 0)%C by ring. apply tends_plus; [apply tends_mult; [apply tends_const|exact Gs_tends]|].
    apply (vanish_tends _ _ (fun N => ee z (S N) + 3 * ee z N)).
    - pose proof (vanish_ee z Hz). apply vanish_plus; [now apply vanish_S|]. apply vanish_scal; [lra|assumption].
    - intros N _. replace (TT mu z N - 0)%C with (TT mu z N) by ring. apply TT_bound.
  Qed.
End Lim.
