(** The default depth with the automatic number of orders (C101). *)
From Coq Require Import Reals ZArith Lra Lia Bool List String Arith.
From Coquelicot Require Import Coquelicot.
From Verif Require Import Ops ROps Tensor Spec CLemmas CTrig ComplexDiff ModelSpecial ModelMie ModelBatch BroadcastSpec BroadcastProofs BatchReal TruncProofs TruncReal PenaProofs
  BesselSpec BesselTrue BesselMinimal StackSpec ConvergeSpec BesselLimits StackProofs StackConverge BesselFinal DepthSpec DepthProofs.
Import ListNotations.
Open Scope R_scope.

Lemma INR23 n : INR (2 * n + 3) = 2 * INR n + 3.
Proof. rewrite plus_INR, mult_INR. cbn. ring. Qed.
Lemma de_pos m n d : 0 < m <= INR n -> 0 <= depth_error m n d.
Proof.
  revert n. induction d as [|d IH]; intros n H; cbn [depth_error].
  - assert (0 < INR (S n)) by (apply lt_0_INR; lia). assert (0 < m / INR (S n)) by (apply Rdiv_lt_0_compat; lra). lra.
  - apply Rmult_le_pos; [apply pow2_ge_0|]. apply IH. rewrite S_INR. lra.
Qed.
Lemma de_step m n d : 0 < m <= INR n -> depth_error m n (S d) <= depth_error m (S n) d.
Proof.
  intros H. cbn [depth_error]. pose proof (de_pos m (S n) d ltac:(rewrite S_INR; lra)) as P. rewrite INR23.
  assert (0 <= m / (2 * INR n + 3 - m) <= 1).
  { split; [left; apply Rdiv_lt_0_compat; lra|]. apply (Rmult_le_reg_r (2 * INR n + 3 - m)); [lra|]. unfold Rdiv. rewrite Rmult_assoc, Rinv_l by lra. lra. }
  assert (0 <= (m / (2 * INR n + 3 - m)) ^ 2 <= 1) by (cbn [pow]; nra). nra.
Qed.
Lemma de_mono m n k d : 0 < m <= INR n -> depth_error m n (k + d) <= depth_error m (n + k) d.
Proof.
  revert n. induction k as [|k IH]; intros n H; [rewrite Nat.add_0_r; apply Rle_refl|]. cbn [Nat.add].
  eapply Rle_trans; [now apply de_step|]. replace (n + S k)%nat with (S n + k)%nat by lia. apply IH. rewrite S_INR. lra.
Qed.
Lemma de_closed m n d c : 0 < m -> 0 <= c -> m + c <= INR n -> depth_error m n d <= 2 * (m / (m + c + INR d + 1)) * (m / (m + 2 * c + 3)) ^ (2 * d).
Proof.
  intros Hm. revert n c. induction d as [|d IH]; intros n c Hc H; cbn [depth_error].
  - change (INR 0) with 0. cbn [Nat.mul pow]. rewrite Rmult_1_r. assert (0 < m + c + 0 + 1) by lra. apply Rmult_le_compat_l; [lra|]. unfold Rdiv. apply Rmult_le_compat_l; [lra|]. apply Rinv_le_contravar; [lra|]. rewrite S_INR. lra.
  - pose proof (IH (S n) (c + 1) ltac:(lra) ltac:(rewrite S_INR; lra)) as I. rewrite INR23.
    assert (G : forall a b, 0 < a <= b -> 0 <= m / b <= m / a).
    { intros a b Hab. split; [left; apply Rdiv_lt_0_compat; lra|]. unfold Rdiv. apply Rmult_le_compat_l; [lra|]. apply Rinv_le_contravar; lra. }
    pose proof (G (m + 2 * c + 3) (2 * INR n + 3 - m) ltac:(lra)) as A. pose proof (G (m + 2 * c + 3) (m + 2 * (c + 1) + 3) ltac:(lra)) as B.
    set (q := m / (m + 2 * c + 3)) in *. set (q' := m / (m + 2 * (c + 1) + 3)) in *. set (f := m / (2 * INR n + 3 - m)) in *.
    replace (m + (c + 1) + INR d + 1) with (m + c + INR (S d) + 1) in I by (rewrite S_INR; ring).
    set (w := m / (m + c + INR (S d) + 1)) in *. assert (Hw : 0 <= w) by (unfold w; left; apply Rdiv_lt_0_compat; [lra|]; pose proof (pos_INR (S d)); lra).
    assert (Hp : 0 <= q' ^ (2 * d) <= q ^ (2 * d)) by (split; [apply pow_le; lra|apply pow_incr; lra]).
    replace (2 * S d)%nat with (2 + 2 * d)%nat by lia. rewrite pow_add.
    assert (F2 : 0 <= f ^ 2 <= q ^ 2) by (split; [apply pow2_ge_0|apply pow_incr; lra]).
    pose proof (de_pos m (S n) d ltac:(rewrite S_INR; lra)) as P.
    eapply Rle_trans; [apply (Rmult_le_compat (f ^ 2) (q ^ 2) _ (2 * w * q ^ (2 * d))); [lra|exact P|lra|]|right; ring].
    eapply Rle_trans; [exact I|]. apply Rmult_le_compat_l; lra.
Qed.
(** depth 15 beyond an order at least 14 above |z| *)
Lemma de_default m n n_max : 0 < m <= INR n -> (n <= n_max)%nat -> m + 14 <= INR n_max -> depth_error m n (n_max + 14 - n) <= 2 * (m / (m + 29)) ^ 29.
Proof.
  intros Hm Hn Hx. replace (n_max + 14 - n)%nat with ((n_max - n) + 14)%nat by lia. eapply Rle_trans; [now apply de_mono|]. replace (n + (n_max - n))%nat with n_max by lia.
  eapply Rle_trans; [apply (de_closed m n_max 14 14); lra|]. replace (m + 14 + INR 14 + 1) with (m + 29) by (cbn; ring). replace (m + 2 * 14 + 3) with (m + 31) by ring.
  rewrite Rmult_assoc. apply Rmult_le_compat_l; [lra|]. change (2 * 14)%nat with 28%nat. replace ((m / (m + 29)) ^ 29) with (m / (m + 29) * (m / (m + 29)) ^ 28) by apply tech_pow_Rmult.
  apply Rmult_le_compat_l; [left; apply Rdiv_lt_0_compat; lra|]. apply pow_incr. split; [left; apply Rdiv_lt_0_compat; lra|]. unfold Rdiv. apply Rmult_le_compat_l; [lra|]. apply Rinv_le_contravar; lra.
Qed.

Lemma Rpow_div_distr a b n : b <> 0 -> (a / b) ^ n = a ^ n / b ^ n.
Proof. intros Hb. unfold Rdiv. rewrite Rpow_mult_distr, pow_inv. reflexivity. Qed.
Theorem depth_rate N n (z : C) : @eps30 R ROps <= Cmod z -> (1 <= n < N)%nat -> Cmod z <= INR n ->
  true_psi n z <> RtoC 0 /\ exists d, Cderive (true_psi n) z d /\ Cmod (@D1_at R ROps eps30 N z n - d / true_psi n z)%C <= depth_error (Cmod z) n (N - 1 - n).
Proof.
  intros Hz Hn Hm. pose proof e30_le1 as H1. assert (Hnz : z <> RtoC 0) by (apply (Cmod_pos_neq (@eps30 R ROps)); [lra|exact Hz]).
  assert (Hp : true_psi n z <> RtoC 0) by now apply psi_nonzero. split; [exact Hp|]. exists (true_L1 n z * true_psi n z)%C. split; [now apply L1_derive|].
  replace (true_L1 n z * true_psi n z / true_psi n z)%C with (true_L1 n z) by (field; exact Hp).
  pose proof (D1_sharp (@eps30 R ROps) z H1 Hz (N - 1 - n) n ltac:(lia) Hm) as D. replace (n + (N - 1 - n) + 1)%nat with N in D by lia. exact D.
Qed.

Lemma outer_covered x (n : Z) : 0 <= x -> (count x + 15 <= n)%Z -> x + 14 <= IZR n.
Proof.
  intros Hx Hn. apply IZR_le in Hn. rewrite plus_IZR in Hn. unfold count in Hn. pose proof (Rround_bounds (@wiscombe_raw R ROps x)) as [B _].
  assert (x + 1 <= @wiscombe_raw R ROps x); [|lra]. rewrite wiscombe_raw_R. pose proof (Rcbrt_nonneg x). destruct (Rle_dec x 8); [lra|]. destruct (Rlt_dec x 4200); lra.
Qed.
Theorem auto_depth sj sy jr (c : @call R) o r eps K P L ef vf :
  mie_coefficients sj sy jr c = Ok o -> backend_is c "pena" -> a_n_max c = None -> inputs_of c = Ok (r, eps) -> valid (a_k0 c) r eps (a_env c) K P L ef vf ->
  (0 < P)%nat -> (0 < L)%nat -> (0 < K)%nat ->
  forall p k, (p < P)%nat -> (k < K)%nat -> let e := element (a_k0 c) r eps (a_env c) ef vf L p k in let n_max := Z.to_nat (o_n_max o) in
  forall z n, @eps30 R ROps <= Cmod z -> (Cmod z <= outer_size e \/ exists l, (l < L)%nat /\ Cmod z <= layer_size e l) -> (1 <= n <= n_max)%nat -> Cmod z <= INR n ->
  true_psi n z <> RtoC 0 /\ exists d, Cderive (true_psi n) z d /\ Cmod (@pD1 R ROps n_max 15 z n - d / true_psi n z)%C <= 2 * (Cmod z / (Cmod z + 29)) ^ 29.
Proof.
  intros Ho Hb Hn Hi Hv HP HL HK p k Hp Hk e n_max z n Hz Hs Hr Hm.
  destruct (auto_covers sj sy jr c o r eps K P L ef vf Ho Hn Hi Hv HP HL HK p k Hp Hk) as (_ & H1 & H2). destruct (H2 Hb) as (_ & C1 & C2).
  assert (HN : Cmod z + 14 <= INR n_max).
  { unfold n_max. rewrite INR_IZR_INZ, Z2Nat.id by lia. destruct Hs as [Hs|(l & Hl & Hs)].
    - pose proof (outer_covered (outer_size e) (o_n_max o) ltac:(apply Cmod_ge_0) C1). lra.
    - specialize (C2 l Hl). fold e in C2. lra. }
  destruct (depth_rate (n_max + 15) n z Hz ltac:(lia) Hm) as (Hps & d & Hd & Hb'). split; [exact Hps|]. exists d. split; [exact Hd|].
  eapply Rle_trans; [exact Hb'|]. replace (n_max + 15 - 1 - n)%nat with (n_max + 14 - n)%nat by lia. apply de_default; [|lia|exact HN]. pose proof e30_le1. lra.
Qed.
Theorem default_depth n_max n (z : C) : @eps30 R ROps <= Cmod z -> (1 <= n <= n_max)%nat -> Cmod z <= INR n -> Cmod z + 14 <= INR n_max ->
  true_psi n z <> RtoC 0 /\ exists d, Cderive (true_psi n) z d /\ Cmod (@pD1 R ROps n_max 15 z n - d / true_psi n z)%C <= 2 * (Cmod z / (Cmod z + 29)) ^ 29.
Proof.
  intros Hz Hr Hm HN. destruct (depth_rate (n_max + 15) n z Hz ltac:(lia) Hm) as (Hps & d & Hd & Hb'). split; [exact Hps|]. exists d. split; [exact Hd|].
  eapply Rle_trans; [exact Hb'|]. replace (n_max + 15 - 1 - n)%nat with (n_max + 14 - n)%nat by lia. apply de_default; [|lia|exact HN]. pose proof e30_le1. lra.
Qed.
Theorem arguments (e : R * C * list (R * C)) l : @csqrt R ROps (snd (fst e)) <> RtoC 0 ->
  let lay := @layer_of R ROps (fst (fst e)) (snd (fst e)) (nth l (snd e) (0, RtoC 0)) in let out := @layer_of R ROps (fst (fst e)) (snd (fst e)) (last (snd e) (0, RtoC 0)) in
  Cmod (fst lay * snd lay)%C = layer_size e l /\ Cmod (snd out) = outer_size e.
Proof.
  intros H lay out. split; [|reflexivity]. unfold lay, layer_of, layer_size. cbn [fst snd]. toC. f_equal. field. exact H.
Qed.
Lemma ten_bound m : 0 < m <= 10 -> 2 * (m / (m + 29)) ^ 29 <= / 10 ^ 16.
Proof.
  intros H. apply Rle_trans with (2 * (10 / 39) ^ 29).
  - apply Rmult_le_compat_l; [lra|]. apply pow_incr. split; [left; apply Rdiv_lt_0_compat; lra|]. apply (Rmult_le_reg_r (m + 29)); [lra|]. unfold Rdiv at 1. rewrite Rmult_assoc, Rinv_l by lra. lra.
  - rewrite Rpow_div_distr by lra. apply (Rmult_le_reg_r (39 ^ 29)); [apply pow_lt; lra|]. unfold Rdiv. rewrite Rmult_assoc, Rmult_assoc, Rinv_l by (apply pow_nonzero; lra).
    apply (Rmult_le_reg_l (10 ^ 16)); [apply pow_lt; lra|]. rewrite <- (Rmult_assoc _ (/ _)), Rinv_r by (apply pow_nonzero; lra). rewrite Rmult_1_r, Rmult_1_l, !pow_IZR, <- !mult_IZR. apply IZR_le. vm_compute. discriminate.
Qed.
Lemma tends_add u l k : tends u l -> tends (fun N => u (N + k)%nat) l.
Proof. intros H eps He. destruct (H eps He) as [M HM]. exists M. intros N HN. apply HM. lia. Qed.
Theorem shipped_limit tm n l0 rest : (1 <= n)%nat -> regular_stack (@eps30 R ROps) l0 rest n ->
  exists a : C, tends (fun n_max => sel tm (@pena_ab R ROps n_max 15 l0 rest n)) a /\
    (exists AB0 amps, solves tm (true_rf n) (true_rf n) l0 rest AB0 amps a (RtoC 1)) /\
    (forall AB0 amps A B, solves tm (true_rf n) (true_rf n) l0 rest AB0 amps A B -> A = (a * B)%C).
Proof.
  intros Hn H. destruct (stack_limit tm 0 n l0 rest Hn H) as (a & T & S). exists a. split; [|exact S].
  exact (tends_add (fun d => sel tm (@pena_ab R ROps 0 d l0 rest n)) a 15 T).
Qed.
