(** Convergence of the Pena log-derivative recurrences to the true functions (C17). *)
From Coq Require Import Reals ZArith Lra Lia Bool List Arith.
From Coquelicot Require Import Coquelicot.
From Verif Require Import Ops ROps Spec CLemmas CTrig ComplexDiff ModelSpecial ModelMie PenaProofs
  BesselSpec BesselTrue BesselMinimal StackSpec ConvergeSpec.
Open Scope C_scope.
Arguments Cmod x%C_scope.

(** ** limits *)
Definition ev (P : nat -> Prop) : Prop := exists M, forall N, (M <= N)%nat -> P N.
Lemma ev_and P Q : ev P -> ev Q -> ev (fun N => P N /\ Q N).
Proof. intros [M1 H1] [M2 H2]. exists (Nat.max M1 M2). intros N HN. split; [apply H1|apply H2]; lia. Qed.
Lemma ev_mono (P Q : nat -> Prop) : (forall N, P N -> Q N) -> ev P -> ev Q.
Proof. intros H [M HM]. exists M. auto. Qed.
Lemma ev_ge n : ev (fun N => (n <= N)%nat). Proof. exists n. auto. Qed.
Lemma ev_all (n : nat) (P : nat -> nat -> Prop) :
  (forall j, (1 <= j <= n)%nat -> ev (P j)) -> ev (fun N => forall j, (1 <= j <= n)%nat -> P j N).
Proof.
  induction n as [|n IH]; intros H; [exists 0%nat; intros; lia|].
  destruct (ev_and _ _ (IH ltac:(intros; apply H; lia)) (H (S n) ltac:(lia))) as [M HM].
  exists M. intros N HN j Hj. destruct (HM N HN) as [A B]. destruct (Nat.eq_dec j (S n)) as [->|]; [exact B|apply A; lia].
Qed.
Lemma tends_ev u v l : ev (fun N => u N = v N) -> tends u l -> tends v l.
Proof. intros [M1 H1] H eps He. destruct (H eps He) as [M2 H2]. exists (Nat.max M1 M2). intros N HN. rewrite <- H1 by lia. apply H2. lia. Qed.
Lemma tends_val u l l' : l = l' -> tends u l -> tends u l'. Proof. now intros ->. Qed.
Lemma tends_const c : tends (fun _ => c) c.
Proof. intros eps He. exists 0%nat. intros. replace (c - c) with (RtoC 0) by ring. now rewrite Cmod_0. Qed.
Lemma tends_plus (u v : nat -> C) (a b : C) : tends u a -> tends v b -> tends (fun N => u N + v N) (a + b).
Proof.
  intros Hu Hv eps He. destruct (Hu (eps / 2)%R ltac:(lra)) as [M1 H1]. destruct (Hv (eps / 2)%R ltac:(lra)) as [M2 H2].
  exists (Nat.max M1 M2). intros N HN. specialize (H1 N ltac:(lia)). specialize (H2 N ltac:(lia)).
  replace (u N + v N - (a + b)) with ((u N - a) + (v N - b)) by ring. eapply Rle_lt_trans; [apply Cmod_triangle|]. lra.
Qed.
Lemma tends_opp (u : nat -> C) (a : C) : tends u a -> tends (fun N => - u N) (- a).
Proof. intros Hu eps He. destruct (Hu eps He) as [M H]. exists M. intros N HN. replace (- u N - - a) with (- (u N - a)) by ring. rewrite Cmod_opp. auto. Qed.
Lemma tends_minus (u v : nat -> C) (a b : C) : tends u a -> tends v b -> tends (fun N => u N - v N) (a - b).
Proof. intros Hu Hv. apply (tends_plus u (fun N => - v N) a (- b) Hu). now apply tends_opp. Qed.
Lemma tends_bounded (u : nat -> C) (a : C) : tends u a -> ev (fun N => (Cmod (u N)%C < Cmod a + 1)%R).
Proof.
  intros Hu. destruct (Hu 1%R ltac:(lra)) as [M H]. exists M. intros N HN. specialize (H N HN).
  pose proof (Cmod_triangle (u N - a) a) as T. replace (u N - a + a) with (u N) in T by ring. lra.
Qed.
Lemma tends_mult (u v : nat -> C) (a b : C) : tends u a -> tends v b -> tends (fun N => u N * v N) (a * b).
Proof.
  intros Hu Hv eps He. pose proof (Cmod_ge_0 a) as Pa. pose proof (Cmod_ge_0 b) as Pb.
  set (q := (Cmod a + Cmod b + 2)%R). assert (Hq : (0 < q)%R) by (unfold q; lra).
  destruct (Hu (eps / q / 2)%R) as [M1 H1]; [repeat apply Rdiv_lt_0_compat; lra|].
  destruct (Hv (eps / q / 2)%R) as [M2 H2]; [repeat apply Rdiv_lt_0_compat; lra|].
  destruct (tends_bounded u a Hu) as [M3 H3].
  exists (Nat.max M1 (Nat.max M2 M3)). intros N HN. specialize (H1 N ltac:(lia)). specialize (H2 N ltac:(lia)). specialize (H3 N ltac:(lia)).
  replace (u N * v N - a * b) with (u N * (v N - b) + b * (u N - a)) by ring.
  eapply Rle_lt_trans; [apply Cmod_triangle|]. rewrite !Cmod_mult.
  pose proof (Cmod_ge_0 (u N)). pose proof (Cmod_ge_0 (v N - b)). pose proof (Cmod_ge_0 (u N - a)).
  set (d := (eps / q / 2)%R) in *. assert (Hd : (0 < d)%R) by (unfold d; repeat apply Rdiv_lt_0_compat; lra).
  assert (E : (eps = 2 * d * q)%R) by (unfold d; field; lra).
  apply Rle_lt_trans with ((Cmod a + 1) * d + Cmod b * d)%R; [|rewrite E; unfold q; nra].
  apply Rplus_le_compat; [|apply Rmult_le_compat_l; lra]. apply Rmult_le_compat; lra.
Qed.
Lemma tends_away u a c : tends u a -> (c < Cmod a)%R -> ev (fun N => (c < Cmod (u N)%C)%R).
Proof.
  intros Hu Hc. destruct (Hu (Cmod a - c)%R ltac:(lra)) as [M H]. exists M. intros N HN. specialize (H N HN).
  pose proof (Cmod_triangle (a - u N) (u N)) as T. replace (a - u N + u N) with a in T by ring.
  replace (a - u N) with (- (u N - a)) in T by ring. rewrite Cmod_opp in T. lra.
Qed.
Lemma tends_inv (u : nat -> C) (a : C) : a <> 0 -> tends u a -> tends (fun N => / u N) (/ a).
Proof.
  intros Ha Hu eps He. assert (Pa : (0 < Cmod a)%R) by now apply Cmod_gt_0.
  destruct (tends_away u a (Cmod a / 2)%R Hu ltac:(lra)) as [M1 H1].
  destruct (Hu (eps * (Cmod a * Cmod a / 2))%R) as [M2 H2]; [apply Rmult_lt_0_compat; [lra|nra]|].
  exists (Nat.max M1 M2). intros N HN. specialize (H1 N ltac:(lia)). specialize (H2 N ltac:(lia)).
  assert (Hu0 : u N <> 0) by (apply Cmod_gt_0; lra).
  replace (/ u N - / a) with (- (u N - a) * (/ u N * / a)) by (field; auto).
  rewrite Cmod_mult, Cmod_opp, Cmod_mult, !Cmod_inv by assumption.
  assert (B : (/ Cmod (u N)%C * / Cmod a <= / (Cmod a * Cmod a / 2))%R).
  { rewrite <- Rinv_mult by lra. apply Rinv_le_contravar; nra. }
  pose proof (Cmod_ge_0 (u N - a)).
  apply Rle_lt_trans with (Cmod (u N - a)%C * / (Cmod a * Cmod a / 2))%R; [apply Rmult_le_compat_l; lra|].
  apply (Rmult_lt_reg_r (Cmod a * Cmod a / 2)); [nra|]. rewrite Rmult_assoc, Rinv_l by nra. lra.
Qed.
Lemma tends_div (u v : nat -> C) (a b : C) : b <> 0 -> tends u a -> tends v b -> tends (fun N => u N / v N) (a / b).
Proof. intros Hb Hu Hv. apply tends_mult; [exact Hu|now apply tends_inv]. Qed.
Lemma tends_shift u l k : tends u l -> tends (fun N => u (k + N)%nat) l.
Proof. intros H eps He. destruct (H eps He) as [M HM]. exists M. intros N HN. apply HM. lia. Qed.
Lemma tends_geom (u : nat -> C) l (q c : R) M0 : (0 <= q < 1)%R -> (0 <= c)%R ->
  (forall N, (M0 <= N)%nat -> (Cmod (u N - l)%C <= c * q ^ (N - M0))%R) -> tends u l.
Proof.
  intros Hq Hc H eps He. destruct (pow_lt_1_zero q ltac:(rewrite Rabs_pos_eq; lra) (eps / (c + 1))%R) as [K HK].
  { apply Rdiv_lt_0_compat; lra. }
  exists (M0 + K)%nat. intros N HN. eapply Rle_lt_trans; [apply H; lia|].
  specialize (HK (N - M0)%nat ltac:(lia)). assert (0 <= q ^ (N - M0))%R by (apply pow_le; lra). rewrite Rabs_pos_eq in HK by assumption.
  apply Rle_lt_trans with ((c + 1) * q ^ (N - M0))%R; [nra|].
  apply Rlt_le_trans with ((c + 1) * (eps / (c + 1)))%R; [apply Rmult_lt_compat_l; lra|]. right. field. lra.
Qed.

(** ** facts about psi beyond the turning point *)
Section OneArg.
  Variables (e : R) (z : C).
  Hypothesis He : (0 < e <= 1)%R.
  Hypothesis Hz : (e <= Cmod z)%R.
  Let m := Cmod z.
  Notation D N n := (gD1 e N z n).
  Lemma zn : z <> 0. Proof. apply (Cmod_pos_neq e); lra. Qed.
  Lemma mp : (0 < m)%R. Proof. unfold m. lra. Qed.
  Definition rr n := true_psi (n - 1) z / true_psi n z.   (* psi_(n-1)/psi_n *)

  Lemma psi_id n : true_psi n z <> 0 -> true_L1 n z + Cn n / z = rr n \/ n = 0%nat.
  Proof.
    intros H. destruct n as [|n]; [now right|]. left. unfold true_L1, rr. rewrite true_psi_rec. replace (S n - 1)%nat with n by lia.
    nrm. field. split; first [exact zn|exact H].
  Qed.
  Lemma r_big n : (1 <= n)%nat -> (m <= INR n)%R -> (INR (2 * n + 1) / m - 1 <= Cmod (rr n)%C)%R.
  Proof.
    intros Hn Hm. destruct n as [|n]; [lia|]. unfold rr. replace (S n - 1)%nat with n by lia.
    pose proof (psi_nonzero z (S n) zn Hm) as H0. rewrite Cmod_div by exact H0.
    pose proof (down_step z (fun k => true_psi k z) zn (fun k => true_psi_rec k z) n (psi_minimal z (S n) zn Hm)) as B.
    cbv beta in B. fold m in B. replace (2 * S n + 1)%nat with (2 * n + 3)%nat by lia.
    assert (P : (0 < Cmod (true_psi (S n) z)%C)%R) by now apply Cmod_gt_0.
    apply (Rmult_le_reg_r (Cmod (true_psi (S n) z)%C)); [exact P|]. unfold Rdiv at 2. rewrite Rmult_assoc, Rinv_l by lra. lra.
  Qed.
  Lemma inr_coef n : (m <= INR n)%R -> (1 + / m <= INR (2 * n + 1) / m - 1)%R.
  Proof.
    intros H. pose proof mp. assert (2 + / m <= INR (2 * n + 1) / m)%R; [|lra].
    apply (Rmult_le_reg_r m); [assumption|]. unfold Rdiv. rewrite (Rmult_assoc (INR _)), Rinv_l by lra.
    replace ((2 + / m) * m)%R with (2 * m + 1)%R by (field; lra). rewrite plus_INR, mult_INR. change (INR 2) with 2%R. change (INR 1) with 1%R. lra.
  Qed.
  (* computed denominators *)
  Lemma d_big N j : (j <= N)%nat -> (1 <= N - j)%nat -> (m <= INR (N - j))%R -> (m + 1 <= INR N)%R ->
    (1 + / m <= Cmod (D N (N - j) + Cn (N - j) / z)%C)%R.
  Proof.
    intros Hj H1 Hm HN. pose proof mp as Hmp. assert (Hi : (0 < / m)%R) by now apply Rinv_0_lt_compat.
    induction j as [|j IH].
    - rewrite Nat.sub_0_r, gD1_top. replace (0 + Cn N / z) with (Cn N / z) by ring.
      rewrite Cmod_div, Cmod_R, Rabs_pos_eq by (apply pos_INR || apply zn). fold m.
      apply (Rmult_le_reg_r m); [assumption|]. unfold Rdiv. rewrite Rmult_assoc, Rinv_l by lra.
      replace ((1 + / m) * m)%R with (m + 1)%R by (field; lra). lra.
    - assert (IH' : (1 + / m <= Cmod (D N (N - j) + Cn (N - j) / z)%C)%R).
      { apply IH; [lia|lia|]. eapply Rle_trans; [exact Hm|apply le_INR; lia]. }
      set (k := (N - S j)%nat) in *. replace (N - j)%nat with (S k) in IH' by (unfold k; lia).
      rewrite (gD1_step e N z Hz k); [|unfold k; lia|unfold no_guard; lra].
      set (u := D N (S k) + Cn (S k) / z) in *.
      replace (Cn (S k) / z - 1 / u + Cn k / z) with (Cn (2 * k + 1) / z - 1 / u) by (nrm; unfold Cdiv; ring).
      pose proof (Cmod_triangle (Cn (2 * k + 1) / z - 1 / u) (1 / u)) as T.
      replace (Cn (2 * k + 1) / z - 1 / u + 1 / u) with (Cn (2 * k + 1) / z) in T by ring.
      assert (Hu : u <> 0) by (apply Cmod_gt_0; lra).
      assert (Em : Cmod (Cn (2 * k + 1) / z)%C = (INR (2 * k + 1) / m)%R) by (rewrite Cmod_div, Cmod_R, Rabs_pos_eq by (apply pos_INR || apply zn); reflexivity).
      assert (Eu : Cmod (1 / u)%C = (1 / Cmod u)%R) by (rewrite Cmod_div, Cmod_1 by exact Hu; reflexivity). rewrite Em, Eu in T.
      pose proof (inr_coef k Hm).
      assert (1 / Cmod u <= 1)%R.
      { unfold Rdiv. rewrite Rmult_1_l, <- Rinv_1. apply Rinv_le_contravar; lra. }
      lra.
  Qed.
  (* explicit error bound beyond the turning point *)
  Theorem D1_rate N n : (1 <= n < N)%nat -> (m <= INR n)%R ->
    (Cmod (D N n - true_L1 n z)%C <= 2 * (m / (m + 1)) ^ (2 * (N - 1 - n)))%R.
  Proof.
    intros Hn Hm. pose proof mp as Hmp. assert (Hi : (0 < / m)%R) by now apply Rinv_0_lt_compat.
    set (q := (m / (m + 1))%R). assert (Eq : (q = / (1 + / m))%R) by (unfold q; field; lra).
    assert (Hq : (0 < q)%R) by (unfold q; apply Rdiv_lt_0_compat; lra).
    assert (HmN : (m + 1 <= INR N)%R) by (assert (INR (S n) <= INR N)%R by (apply le_INR; lia); rewrite S_INR in *; lra).
    (* one step *)
    assert (Step : forall k, (n <= k < N)%nat ->
       D N k - true_L1 k z = 1 / rr (S k) - 1 / (D N (S k) + Cn (S k) / z)
       /\ rr (S k) <> 0 /\ (/ Cmod (rr (S k))%C <= q)%R
       /\ D N (S k) + Cn (S k) / z <> 0 /\ (/ Cmod (D N (S k) + Cn (S k) / z)%C <= q)%R).
    { intros k Hk. assert (Hmk : (m <= INR (S k))%R) by (eapply Rle_trans; [exact Hm|apply le_INR; lia]).
      pose proof (d_big N (N - S k) ltac:(lia)) as B. replace (N - (N - S k))%nat with (S k) in B by lia.
      specialize (B ltac:(lia) Hmk HmN). pose proof (r_big (S k) ltac:(lia) Hmk) as C0. pose proof (inr_coef (S k) Hmk) as C1.
      assert (Hr : rr (S k) <> 0) by (apply Cmod_gt_0; lra).
      assert (Hd : D N (S k) + Cn (S k) / z <> 0) by (apply Cmod_gt_0; lra).
      split; [|split; [exact Hr|split; [|split; [exact Hd|]]]].
      - rewrite (gD1_step e N z Hz k); [|lia|unfold no_guard; lra]. unfold true_L1.
        unfold rr in *. replace (S k - 1)%nat with k in * by lia.
        assert (true_psi k z <> 0) by (apply psi_nonzero; [apply zn|]; eapply Rle_trans; [exact Hm|apply le_INR; lia]).
        assert (true_psi (S k) z <> 0) by (apply psi_nonzero; [apply zn|exact Hmk]).
        set (u := D N (S k) + Cn (S k) / z) in *. field. repeat split; try assumption; apply zn.
      - rewrite Eq. apply Rinv_le_contravar; lra.
      - rewrite Eq. apply Rinv_le_contravar; lra. }
    assert (Hall : forall j, (S j <= N - n)%nat -> (Cmod (D N (N - 1 - j) - true_L1 (N - 1 - j) z)%C <= 2 * q ^ (2 * j))%R).
    { induction j as [|j IH]; intros Hj.
      - rewrite Nat.sub_0_r. destruct (Step (N - 1)%nat ltac:(lia)) as (E & Hr & Br & Hd & Bd). rewrite E.
        unfold Cminus. eapply Rle_trans; [apply Cmod_triangle|]. rewrite Cmod_opp, !Cmod_div, Cmod_1 by assumption.
        rewrite Nat.mul_0_r, pow_O. unfold Rdiv. rewrite !Rmult_1_l, Rmult_1_r.
        assert (q <= 1)%R; [|lra]. rewrite Eq, <- Rinv_1. apply Rinv_le_contravar; lra.
      - specialize (IH ltac:(lia)). set (k := (N - 1 - S j)%nat) in *. replace (N - 1 - j)%nat with (S k) in IH by (unfold k; lia).
        destruct (Step k ltac:(unfold k; lia)) as (E & Hr & Br & Hd & Bd). rewrite E.
        assert (Hps : true_psi (S k) z <> 0).
        { apply psi_nonzero; [apply zn|]. eapply Rle_trans; [exact Hm|apply le_INR; unfold k; lia]. }
        destruct (psi_id (S k) Hps) as [Er|?]; [|discriminate].
        set (u := D N (S k) + Cn (S k) / z) in *.
        replace (1 / rr (S k) - 1 / u) with ((u - rr (S k)) * (/ rr (S k) * / u)) by (field; auto).
        replace (u - rr (S k)) with (D N (S k) - true_L1 (S k) z) by (rewrite <- Er; unfold u; ring).
        rewrite !Cmod_mult, !Cmod_inv by assumption.
        replace (2 * q ^ (2 * S j))%R with ((2 * q ^ (2 * j)) * (q * q))%R by (replace (2 * S j)%nat with (2 * j + 2)%nat by lia; rewrite pow_add; ring).
        assert (0 < / Cmod (rr (S k))%C)%R by (apply Rinv_0_lt_compat, Cmod_gt_0, Hr).
        assert (0 < / Cmod u)%R by (apply Rinv_0_lt_compat, Cmod_gt_0, Hd).
        apply Rmult_le_compat; [apply Cmod_ge_0|nra|exact IH|nra]. }
    specialize (Hall (N - 1 - n)%nat ltac:(lia)). replace (N - 1 - (N - 1 - n))%nat with n in Hall by lia. exact Hall.
  Qed.

  Lemma D1_tends_high n : (1 <= n)%nat -> (m <= INR n)%R -> tends (fun N => D N n) (true_L1 n z).
  Proof.
    intros Hn Hm. pose proof mp. assert (Hq : (0 < m / (m + 1) < 1)%R).
    { split; [apply Rdiv_lt_0_compat; lra|]. apply (Rmult_lt_reg_r (m + 1)); [lra|]. unfold Rdiv. rewrite Rmult_assoc, Rinv_l; lra. }
    apply (tends_geom _ _ ((m / (m + 1)) ^ 2)%R 2%R (S n)).
    - split; [apply pow_le; lra|]. cbn [pow]. nra.
    - lra.
    - intros N HN. rewrite <- pow_mult. replace (N - S n)%nat with (N - 1 - n)%nat by lia. apply D1_rate; [lia|exact Hm].
  Qed.

  (* all ratios psi_(k-1)/psi_k above threshold, k > n *)
  Lemma regular_all n : regular_from e z n -> forall k, (n < k)%nat -> (e * Cmod (true_psi k z)%C < Cmod (true_psi (k - 1) z)%C)%R \/
     (e < 1)%R /\ false = true \/ ((e * Cmod (true_psi k z)%C <= Cmod (true_psi (k - 1) z)%C)%R /\ true_psi (k - 1) z <> 0 /\ (m <= INR (k - 1))%R).
  Proof.
    intros [_ H] k Hk. destruct (Rlt_dec (INR k) (m + 1)) as [Hl|Hl]; [left; now apply H|]. right. right.
    assert (Hm : (m <= INR (k - 1))%R) by (rewrite minus_INR by lia; change (INR 1) with 1%R; lra).
    pose proof (psi_minimal z (k - 1) zn Hm) as B. replace (S (k - 1)) with k in B by lia.
    pose proof (psi_nonzero z (k - 1) zn Hm) as Hnz. pose proof (Cmod_ge_0 (true_psi k z)).
    split; [nra|]. split; assumption.
  Qed.
  Lemma regular_nz n : regular_from e z n -> forall k, (n <= k)%nat -> true_psi k z <> 0.
  Proof.
    intros H k Hk. destruct (regular_all n H (S k) ltac:(lia)) as [A|[[_ A]|(_ & A & _)]].
    - replace (S k - 1)%nat with k in A by lia. intros E. rewrite E, Cmod_0 in A. pose proof (Cmod_ge_0 (true_psi (S k) z)). nra.
    - discriminate.
    - now replace (S k - 1)%nat with k in A by lia.
  Qed.
  Lemma rr_away n k : regular_from e z n -> (n < k)%nat -> (e < Cmod (rr k)%C)%R.
  Proof.
    intros H Hk. pose proof (regular_nz n H k ltac:(lia)) as Hnz.
    assert (P : (0 < Cmod (true_psi k z)%C)%R) by now apply Cmod_gt_0.
    destruct H as [_ H]. destruct (Rlt_dec (INR k) (m + 1)) as [Hl|Hl].
    - specialize (H k Hk Hl). unfold rr. rewrite Cmod_div by exact Hnz.
      apply (Rmult_lt_reg_r (Cmod (true_psi k z)%C)); [exact P|]. unfold Rdiv. rewrite Rmult_assoc, Rinv_l by lra. lra.
    - assert (Hm : (m <= INR k)%R) by lra. pose proof (r_big k ltac:(lia) Hm). pose proof (inr_coef k Hm).
      assert (0 < / m)%R by (apply Rinv_0_lt_compat, mp). lra.
  Qed.

  Theorem D1_tends n : regular_from e z n -> tends (fun N => D N n) (true_L1 n z).
  Proof.
    intros Hreg. destruct (archimed_cor1 (/ (m + 1))) as (K & HK & HKp); [apply Rinv_0_lt_compat; pose proof mp; lra|].
    assert (HKm : (m + 1 < INR K)%R).
    { assert (0 < INR K)%R by now apply lt_0_INR. pose proof mp. apply Rnot_le_lt. intros HH.
      destruct HH as [HH|HH]; [apply Rinv_lt_contravar in HH; [lra|nra]|rewrite HH in HK; lra]. }
    assert (Hdown : forall j, (n <= K + n - j)%nat -> (j <= K + n)%nat -> tends (fun N => D N (K + n - j)) (true_L1 (K + n - j) z)).
    { induction j as [|j IH]; intros Hj Hj2.
      - rewrite Nat.sub_0_r. apply D1_tends_high; [lia|]. rewrite plus_INR. pose proof (pos_INR n). lra.
      - specialize (IH ltac:(lia) ltac:(lia)). set (k := (K + n - S j)%nat) in *. replace (K + n - j)%nat with (S k) in IH by (unfold k; lia).
        pose proof (regular_nz n Hreg (S k) ltac:(lia)) as Hps. pose proof (regular_nz n Hreg k ltac:(lia)) as Hps0.
        destruct (psi_id (S k) Hps) as [Er|?]; [|discriminate].
        pose proof (rr_away n (S k) Hreg ltac:(lia)) as Ha.
        assert (T : tends (fun N => D N (S k) + Cn (S k) / z) (rr (S k))).
        { eapply tends_val; [exact Er|]. apply tends_plus; [exact IH|apply tends_const]. }
        destruct (tends_away _ _ e T Ha) as [M HM].
        apply (tends_ev (fun N => Cn (S k) / z - 1 / (D N (S k) + Cn (S k) / z))).
        { exists (Nat.max M (S k)). intros N HN. symmetry. apply gD1_step; [exact Hz|lia|]. unfold no_guard. left. apply HM. lia. }
        assert (Hr0 : rr (S k) <> 0) by (apply Cmod_gt_0; lra).
        eapply tends_val; [|apply tends_minus; [apply tends_const|apply tends_div; [exact Hr0|apply tends_const|exact T]]].
        unfold true_L1, rr in *. replace (S k - 1)%nat with k in * by lia. field. repeat split; try assumption. apply zn. }
    specialize (Hdown K ltac:(lia) ltac:(lia)). now replace (K + n - K)%nat with n in Hdown by lia.
  Qed.
End OneArg.
(* the limit is the logarithmic derivative of psi_n *)
Lemma L1_derive n (z : C) : z <> 0 -> true_psi n z <> 0 -> Cderive (true_psi n) z (true_L1 n z * true_psi n z).
Proof.
  intros Hz Hp. destruct n as [|n].
  - eapply Cderive_val; [|apply d_times_z, Cderive_true_j0, Hz]. unfold true_L1, true_psi in *. change (INR 1) with 1%R. field. split; [|exact Hz].
    intros E. apply Hp. rewrite E. ring.
  - eapply Cderive_val; [|apply Cderive_true_psi; [exact Hz|lia]]. unfold true_dpsi, true_L1. rewrite true_psi_rec. replace (S n - 1)%nat with n by lia.
    nrm. field. split; assumption.
Qed.
