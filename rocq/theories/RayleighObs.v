(** Small layered particles: cross sections and polarisabilities. *)
From Coq Require Import Reals ZArith Lra Lia Bool List Arith.
From Coquelicot Require Import Coquelicot.
From Verif Require Import Ops ROps Spec StackSpec CLemmas CTrig BesselSpec ModelSpecial ModelMie FarFieldProofs ModelNear NearSpec MaxwellSpec NearLimitSpec TgSpec
  RayleighSpec RayleighBase RayleighRadial RayleighStack RayleighEnd.
Import ListNotations.
Open Scope R_scope.

Section Particle.
  Variables (l0 : C * C) (rest : list (C * C)).
  Hypothesis Hst : nonzero_stack (l0 :: rest).
  Notation L := (length rest).
  Notation sol n t As := (near_solution n (scaled t l0) (map (scaled t) rest) As).
  Notation out As := (nth (S L) As amp0).
  Lemma all_small N (P : nat -> nat -> C * C) : (forall n, (1 <= n <= N)%nat -> static_solution n l0 rest (P n)) ->
    exists K d, 0 <= K /\ 0 < d <= 1 /\ forall n t As, (1 <= n <= N)%nat -> 0 < t < d -> sol n t As ->
      Cmod (na (out As) - RtoC (t ^ (2 * n + 1)) * (leading n * induced rest (P n)))%C <= K * t ^ (2 * n + 3) /\ Cmod (nb (out As)) <= K * t ^ (2 * n + 3).
  Proof.
    induction N as [|N IH]; intros HP; [exists 0, 1; split; [lra|]; split; [lra|]; intros; lia|].
    destruct IH as (K & d & HK & Hd & H); [intros n Hn; apply HP; lia|].
    destruct (rayleigh_coefficients (S N) l0 rest (P (S N)) ltac:(lia) Hst (HP (S N) ltac:(lia))) as (K' & d' & Hd' & H').
    exists (K + Rabs K'), (Rmin d d'). pose proof (Rabs_pos K') as A. pose proof (Rle_abs K') as A'. split; [lra|]. split; [split; [apply Rmin_glb_lt; lra|eapply Rle_trans; [apply Rmin_l|lra]]|].
    intros n t As Hn Ht HS. pose proof (Rmin_l d d') as M1. pose proof (Rmin_r d d') as M2. assert (T : 0 < t ^ (2 * n + 3)) by (apply pow_lt; lra).
    destruct (Nat.eq_dec n (S N)) as [E|E]; [subst n; destruct (H' t As ltac:(lra) HS) as [B1 B2]|destruct (H n t As ltac:(lia) ltac:(lra) HS) as [B1 B2]]; split; (eapply Rle_trans; [eassumption|apply Rmult_le_compat_r; lra]).
  Qed.
End Particle.

Lemma pow_dec2 (t : R) m n : 0 < t < 1 -> (m <= n)%nat -> t ^ n <= t ^ m.
Proof.
  intros Ht Hn. replace n with (m + (n - m))%nat by lia. rewrite pow_add. assert (A : 0 < t ^ m) by (apply pow_lt; lra). assert (Q : t ^ (n - m) <= 1 ^ (n - m)) by (apply pow_incr; lra). rewrite pow1 in Q.
  rewrite <- (Rmult_1_r (t ^ m)) at 2. apply Rmult_le_compat_l; lra.
Qed.
  Definition pf n : R := 2 * PI * (2 * INR n + 1).
  Lemma pf_pos n : 0 < pf n. Proof. unfold pf. pose proof PI_RGT_0. pose proof (pos_INR n). apply Rmult_lt_0_compat; lra. Qed.
Section Bounds.
  Variables (t : R) (a b : nat -> C).
  Hypothesis Ht : 0 < t < 1.
  Notation ext := (@cs_ext_multipole R ROps (RtoC t) a b). Notation sca := (@cs_sca_multipole R ROps (RtoC t) a b).
  Lemma small_mp s n M : 0 <= M -> Cmod (coefR a b s n) <= M * t ^ 5 -> Rabs (ext s n) <= pf n * M * t ^ 3 /\ Rabs (sca s n) <= pf n * (M * M) * t ^ 6.
  Proof.
    intros HM HB. rewrite cs_ext_mp_real, cs_sca_mp_real by lra. set (c := coefR a b s n) in *. pose proof (pf_pos n) as PP. assert (T0 : t <> 0) by lra. pose proof (Cmod_ge_0 c) as C0.
    assert (F : Rabs (fst c) <= Cmod c) by (pose proof (Rmax_Cmod c); pose proof (Rmax_l (Rabs (fst c)) (Rabs (snd c))); lra).
    assert (I2 : 0 < / (t * t)) by (apply Rinv_0_lt_compat; nra). split.
    - replace (2 * PI / (t * t) * (2 * INR n + 1) * fst c) with (pf n * / (t * t) * fst c) by (unfold pf; field; exact T0). rewrite Rabs_mult, Rabs_pos_eq by (apply Rmult_le_pos; lra).
      replace (pf n * M * t ^ 3) with (pf n * / (t * t) * (M * t ^ 5)) by (field; exact T0). apply Rmult_le_compat_l; [apply Rmult_le_pos; lra|lra].
    - replace (2 * PI / (t * t) * (2 * INR n + 1) * (Cmod c)²) with (pf n * / (t * t) * (Cmod c * Cmod c)) by (unfold pf, Rsqr; field; exact T0). rewrite Rabs_pos_eq by (apply Rmult_le_pos; [apply Rmult_le_pos; lra|nra]).
      assert (T8 : t ^ 8 <= t ^ 6) by (apply pow_dec2; lra || lia).
      apply Rle_trans with (pf n * (M * M) * t ^ 8); [|apply Rmult_le_compat_l; [apply Rmult_le_pos; [lra|apply Rmult_le_pos; lra]|exact T8]].
      replace (pf n * (M * M) * t ^ 8) with (pf n * / (t * t) * ((M * t ^ 5) * (M * t ^ 5))) by (field; exact T0). apply Rmult_le_compat_l; [apply Rmult_le_pos; lra|]. apply Rmult_le_compat; lra.
  Qed.
  Lemma dipole_mp (l : C) M : 0 <= M -> Cmod (a 1%nat - RtoC (t ^ 3) * l)%C <= M * t ^ 5 ->
    Rabs (ext false 1%nat - 6 * PI * fst l * t) <= pf 1 * M * t ^ 3 /\ Rabs (sca false 1%nat - 6 * PI * (Cmod l * Cmod l) * t ^ 4) <= pf 1 * (M * (2 * Cmod l + M)) * t ^ 6.
  Proof.
    intros HM HB. rewrite cs_ext_mp_real, cs_sca_mp_real by lra. change (coefR a b false 1) with (a 1%nat). set (c := a 1%nat) in *. assert (T0 : t <> 0) by lra. pose proof (pf_pos 1) as PP. assert (I2 : 0 < / (t * t)) by (apply Rinv_0_lt_compat; nra).
    set (e := (c - RtoC (t ^ 3) * l)%C) in *. pose proof (Cmod_ge_0 e) as E0. pose proof (Cmod_ge_0 l) as L0. assert (T3 : 0 < t ^ 3) by (apply pow_lt; lra). assert (T5 : 0 < t ^ 5) by (apply pow_lt; lra).
    assert (F : Rabs (fst e) <= Cmod e) by (pose proof (Rmax_Cmod e); pose proof (Rmax_l (Rabs (fst e)) (Rabs (snd e))); lra). split.
    - replace (2 * PI / (t * t) * (2 * INR 1 + 1) * fst c - 6 * PI * fst l * t) with (pf 1 * / (t * t) * fst e) by (unfold pf, e; destruct c as [c1 c2], l as [l1 l2]; cbn; field; exact T0).
      rewrite Rabs_mult, Rabs_pos_eq by (apply Rmult_le_pos; lra). replace (pf 1 * M * t ^ 3) with (pf 1 * / (t * t) * (M * t ^ 5)) by (field; exact T0). apply Rmult_le_compat_l; [apply Rmult_le_pos; lra|lra].
    - replace (2 * PI / (t * t) * (2 * INR 1 + 1) * (Cmod c)² - 6 * PI * (Cmod l * Cmod l) * t ^ 4) with (pf 1 * / (t * t) * (Cmod c * Cmod c - (t ^ 3 * Cmod l) * (t ^ 3 * Cmod l))) by (unfold pf, Rsqr; cbn [INR]; field; exact T0).
      rewrite Rabs_mult, Rabs_pos_eq by (apply Rmult_le_pos; lra).
      replace (pf 1 * (M * (2 * Cmod l + M)) * t ^ 6) with (pf 1 * / (t * t) * ((M * t ^ 5) * ((2 * Cmod l + M) * t ^ 3))) by (field; exact T0). apply Rmult_le_compat_l; [apply Rmult_le_pos; lra|].
      set (q := t ^ 3 * Cmod l). assert (Q : q = Cmod (RtoC (t ^ 3) * l)%C) by (rewrite Cmod_mult, Cmod_R, Rabs_pos_eq by lra; reflexivity). assert (Q0 : 0 <= q) by (unfold q; nra).
      pose proof (Cmod_ge_0 c) as C0. assert (U1 : Cmod c <= q + Cmod e) by (rewrite Q; replace c with (RtoC (t ^ 3) * l + e)%C at 1 by (unfold e; ring); apply Cmod_triangle).
      assert (U2 : q <= Cmod c + Cmod e). { rewrite Q. replace (RtoC (t ^ 3) * l)%C with (c + - e)%C by (unfold e; ring). eapply Rle_trans; [apply Cmod_triangle|]. rewrite Cmod_opp. lra. }
      replace (Cmod c * Cmod c - q * q) with ((Cmod c - q) * (Cmod c + q)) by ring. rewrite Rabs_mult. rewrite (Rabs_pos_eq (Cmod c + q)) by lra.
      assert (T53 : t ^ 5 <= t ^ 3) by (apply pow_dec2; lra || lia).
      apply Rmult_le_compat; [apply Rabs_pos|lra|apply Rabs_le; lra|]. assert (M * t ^ 5 <= M * t ^ 3) by (apply Rmult_le_compat_l; lra). unfold q in *. nra.
  Qed.
End Bounds.
Lemma sum_bound (f g : nat -> R) (K p : R) N : (forall n, (1 <= n <= N)%nat -> Rabs (f n - g n) <= K * p) -> Rabs (sum1 f N - sum1 g N) <= INR N * K * p.
Proof.
  induction N as [|N IH]; intros H; [cbn; rewrite Rminus_0_r, Rabs_R0; lra|]. specialize (IH ltac:(intros; apply H; lia)). specialize (H (S N) ltac:(lia)). cbn [sum1]. rewrite S_INR.
  replace (sum1 f N + f (S N) - (sum1 g N + g (S N))) with ((sum1 f N - sum1 g N) + (f (S N) - g (S N))) by ring. eapply Rle_trans; [apply Rabs_triang|]. lra.
Qed.
Lemma sum_first (u : R) N : (1 <= N)%nat -> sum1 (fun n => if (n =? 1)%nat then u else 0) N = u.
Proof. induction N as [|N IH]; [lia|]. intros _. cbn [sum1]. destruct N as [|N]; [cbn; ring|]. rewrite IH by lia. cbn. ring. Qed.
Lemma sum_zero N : sum1 (fun _ => 0) N = 0. Proof. induction N as [|N IH]; [reflexivity|]. cbn [sum1]. rewrite IH. ring. Qed.
Lemma pf_le n N : (n <= N)%nat -> pf n <= pf N.
Proof. intros H. unfold pf. pose proof PI_RGT_0. apply le_INR in H. apply Rmult_le_compat_l; lra. Qed.
Lemma leading_1 : leading 1 = (Ci * RtoC (2 / 3))%C.
Proof. unfold leading. f_equal. f_equal. cbn. field. Qed.
Section Laws.
  Variables (l0 : C * C) (rest : list (C * C)).
  Hypothesis Hst : nonzero_stack (l0 :: rest).
  Notation L := (length rest).
  Notation sol n t As := (near_solution n (scaled t l0) (map (scaled t) rest) As).
  Notation out As := (nth (S L) As amp0).
  Theorem rayleigh_cross_sections N (P : nat -> nat -> C * C) : (1 <= N)%nat -> (forall n, (1 <= n <= N)%nat -> static_solution n l0 rest (P n)) ->
    exists K d, 0 < d /\ forall t (As : nat -> list amps), 0 < t < d -> (forall n, (1 <= n <= N)%nat -> sol n t (As n)) ->
      let a n := na (out (As n)) in let b n := nb (out (As n)) in let B := induced rest (P 1%nat) in
      Rabs (@cs_ext R ROps N (RtoC t) a b - - (4 * PI) * snd B * t) <= K * t ^ 3 /\
      Rabs (@cs_sca R ROps N (RtoC t) a b - 8 * PI / 3 * (Cmod B * Cmod B) * t ^ 4) <= K * t ^ 6.
  Proof.
    intros HN HP. destruct (all_small l0 rest Hst N P HP) as (K & d & HK & Hd & H). set (B := induced rest (P 1%nat)).
    assert (HM : exists M, 0 <= M /\ forall n, (1 <= n <= N)%nat -> Cmod (leading n * induced rest (P n))%C <= M).
    { clear. induction N as [|N IH]; [exists 0; split; [lra|intros; lia]|]. destruct IH as (M & HM & H). exists (M + Cmod (leading (S N) * induced rest (P (S N)))%C). pose proof (Cmod_ge_0 (leading (S N) * induced rest (P (S N)))%C). split; [lra|].
      intros n Hn. destruct (Nat.eq_dec n (S N)) as [->|E]; [lra|]. specialize (H n ltac:(lia)). lra. }
    destruct HM as (M & HM & HL). set (Q := M + K). assert (HQ : 0 <= Q) by (unfold Q; lra). set (W := 2 * Q + 2 * (Q * Q) + K * (2 * M + K)).
    assert (HW1 : Q <= W) by (unfold W; pose proof (Rmult_le_pos Q Q HQ HQ); pose proof (Rmult_le_pos K (2 * M + K) HK ltac:(lra)); lra).
    assert (HW2 : Q * Q <= W) by (unfold W; pose proof (Rmult_le_pos Q Q HQ HQ); pose proof (Rmult_le_pos K (2 * M + K) HK ltac:(lra)); lra).
    assert (HW3 : K * (2 * M + K) <= W) by (unfold W; pose proof (Rmult_le_pos Q Q HQ HQ); lra).
    exists (2 * (INR N * (pf N * W))), d. split; [lra|]. intros t As Ht HS a b. cbv zeta. assert (Ht1 : 0 < t < 1) by lra.
    assert (Hb : forall n, (1 <= n <= N)%nat -> Cmod (coefR a b true n) <= Q * t ^ 5).
    { intros n Hn. destruct (H n t (As n) Hn Ht (HS n Hn)) as [_ B2]. unfold coefR, b. eapply Rle_trans; [exact B2|]. pose proof (pow_dec2 t 5 (2 * n + 3) Ht1 ltac:(lia)) as PD. assert (0 < t ^ 5) by (apply pow_lt; lra).
      apply Rle_trans with (K * t ^ 5); [apply Rmult_le_compat_l; lra|]. apply Rmult_le_compat_r; unfold Q; lra. }
    assert (Ha : forall n, (2 <= n <= N)%nat -> Cmod (coefR a b false n) <= Q * t ^ 5).
    { intros n Hn. destruct (H n t (As n) ltac:(lia) Ht (HS n ltac:(lia))) as [B1 _]. unfold coefR. change (a n) with (na (out (As n))). set (c := na (out (As n))) in *. set (l := (leading n * induced rest (P n))%C) in *.
      replace c with ((c - RtoC (t ^ (2 * n + 1)) * l) + RtoC (t ^ (2 * n + 1)) * l)%C by ring. eapply Rle_trans; [apply Cmod_triangle|]. rewrite (Cmod_mult (RtoC _)), Cmod_R, Rabs_pos_eq by (apply pow_le; lra).
      pose proof (pow_dec2 t 5 (2 * n + 3) Ht1 ltac:(lia)) as P3. pose proof (pow_dec2 t 5 (2 * n + 1) Ht1 ltac:(lia)) as P1. assert (T5 : 0 < t ^ 5) by (apply pow_lt; lra). assert (T1 : 0 < t ^ (2 * n + 1)) by (apply pow_lt; lra).
      pose proof (HL n ltac:(lia)) as Hl. fold l in Hl. pose proof (Cmod_ge_0 l) as L0.
      assert (U1 : K * t ^ (2 * n + 3) <= K * t ^ 5) by (apply Rmult_le_compat_l; lra). assert (U2 : t ^ (2 * n + 1) * Cmod l <= t ^ 5 * M) by (apply Rmult_le_compat; lra). unfold Q. lra. }
    assert (Hd1 : Cmod (a 1%nat - RtoC (t ^ 3) * (leading 1 * B))%C <= K * t ^ 5) by exact (proj1 (H 1%nat t (As 1%nat) ltac:(lia) Ht (HS 1%nat ltac:(lia)))).
    assert (EB1 : fst (leading 1 * B)%C = - (2 / 3) * snd B) by (rewrite leading_1; destruct B; cbn; ring).
    assert (EB2 : Cmod (leading 1 * B)%C = 2 / 3 * Cmod B) by (rewrite leading_1, !Cmod_mult, Cmod_R, Rabs_pos_eq by lra; unfold Ci, Cmod at 1; cbn; replace (0 * (0 * 1) + 1 * (1 * 1)) with 1 by ring; rewrite sqrt_1; ring).
    destruct (dipole_mp t a b Ht1 (leading 1 * B)%C K HK Hd1) as [D1 D2]. rewrite EB1 in D1. rewrite EB2 in D2. pose proof (HL 1%nat ltac:(lia)) as HL1. fold B in HL1. rewrite EB2 in HL1.
    assert (T3 : 0 < t ^ 3) by (apply pow_lt; lra). assert (T6 : 0 < t ^ 6) by (apply pow_lt; lra).
    assert (UP : forall n w p, (n <= N)%nat -> 0 <= w <= W -> 0 < p -> pf n * w * p <= pf N * W * p).
    { intros n w p Hn Hw Hp. apply Rmult_le_compat_r; [lra|]. pose proof (pf_pos n) as PP. apply Rmult_le_compat; [left; exact PP|exact (proj1 Hw)|apply pf_le; exact Hn|exact (proj2 Hw)]. }
    assert (QQ : 0 <= Q * Q) by (apply Rmult_le_pos; lra).
    assert (KK : K <= W) by (unfold Q in HW1; lra).
    assert (SMs : forall s n, (s = true \/ 2 <= n)%nat -> (1 <= n <= N)%nat -> Rabs (@cs_ext_multipole R ROps (RtoC t) a b s n - 0) <= pf N * W * t ^ 3 /\ Rabs (@cs_sca_multipole R ROps (RtoC t) a b s n - 0) <= pf N * W * t ^ 6).
    { intros s n Hs Hn. rewrite !Rminus_0_r. assert (HC : Cmod (coefR a b s n) <= Q * t ^ 5) by (destruct s; [apply Hb; exact Hn|apply Ha; destruct Hs as [E|E]; [discriminate|lia]]).
      destruct (small_mp t a b Ht1 s n Q HQ HC) as [S1 S2]. split; (eapply Rle_trans; [eassumption|apply UP; [lia|lra|lra]]). }
    rewrite cs_ext_sum, cs_sca_sum. split.
    - set (u := - (4 * PI) * snd B * t).
      assert (F1 : Rabs (sum1 (@cs_ext_multipole R ROps (RtoC t) a b false) N - sum1 (fun n => if (n =? 1)%nat then u else 0) N) <= INR N * (pf N * W) * t ^ 3).
      { apply sum_bound. intros n Hn. destruct (Nat.eqb_spec n 1) as [->|E]; [|apply SMs; [right; lia|lia]]. unfold u. replace (- (4 * PI) * snd B * t) with (6 * PI * (- (2 / 3) * snd B) * t) by field. eapply Rle_trans; [exact D1|apply UP; [lia|lra|lra]]. }
      assert (F2 : Rabs (sum1 (@cs_ext_multipole R ROps (RtoC t) a b true) N - sum1 (fun _ => 0) N) <= INR N * (pf N * W) * t ^ 3) by (apply sum_bound; intros n Hn; apply SMs; [left; reflexivity|exact Hn]).
      rewrite sum_first in F1 by exact HN. rewrite sum_zero in F2. set (s1 := sum1 _ N) in F1 |- *. set (s2 := sum1 _ N) in F2 |- *. replace (s1 + s2 - u) with ((s1 - u) + (s2 - 0)) by ring. eapply Rle_trans; [apply Rabs_triang|]. lra.
    - set (u := 8 * PI / 3 * (Cmod B * Cmod B) * t ^ 4).
      assert (F1 : Rabs (sum1 (@cs_sca_multipole R ROps (RtoC t) a b false) N - sum1 (fun n => if (n =? 1)%nat then u else 0) N) <= INR N * (pf N * W) * t ^ 6).
      { apply sum_bound. intros n Hn. destruct (Nat.eqb_spec n 1) as [->|E]; [|apply SMs; [right; lia|lia]]. unfold u. replace (8 * PI / 3 * (Cmod B * Cmod B) * t ^ 4) with (6 * PI * (2 / 3 * Cmod B * (2 / 3 * Cmod B)) * t ^ 4) by field. eapply Rle_trans; [exact D2|].
        pose proof (Cmod_ge_0 B) as B0. apply UP; [lia| |lra]. split; [apply Rmult_le_pos; lra|]. eapply Rle_trans; [|exact HW3]. apply Rmult_le_compat_l; lra. }
      assert (F2 : Rabs (sum1 (@cs_sca_multipole R ROps (RtoC t) a b true) N - sum1 (fun _ => 0) N) <= INR N * (pf N * W) * t ^ 6) by (apply sum_bound; intros n Hn; apply SMs; [left; reflexivity|exact Hn]).
      rewrite sum_first in F1 by exact HN. rewrite sum_zero in F2. set (s1 := sum1 _ N) in F1 |- *. set (s2 := sum1 _ N) in F2 |- *. replace (s1 + s2 - u) with ((s1 - u) + (s2 - 0)) by ring. eapply Rle_trans; [apply Rabs_triang|]. lra.
  Qed.
  Theorem rayleigh_absorption N (P : nat -> nat -> C * C) : (1 <= N)%nat -> (forall n, (1 <= n <= N)%nat -> static_solution n l0 rest (P n)) ->
    exists K d, 0 < d /\ forall t (As : nat -> list amps), 0 < t < d -> (forall n, (1 <= n <= N)%nat -> sol n t (As n)) ->
      let a n := na (out (As n)) in let b n := nb (out (As n)) in
      Rabs (@cs_abs R ROps N (RtoC t) a b - - (4 * PI) * snd (induced rest (P 1%nat)) * t) <= K * t ^ 3.
  Proof.
    intros HN HP. destruct (rayleigh_cross_sections N P HN HP) as (K & d & Hd & H). set (B := induced rest (P 1%nat)) in *. set (S4 := 8 * PI / 3 * (Cmod B * Cmod B)).
    assert (HS4 : 0 <= S4) by (unfold S4; pose proof PI_RGT_0; pose proof (Cmod_ge_0 B); apply Rmult_le_pos; [lra|apply Rmult_le_pos; lra]).
    exists (2 * Rabs K + S4), (Rmin d 1). split; [apply Rmin_glb_lt; lra|]. intros t As Ht HS a b. pose proof (Rmin_l d 1) as M1. pose proof (Rmin_r d 1) as M2. destruct (H t As ltac:(lra) HS) as [E1 E2]. fold a b in E1, E2. fold S4 in E2.
    pose proof (cs_balance N (RtoC t) a b) as EB. pose proof (pow_dec2 t 3 6 ltac:(lra) ltac:(lia)) as P6. pose proof (pow_dec2 t 3 4 ltac:(lra) ltac:(lia)) as P4. assert (T6 : 0 < t ^ 6) by (apply pow_lt; lra). assert (T4 : 0 < t ^ 4) by (apply pow_lt; lra).
    pose proof (Rle_abs K) as A. pose proof (Rabs_pos K) as A0. set (e := @cs_ext R ROps N (RtoC t) a b) in *. set (s := @cs_sca R ROps N (RtoC t) a b) in *. set (u := - (4 * PI) * snd B * t) in *.
    replace (@cs_abs R ROps N (RtoC t) a b) with (e - s) by lra. replace (e - s - u) with ((e - u) + (- (s - S4 * t ^ 4) + - (S4 * t ^ 4))) by ring. eapply Rle_trans; [apply Rabs_triang|]. eapply Rle_trans; [apply Rplus_le_compat_l, Rabs_triang|]. rewrite !Rabs_Ropp.
    rewrite (Rabs_pos_eq (S4 * t ^ 4)) by (apply Rmult_le_pos; lra). assert (V1 : K * t ^ 3 <= Rabs K * t ^ 3) by (apply Rmult_le_compat_r; lra). assert (V2 : K * t ^ 6 <= Rabs K * t ^ 3) by (apply Rle_trans with (Rabs K * t ^ 6); [apply Rmult_le_compat_r; lra|apply Rmult_le_compat_l; lra]).
    assert (V3 : S4 * t ^ 4 <= S4 * t ^ 3) by (apply Rmult_le_compat_l; lra). lra.
  Qed.
  Theorem rayleigh_polarizability (P : nat -> C * C) (ne : R) : 0 < ne -> static_solution 1 l0 rest P ->
    exists K d, 0 < d /\ forall k0 As, 0 < k0 < d -> sol 1%nat (k0 * ne) As ->
      Cmod (alpha_e (na (out As)) k0 (RtoC ne) - - (RtoC (ne * ne) * induced rest P))%C <= K * k0 ^ 2 /\ Cmod (alpha_m (nb (out As)) k0 (RtoC ne)) <= K * k0 ^ 2.
  Proof.
    intros Hne HP. destruct (rayleigh_coefficients 1 l0 rest P ltac:(lia) Hst HP) as (K & d & Hd & H). exists (3 / 2 * K * ne ^ 4 + 3 / 2 * K * ne ^ 2), (d / ne). split; [apply Rdiv_lt_0_compat; assumption|].
    intros k As Hk HS. assert (N0 : RtoC ne <> RtoC 0) by (intros E; injection E; lra). assert (K0 : RtoC k <> RtoC 0) by (intros E; injection E; lra).
    assert (Ht : 0 < k * ne < d). { split; [nra|]. replace d with (d / ne * ne) by (field; lra). apply Rmult_lt_compat_r; lra. }
    destruct (H (k * ne) As Ht HS) as [B1 B2]. set (c := na (out As)) in *. set (b := nb (out As)) in *. set (B := induced rest P) in *. cbn [Nat.mul Nat.add] in B1, B2. rewrite leading_1 in B1.
    assert (M32 : Cmod (Ci * RtoC (3 / 2))%C = 3 / 2) by (rewrite Cmod_mult, Cmod_R, Rabs_pos_eq by lra; unfold Ci, Cmod at 1; cbn; replace (0 * (0 * 1) + 1 * (1 * 1)) with 1 by ring; rewrite sqrt_1; ring).
    assert (K3 : 0 < k * k * k) by (repeat apply Rmult_lt_0_compat; lra). assert (NP : 0 < ne * ne * ne) by (repeat apply Rmult_lt_0_compat; lra).
    assert (KP : 0 <= K). { apply Rnot_lt_le. intros E. pose proof (Cmod_ge_0 b). assert (0 < (k * ne) ^ 5) by (apply pow_lt; lra). nra. }
    assert (k2 : 0 < k ^ 2) by (apply pow_lt; lra). assert (n2 : 0 < ne ^ 2) by (apply pow_lt; lra). assert (n4 : 0 < ne ^ 4) by (apply pow_lt; lra).
    assert (X1 : 0 <= 3 / 2 * K * ne ^ 4 * k ^ 2) by (repeat apply Rmult_le_pos; lra). assert (X2 : 0 <= 3 / 2 * K * ne ^ 2 * k ^ 2) by (repeat apply Rmult_le_pos; lra).
    split.
    - unfold alpha_e. set (e := (c - RtoC ((k * ne) ^ 3) * (Ci * RtoC (2 / 3) * B))%C) in *.
      replace (Ci * RtoC (3 / 2) * c / (RtoC (k * k * k) * RtoC ne) - - (RtoC (ne * ne) * B))%C with ((Ci * RtoC (3 / 2)) * (RtoC (/ (k * k * k * ne)) * e))%C.
      2:{ unfold e. replace ((k * ne) ^ 3) with (k * k * k * (ne * ne * ne)) by ring. rewrite RtoC_inv by nra. repeat rewrite RtoC_mult. replace (RtoC (3 / 2)) with (RtoC 3 / RtoC 2)%C by (rewrite RtoC_div by lra; reflexivity). replace (RtoC (2 / 3)) with (RtoC 2 / RtoC 3)%C by (rewrite RtoC_div by lra; reflexivity).
          assert (W2 : RtoC 2 <> RtoC 0) by (intros E; injection E; lra). assert (W3 : RtoC 3 <> RtoC 0) by (intros E; injection E; lra).
          assert (II : (Ci * Ci)%C = RtoC (- 1)) by (unfold Ci, RtoC, Cmult; cbn; f_equal; ring).
          transitivity (Ci * (RtoC 3 / RtoC 2) * c / (RtoC k * RtoC k * RtoC k * RtoC ne) - (Ci * Ci) * (RtoC ne * RtoC ne * B))%C; [field; auto|]. rewrite II. replace (RtoC (-1)) with (- RtoC 1)%C by (unfold RtoC, Copp; cbn; f_equal; ring). field; auto. }
      rewrite Cmod_mult, M32, Cmod_mult, Cmod_R, Rabs_pos_eq by (left; apply Rinv_0_lt_compat; nra).
      assert (Y : / (k * k * k * ne) * Cmod e <= / (k * k * k * ne) * (K * (k * ne) ^ 5)) by (apply Rmult_le_compat_l; [left; apply Rinv_0_lt_compat; nra|exact B1]).
      replace (/ (k * k * k * ne) * (K * (k * ne) ^ 5)) with (K * ne ^ 4 * k ^ 2) in Y by (field; lra). lra.
    - unfold alpha_m. replace (Ci * RtoC (3 / 2) * b / (RtoC (k * k * k) * (RtoC ne * RtoC ne * RtoC ne)))%C with ((Ci * RtoC (3 / 2)) * (RtoC (/ (k * k * k * (ne * ne * ne))) * b))%C.
      2:{ rewrite RtoC_inv by nra. repeat rewrite RtoC_mult. field; auto. }
      rewrite Cmod_mult, M32, Cmod_mult, Cmod_R, Rabs_pos_eq by (left; apply Rinv_0_lt_compat; nra).
      assert (Y : / (k * k * k * (ne * ne * ne)) * Cmod b <= / (k * k * k * (ne * ne * ne)) * (K * (k * ne) ^ 5)) by (apply Rmult_le_compat_l; [left; apply Rinv_0_lt_compat; nra|exact B2]).
      replace (/ (k * k * k * (ne * ne * ne)) * (K * (k * ne) ^ 5)) with (K * ne ^ 2 * k ^ 2) in Y by (field; lra). lra.
  Qed.
End Laws.
