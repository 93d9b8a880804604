(** The torch spherical Bessel routines: recurrences, Wronskian (C23). *)
From Coq Require Import Reals ZArith Lra Lia Bool List Arith.
From Coquelicot Require Import Coquelicot.
From Verif Require Import Ops ROps Spec CLemmas CTrig ModelSpecial ModelMie.
Import ListNotations.
Open Scope C_scope.

Notation Cn n := (RtoC (INR n)).
Notation e10 := (@rtenth R ROps 10).

Lemma replace_small_id (z : C) : (e10 <= Cmod z)%R -> @replace_small R ROps e10 z = z.
Proof.
  intros H. unfold replace_small. toC. cbn [rltb ROps]. now rewrite (proj2 (Rltb_false _ _) H).
Qed.

(** ** downward recurrence *)
Lemma jrec_snd (z : C) N k : (S k <= N)%nat -> snd (@jrec R ROps z N (S k)) = fst (@jrec R ROps z N k).
Proof. intros _. cbn [jrec]. destruct (jrec z N k). reflexivity. Qed.
Lemma jrec_fst (z : C) N k :
  fst (@jrec R ROps z N (S k)) = Cn (2 * (N - k) + 1) / z * fst (@jrec R ROps z N k) - snd (@jrec R ROps z N k).
Proof. cbn [jrec]. destruct (jrec z N k). toC. reflexivity. Qed.
Lemma jrec_top (z : C) N : @jrec_at R ROps z N N = RtoC 0.
Proof. unfold jrec_at. rewrite Nat.sub_diag. reflexivity. Qed.
Lemma jrec_recurrence (z : C) N n : (1 <= n < N)%nat ->
  @jrec_at R ROps z N (n - 1) + @jrec_at R ROps z N (n + 1) = Cn (2 * n + 1) / z * @jrec_at R ROps z N n.
Proof.
  intros Hn. unfold jrec_at. replace (N - (n - 1))%nat with (S (N - n)) by lia.
  rewrite jrec_fst. replace (N - n)%nat with (S (N - (n + 1))) by lia. rewrite jrec_snd by lia.
  replace (N - S (N - (n + 1)))%nat with n by lia. cring.
Qed.
Lemma jrec_last (z : C) N : (1 <= N)%nat -> @jrec_at R ROps z N (N - 1) = - RtoC (@rtenth R ROps 25).
Proof.
  intros HN. unfold jrec_at. replace (N - (N - 1))%nat with 1%nat by lia. rewrite jrec_fst. cbn [jrec fst snd]. cring.
Qed.

Lemma sph_jn_def n_max n_add (z : C) n : (e10 <= Cmod z)%R ->
  @sph_jn_via_rec R ROps n_max n_add z n
    = @jrec_at R ROps z (n_max + n_add) n * (Csin z / z / @jrec_at R ROps z (n_max + n_add) 0).
Proof. intros H. unfold sph_jn_via_rec. rewrite replace_small_id by exact H. toCT. reflexivity. Qed.
Lemma sph_jn_0 n_max n_add (z : C) : (e10 <= Cmod z)%R -> @jrec_at R ROps z (n_max + n_add) 0 <> RtoC 0 ->
  @sph_jn_via_rec R ROps n_max n_add z 0 = Csin z / z.
Proof.
  intros H H0. rewrite sph_jn_def by exact H.
  assert (z <> RtoC 0) by (apply (Cmod_pos_neq e10); [apply rtenth_pos|exact H]).
  cfield. split; assumption.
Qed.
Lemma sph_jn_recurrence n_max n_add (z : C) n : (e10 <= Cmod z)%R -> (1 <= n < n_max + n_add)%nat ->
  @sph_jn_via_rec R ROps n_max n_add z (n - 1) + @sph_jn_via_rec R ROps n_max n_add z (n + 1)
    = Cn (2 * n + 1) / z * @sph_jn_via_rec R ROps n_max n_add z n.
Proof.
  intros H Hn. rewrite !sph_jn_def by exact H.
  pose proof (jrec_recurrence z (n_max + n_add) n Hn) as E.
  set (s := Csin z / z / _) in *.
  transitivity ((@jrec_at R ROps z (n_max + n_add) (n - 1) + @jrec_at R ROps z (n_max + n_add) (n + 1)) * s); [cring|].
  rewrite E. cring.
Qed.

(** ** upward recurrence *)
Lemma yn_pair_S (z : C) n : @yn_pair R ROps z (S n) =
  (snd (@yn_pair R ROps z n), Cn (2 * n + 3) / z * snd (@yn_pair R ROps z n) - fst (@yn_pair R ROps z n)).
Proof. cbn [yn_pair]. destruct (yn_pair z n). toC. cbn [fst snd]. do 4 f_equal. f_equal. f_equal. lia. Qed.
Lemma yn_pair_snd (z : C) n : snd (@yn_pair R ROps z n) = fst (@yn_pair R ROps z (S n)).
Proof. now rewrite yn_pair_S. Qed.
Lemma yn_recurrence (z : C) n : (1 <= n)%nat ->
  fst (@yn_pair R ROps z (n - 1)) + fst (@yn_pair R ROps z (n + 1)) = Cn (2 * n + 1) / z * fst (@yn_pair R ROps z n).
Proof.
  intros Hn. destruct n as [|n]; [lia|]. replace (S n - 1)%nat with n by lia. replace (S n + 1)%nat with (S (S n)) by lia.
  rewrite !yn_pair_S. cbn [fst snd]. replace (2 * S n + 1)%nat with (2 * n + 3)%nat by lia. cring.
Qed.
Lemma sph_yn_def (z : C) n : (e10 <= Cmod z)%R -> @sph_yn R ROps z n = fst (@yn_pair R ROps z n).
Proof. intros H. unfold sph_yn. now rewrite replace_small_id by exact H. Qed.
Lemma sph_yn_0 (z : C) : (e10 <= Cmod z)%R -> @sph_yn R ROps z 0 = - (Ccos z / z).
Proof. intros H. rewrite sph_yn_def by exact H. cbn [yn_pair fst]. toCT. reflexivity. Qed.
Lemma sph_yn_1 (z : C) : (e10 <= Cmod z)%R -> @sph_yn R ROps z 1 = - (Ccos z / (z * z)) - Csin z / z.
Proof.
  intros H. rewrite sph_yn_def by exact H. rewrite <- (yn_pair_snd z 0). cbn [yn_pair snd]. unfold csqr. toCT. cring.
Qed.
Lemma sph_yn_recurrence (z : C) n : (e10 <= Cmod z)%R -> (1 <= n)%nat ->
  @sph_yn R ROps z (n - 1) + @sph_yn R ROps z (n + 1) = Cn (2 * n + 1) / z * @sph_yn R ROps z n.
Proof. intros H Hn. rewrite !sph_yn_def by exact H. now apply yn_recurrence. Qed.

(** ** Wronskian of two solutions of the recurrence *)
Lemma casoratian (z : C) (f g : nat -> C) (M : nat) :
  (forall n, (1 <= n < M)%nat -> f (n - 1)%nat + f (n + 1)%nat = Cn (2 * n + 1) / z * f n) ->
  (forall n, (1 <= n < M)%nat -> g (n - 1)%nat + g (n + 1)%nat = Cn (2 * n + 1) / z * g n) ->
  forall n, (1 <= n <= M)%nat -> f n * g (n - 1)%nat - f (n - 1)%nat * g n = f 1%nat * g 0%nat - f 0%nat * g 1%nat.
Proof.
  intros Hf Hg. induction n as [|n IH]; [lia|]. intros Hn. destruct (Nat.eq_dec n 0) as [->|Hn0]; [reflexivity|].
  rewrite <- IH by lia. replace (S n - 1)%nat with n by lia.
  pose proof (Hf n ltac:(lia)) as Ef. pose proof (Hg n ltac:(lia)) as Eg. rewrite Nat.add_1_r in Ef, Eg.
  apply Csub_eq0.
  transitivity ((f (n - 1)%nat + f (S n) - Cn (2 * n + 1) / z * f n) * g n - f n * (g (n - 1)%nat + g (S n) - Cn (2 * n + 1) / z * g n)).
  - unfold Cdiv. ring.
  - rewrite Ef, Eg. ring.
Qed.
Lemma wronskian_der (z : C) (f g : nat -> C) n : (1 <= n)%nat -> z <> 0 ->
  z * f n * (g n + z * @f_der_at R ROps z g n) - (f n + z * @f_der_at R ROps z f n) * (z * g n)
  = z * z * (f n * g (n - 1)%nat - f (n - 1)%nat * g n).
Proof.
  intros Hn Hz. destruct n as [|n]; [lia|]. cbn [f_der_at]. toC. replace (S n - 1)%nat with n by lia. cfield. exact Hz.
Qed.
Lemma yn_all (z : C) : (e10 <= Cmod z)%R ->
  let y := @sph_yn R ROps z in
  y 0%nat = - (Ccos z / z) /\ y 1%nat = - (Ccos z / (z * z)) - Csin z / z /\
  forall n, (1 <= n)%nat -> y (n - 1)%nat + y (n + 1)%nat = Cn (2 * n + 1) / z * y n.
Proof.
  intros H. cbv zeta. split; [now apply sph_yn_0|]. split; [now apply sph_yn_1|].
  intros n Hn. now apply sph_yn_recurrence.
Qed.
Lemma jy_casoratian n_max n_add (z : C) n : (e10 <= Cmod z)%R -> (1 <= n <= n_max + n_add)%nat ->
  let j := @sph_jn_via_rec R ROps n_max n_add z in let y := @sph_yn R ROps z in
  j n * y (n - 1)%nat - j (n - 1)%nat * y n = j 1%nat * y 0%nat - j 0%nat * y 1%nat.
Proof.
  intros H Hn. cbv zeta.
  exact (casoratian z _ _ (n_max + n_add) (fun k Hk => sph_jn_recurrence n_max n_add z k H Hk)
    (fun k Hk => sph_yn_recurrence z k H (proj1 Hk)) n Hn).
Qed.
