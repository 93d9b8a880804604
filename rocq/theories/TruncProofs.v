(** Truncation orders: rounding, the Wiscombe count, maxima over a batch. *)
From Coq Require Import Reals ZArith List Bool String Arith Lia Lra.
From Coquelicot Require Import Coquelicot.
From Verif Require Import Ops ROps Tensor TensorProofs ModelSpecial ModelMie ModelBatch BroadcastSpec BroadcastProofs BatchProofs BatchReal.
Import ListNotations.
Open Scope R_scope.

(** ** torch.round *)
Lemma Int_part_bounds x : IZR (Int_part x) <= x < IZR (Int_part x) + 1.
Proof. pose proof (base_Int_part x). lra. Qed.
Lemma Rround_bounds x : x - 1 / 2 <= IZR (Rround x) <= x + 1 / 2.
Proof.
  unfold Rround. pose proof (Int_part_bounds x).
  destruct (Rlt_dec _ _); [lra|]. destruct (Rlt_dec _ _); [rewrite plus_IZR; lra|]. destruct (Z.even _); [lra|rewrite plus_IZR; lra].
Qed.
Lemma Rround_mono x y : x <= y -> (Rround x <= Rround y)%Z.
Proof.
  intros H. destruct (Z_le_gt_dec (Rround x) (Rround y)) as [|Hgt]; [assumption|exfalso].
  assert (Hlt : (Rround y + 1 <= Rround x)%Z) by lia. apply IZR_le in Hlt. rewrite plus_IZR in Hlt.
  pose proof (Rround_bounds x) as Bx. pose proof (Rround_bounds y) as By.
  assert (Exy : x = y) by lra. subst y. lia.
Qed.
Lemma Rround_ge x (n : Z) : IZR n - 1 / 2 < x -> (n <= Rround x)%Z.
Proof.
  intros H. pose proof (Rround_bounds x). assert (IZR (n - 1) < IZR (Rround x)) by (rewrite minus_IZR; lra).
  apply lt_IZR in H1. lia.
Qed.
Lemma Rround_le x (n : Z) : x < IZR n + 1 / 2 -> (Rround x <= n)%Z.
Proof.
  intros H. pose proof (Rround_bounds x). assert (IZR (Rround x) < IZR (n + 1)) by (rewrite plus_IZR; lra).
  apply lt_IZR in H1. lia.
Qed.
Lemma Rround_IZR n : Rround (IZR n) = n.
Proof. apply Z.le_antisymm; [apply Rround_le|apply Rround_ge]; lra. Qed.

(** ** cube root *)
Lemma Rcbrt_nonneg x : 0 <= Rcbrt x.
Proof. unfold Rcbrt. destruct (Rlt_dec 0 x); [left; apply exp_pos|lra]. Qed.
Lemma Rcbrt_mono x y : x <= y -> Rcbrt x <= Rcbrt y.
Proof.
  intros H. unfold Rcbrt. destruct (Rlt_dec 0 x); destruct (Rlt_dec 0 y); try lra.
  - apply Rle_Rpower_l; lra.
  - left; apply exp_pos.
Qed.
Lemma Rcbrt_cube a : 0 <= a -> Rcbrt (a * a * a) = a.
Proof.
  intros [Ha|<-].
  - unfold Rcbrt. assert (0 < a * a * a) by (repeat apply Rmult_lt_0_compat; assumption).
    destruct (Rlt_dec 0 (a * a * a)); [|lra]. replace (a * a * a) with (Rpower a 3).
    + rewrite Rpower_mult. replace (3 * (1 / 3)) with 1 by field. now apply Rpower_1.
    + replace 3 with (INR 3) by (cbn; lra). rewrite Rpower_pow by assumption. cbn. ring.
  - unfold Rcbrt. destruct (Rlt_dec 0 (0 * 0 * 0)); lra.
Qed.

(** ** Wiscombe *)
Lemma wiscombe_raw_R x : @wiscombe_raw R ROps x =
  if Rle_dec x 8 then 1 + x + 4 * Rcbrt x else if Rlt_dec x 4200 then 2 + x + 405 / 100 * Rcbrt x else 2 + x + 4 * Rcbrt x.
Proof.
  unfold wiscombe_raw. cbn [rleb rltb ROps rofZ radd rmul rdiv rcbrt rone]. unfold Rleb, Rltb, rtwo. cbn [radd rone ROps].
  destruct (Rle_dec x 8); [reflexivity|]. destruct (Rlt_dec x 4200); reflexivity.
Qed.
Lemma wiscombe_ge x : 0 <= x -> 1 <= @wiscombe_raw R ROps x.
Proof.
  intros H. rewrite wiscombe_raw_R. pose proof (Rcbrt_nonneg x).
  destruct (Rle_dec x 8); [lra|]. destruct (Rlt_dec x 4200); lra.
Qed.
Lemma cbrt_4200 : 16125 / 1000 < Rcbrt 4200 < 1617 / 100.
Proof.
  assert (A : Rcbrt (1613 / 100 * (1613 / 100) * (1613 / 100)) = 1613 / 100) by (apply Rcbrt_cube; lra).
  assert (B : Rcbrt (1616 / 100 * (1616 / 100) * (1616 / 100)) = 1616 / 100) by (apply Rcbrt_cube; lra).
  pose proof (Rcbrt_mono (1613 / 100 * (1613 / 100) * (1613 / 100)) 4200 ltac:(lra)).
  pose proof (Rcbrt_mono 4200 (1616 / 100 * (1616 / 100) * (1616 / 100)) ltac:(lra)). lra.
Qed.
Lemma wiscombe_mono x y : 0 <= x <= y -> (Rround (@wiscombe_raw R ROps x) <= Rround (@wiscombe_raw R ROps y))%Z.
Proof.
  intros [Hx Hxy]. rewrite !wiscombe_raw_R. pose proof (Rcbrt_mono x y Hxy) as Hc. pose proof (Rcbrt_nonneg x). pose proof cbrt_4200.
  destruct (Rle_dec x 8); destruct (Rle_dec y 8); try lra; try (apply Rround_mono; destruct (Rlt_dec y 4200); lra).
  destruct (Rlt_dec x 4200) as [Hx2|Hx2]; destruct (Rlt_dec y 4200) as [Hy2|Hy2]; try lra; try (apply Rround_mono; lra).
  (* across 4200 the unrounded count drops by about 0.8; the rounded one does not *)
  transitivity 4267%Z.
  - apply Rround_le. pose proof (Rcbrt_mono x 4200 ltac:(lra)). lra.
  - apply Rround_ge. pose proof (Rcbrt_mono 4200 y ltac:(lra)). lra.
Qed.

(** ** maxima *)
Lemma rmax_R x y : @rmax R ROps x y = Rmax x y.
Proof.
  unfold rmax. cbn. unfold Rleb. destruct (Rle_dec x y); [now rewrite Rmax_right|rewrite Rmax_left; lra].
Qed.
Lemma fold_max l : forall x, x <= fold_left (@rmax R ROps) l x /\ (forall y, In y l -> y <= fold_left (@rmax R ROps) l x) /\
  (fold_left (@rmax R ROps) l x = x \/ In (fold_left (@rmax R ROps) l x) l).
Proof.
  induction l as [|a l IH]; intros x; cbn [fold_left].
  - split; [lra|]. split; [intros y []|]. now left.
  - destruct (IH (@rmax R ROps x a)) as (H1 & H2 & H3). rewrite rmax_R in *.
    pose proof (Rmax_l x a). pose proof (Rmax_r x a). split; [lra|]. split.
    + intros y [->|Hy]; [lra|auto].
    + destruct H3 as [E|E]; [|right; now right]. rewrite E. unfold Rmax. destruct (Rle_dec x a); [right; now left|now left].
Qed.
Lemma tmax_spec (t : tensor R) v : @tmax R ROps t = Ok v ->
  (forall ix, in_bounds (shp t) ix -> at_ t ix <= v) /\ exists ix, in_bounds (shp t) ix /\ at_ t ix = v.
Proof.
  unfold tmax. destruct (entries t) as [|x l] eqn:E; [discriminate|]. intros H. injection H as <-.
  destruct (fold_max l x) as (H1 & H2 & H3). split.
  - intros ix Hix. assert (Hin : In (at_ t ix) (x :: l)) by (rewrite <- E; apply in_map; now apply in_indices).
    destruct Hin as [<-|Hin]; auto.
  - assert (Hin : In (fold_left rmax l x) (x :: l)) by (destruct H3 as [->|?]; [now left|now right]).
    rewrite <- E in Hin. apply in_map_iff in Hin. destruct Hin as (ix & Hat & Hix). exists ix. split; [now apply in_indices|exact Hat].
Qed.
Lemma tmax_ok (t : tensor R) ix : in_bounds (shp t) ix -> exists v, @tmax R ROps t = Ok v.
Proof.
  intros H. apply in_indices in H. unfold tmax, entries. destruct (indices (shp t)); [easy|]. cbn. eauto.
Qed.
(* domination *)
Lemma tmax_le (t u : tensor R) v w : @tmax R ROps t = Ok v -> @tmax R ROps u = Ok w ->
  (forall ix, in_bounds (shp t) ix -> exists jx, in_bounds (shp u) jx /\ at_ t ix <= at_ u jx) -> v <= w.
Proof.
  intros Ht Hu Hd. apply tmax_spec in Ht, Hu. destruct Ht as [_ (ix & Hix & <-)]. destruct Hu as [Hu _].
  destruct (Hd ix Hix) as (jx & Hjx & Hle). specialize (Hu jx Hjx). lra.
Qed.
Definition max_over2 (v : R) (P K : nat) (f : nat -> nat -> R) : Prop :=
  (forall p k, (p < P)%nat -> (k < K)%nat -> f p k <= v) /\ exists p k, (p < P)%nat /\ (k < K)%nat /\ f p k = v.
Definition max_over3 (v : R) (P L K : nat) (f : nat -> nat -> nat -> R) : Prop :=
  (forall p l k, (p < P)%nat -> (l < L)%nat -> (k < K)%nat -> f p l k <= v) /\
  exists p l k, (p < P)%nat /\ (l < L)%nat /\ (k < K)%nat /\ f p l k = v.
Lemma tmax_is2 (t : tensor R) P K f : is2 t P K f -> (0 < P)%nat -> (0 < K)%nat -> exists v, @tmax R ROps t = Ok v /\ max_over2 v P K f.
Proof.
  intros [E H] HP HK. destruct (tmax_ok t [0%nat; 0%nat]) as (v & Hv); [rewrite E; cbn; lia|]. exists v. split; [exact Hv|].
  apply tmax_spec in Hv. rewrite E in Hv. destruct Hv as [Hb (ix & Hix & <-)]. split.
  - intros p k Hp Hk. rewrite <- H by assumption. apply Hb. cbn. lia.
  - destruct ix as [|p [|k [|? ?]]]; cbn in Hix; try tauto. exists p, k. rewrite H; tauto.
Qed.
Lemma tmax_is3 (t : tensor R) P L K f : is3 t P L K f -> (0 < P)%nat -> (0 < L)%nat -> (0 < K)%nat ->
  exists v, @tmax R ROps t = Ok v /\ max_over3 v P L K f.
Proof.
  intros [E H] HP HL HK. destruct (tmax_ok t [0%nat; 0%nat; 0%nat]) as (v & Hv); [rewrite E; cbn; lia|]. exists v. split; [exact Hv|].
  apply tmax_spec in Hv. rewrite E in Hv. destruct Hv as [Hb (ix & Hix & <-)]. split.
  - intros p l k Hp Hl Hk. rewrite <- H by assumption. apply Hb. cbn. lia.
  - destruct ix as [|p [|l [|k [|? ?]]]]; cbn in Hix; try tauto. exists p, l, k. rewrite H; tauto.
Qed.

(** ** the Pena count of a broadcast configuration *)
Definition prev (f : nat -> R) (l : nat) : R := match l with O => 0 | S j => f j end.
Lemma pena2009_ok (k0 r : tensor R) (eps env : tensor (cplx R)) P L K kf rf ef vf :
  is2 k0 1 K kf -> is2 r P L rf -> is3 eps P L K ef -> is2 env 1 K vf -> (0 < P)%nat -> (0 < L)%nat -> (0 < K)%nat ->
  exists xo m1 m2,
    max_over2 xo P K (fun p k => Cmod (Cmult (Cmult (RtoC (kf 0%nat k)) (@csqrt R ROps (vf 0%nat k))) (RtoC (rf p (L - 1)%nat)))) /\
    max_over3 m1 P L K (fun p l k => Cmod (Cmult (Cmult (RtoC (kf 0%nat k)) (@csqrt R ROps (ef p l k))) (RtoC (rf p l)))) /\
    max_over3 m2 P L K (fun p l k => Cmod (Cmult (Cmult (RtoC (kf 0%nat k)) (@csqrt R ROps (ef p l k))) (RtoC (prev (rf p) l)))) /\
    @pena2009 R ROps k0 r eps env = Ok (Rround (Rmax (IZR (Rround (@wiscombe_raw R ROps xo))) (Rmax m1 m2) + 15)).
Proof.
  intros Ik Ir Ie Iv HP HL HK. unfold pena2009, ndim. rewrite (proj1 Ir), (proj1 Ie). cbn [List.length Nat.eqb guard_err bind].
  pose proof (is2_tmap (@cofr R ROps) _ _ _ _ Ik) as Jk.
  destruct (tbin_33 cmul _ _ _ _ _ _ _ (is3_un1 _ _ _ _ Jk) (is3_un1 _ _ _ _ (is2_tmap csqrt _ _ _ _ Iv))) as (kn & -> & Jkn). cbn [bind].
  destruct (tbin_outer cmul _ _ _ _ _ _ _ Jkn (is3_unl _ _ _ _ (is2_tmap (@cofr R ROps) _ _ _ _ Ir))) as (x & -> & Jx). cbn [bind].
  unfold dim_size. rewrite (proj1 Jx). cbn [nth].
  assert (HL1 : (L - 1 < L)%nat) by lia.
  destruct (tmax_is2 _ _ _ _ (is2_tmap (@cabs R ROps) _ _ _ _ (is2_select _ _ _ _ _ _ HL1 Jx)) HP HK) as (xo & -> & Hxo). cbn [bind].
  destruct (tbin_k3 cmul _ _ _ _ _ _ _ (is3_un1 _ _ _ _ Jk) (is3_tmap csqrt _ _ _ _ _ Ie)) as (kl & -> & Jkl). cbn [bind].
  destruct (tbin_3l cmul _ _ _ _ _ _ _ Jkl (is3_unl _ _ _ _ (is2_tmap (@cofr R ROps) _ _ _ _ Ir))) as (mx & -> & Jmx). cbn [bind].
  set (rp := mkT (A := R) _ _).
  assert (Jrp : is2 rp P L (fun p l => prev (rf p) l)).
  { unfold rp. split; [reflexivity|]. intros p [|l] Hp Hl; cbn; [reflexivity|]. apply (proj2 Ir); lia. }
  destruct (tbin_3l cmul _ _ _ _ _ _ _ Jkl (is3_unl _ _ _ _ (is2_tmap (@cofr R ROps) _ _ _ _ Jrp))) as (mp & -> & Jmp). cbn [bind].
  destruct (tmax_is3 _ _ _ _ _ (is3_tmap (@cabs R ROps) _ _ _ _ _ Jmx) HP HL HK) as (m1 & -> & Hm1). cbn [bind].
  destruct (tmax_is3 _ _ _ _ _ (is3_tmap (@cabs R ROps) _ _ _ _ _ Jmp) HP HL HK) as (m2 & -> & Hm2). cbn [bind].
  exists xo, m1, m2. split; [exact Hxo|]. split; [exact Hm1|]. split; [exact Hm2|].
  rewrite !rmax_R. reflexivity.
Qed.
Lemma max_over2_le v w P K P' K' f g : max_over2 v P K f -> max_over2 w P' K' g ->
  (forall p k, (p < P)%nat -> (k < K)%nat -> exists p' k', (p' < P')%nat /\ (k' < K')%nat /\ f p k <= g p' k') -> v <= w.
Proof.
  intros [_ (p & k & Hp & Hk & <-)] [Hw _] H. destruct (H p k Hp Hk) as (p' & k' & Hp' & Hk' & Hle). specialize (Hw p' k' Hp' Hk'). lra.
Qed.
Lemma max_over3_le v w P L K P' L' K' f g : max_over3 v P L K f -> max_over3 w P' L' K' g ->
  (forall p l k, (p < P)%nat -> (l < L)%nat -> (k < K)%nat -> exists p' l' k', (p' < P')%nat /\ (l' < L')%nat /\ (k' < K')%nat /\ f p l k <= g p' l' k') -> v <= w.
Proof.
  intros [_ (p & l & k & Hp & Hl & Hk & <-)] [Hw _] H. destruct (H p l k Hp Hl Hk) as (p' & l' & k' & Hp' & Hl' & Hk' & Hle).
  specialize (Hw p' l' k' Hp' Hl' Hk'). lra.
Qed.
