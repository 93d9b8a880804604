(** The torch Bessel routines on tensors: optional depth argument and small entries. *)
From Coq Require Import Reals ZArith List Bool String Arith Lia Lra.
From Coquelicot Require Import Complex.
From Verif Require Import Ops ROps Tensor TensorProofs ModelSpecial ModelMie CLemmas ModelBatch ModelJn.
Import ListNotations.
Open Scope nat_scope.
Open Scope list_scope.

Notation jn_t := (@sph_jn_torch R ROps).
Notation jn_rec := (@sph_jn_torch_via_rec R ROps).

(** ** the n_add argument *)
Lemma via_rec_int (k : Z) n (z : tensor (cplx R)) : jn_rec (AInt k) n z = Err AttributeError.
Proof. reflexivity. Qed.
Lemma D1n_int (k : Z) n (z : tensor (cplx R)) : @D1n_torch_t R ROps (AInt k) n z = Err AttributeError.
Proof. reflexivity. Qed.
Lemma tmax_some (t : tensor R) ix : in_bounds (shp t) ix -> exists m, @tmax R ROps t = Ok m.
Proof.
  intros H. unfold tmax. destruct (entries t) as [|x xs] eqn:E; [|eauto].
  apply in_indices in H. apply (in_map (at_ t)) in H. fold (entries t) in H. rewrite E in H. destruct H.
Qed.
Lemma via_rec_auto n (z : tensor (cplx R)) ix : in_bounds (shp z) ix ->
  exists d v, jn_rec (AStr "auto") n z = Ok v /\ 10 <= d <= 35 /\ shp v = S n :: shp (atleast_1d z) /\
    forall i ix', at_ v (i :: ix') = @sph_jn_via_rec R ROps n d (at_ (atleast_1d z) ix') i.
Proof.
  intros H. destruct (tmax_some (tmap cabs z) ix H) as (m & Hm).
  unfold sph_jn_torch_via_rec, rec_depth. change (str_lower (AStr "auto")) with (@Ok string "auto"%string).
  cbn [bind]. change (("auto" =? "auto")%string) with true. cbn iota. rewrite Hm. cbn [bind].
  exists (n_add_auto m). eexists. split; [reflexivity|]. split; [|split; [reflexivity|reflexivity]].
  unfold n_add_auto. cbv zeta. generalize (@rtrunc R ROps (rmul (rdiv (rofZ 3) (rofZ 2)) m)). intros q.
  destruct (Z.max 10 q >? 35)%Z eqn:E; [cbn; lia|]. rewrite Z.gtb_ltb, Z.ltb_ge in E. lia.
Qed.

(** ** shapes of the table of small entries *)
Lemma bcast_ones_l S0 s : bcast_rev [S0; 1] (1 :: 1 :: s) = Some (S0 :: 1 :: s).
Proof. cbn [bcast_rev]. rewrite !bd_1r. now destruct s. Qed.
Lemma bcast_rev_same s : forall x, bcast_rev s (s ++ x) = Some (s ++ x).
Proof. induction s as [|d s IH]; intros x; cbn [bcast_rev app]; [now destruct x|]. rewrite bd_same, IH. reflexivity. Qed.
Lemma rev_repeat {A} (x : A) n : rev (repeat x n) = repeat x n.
Proof. induction n as [|n IH]; [reflexivity|]. cbn. rewrite IH. symmetry. apply (repeat_cons n x). Qed.
Lemma small_shape_1 n (small : list (cplx R)) : exists t, @jn_small_t R ROps n 1 small = Ok t /\ shp t = [1; S n; List.length small] /\
  forall i k, i <= n -> k < List.length small -> at_ t [0; i; k] = @jn_small R ROps (nth k small czero) i.
Proof.
  unfold jn_small_t, n_range. set (m := List.length small). assert (HN : forall i, i <= n -> i < S n) by (intros; lia).
  revert HN. generalize (S n). intros N HN. unfold tbin at 1, bcast_shape. cbn [shp rev app repeat bcast_rev option_map].
  rewrite bd_1l. cbn [bcast_rev option_map]. rewrite bd_1r. cbn [bind rev app option_map].
  unfold tbin, unsqueeze, tmap, bcast_shape. cbn [shp insert_at rev app bcast_rev option_map]. rewrite bd_1r, bd_same. cbn [option_map rev app].
  eexists. split; [reflexivity|]. split; [reflexivity|]. intros i k Hi Hk.
  unfold bcast_ix. cbn [shp at_ skipn length Nat.sub remove_at hd]. cbn [clip remove_at nth hd].
  specialize (HN i Hi). cbn. rewrite ?(cl N i) by exact HN. rewrite ?(cl m k) by exact Hk. reflexivity.
Qed.
Lemma small_shape_2 n d (small : list (cplx R)) : exists t, @jn_small_t R ROps n (S (S d)) small = Ok t /\
  shp t = 1 :: S n :: repeat 1 d ++ [1; List.length small].
Proof.
  unfold jn_small_t. set (m := List.length small). unfold tbin at 1, n_range, bcast_shape. cbn [shp rev app].
  replace (rev (repeat 1 (S (S d))) ++ [S n]) with (1 :: 1 :: repeat 1 d ++ [S n]) by (rewrite rev_repeat; reflexivity).
  rewrite bcast_ones_l. cbn [option_map bind].
  unfold tbin, unsqueeze, tmap, bcast_shape. cbn [shp insert_at].
  rewrite rev_involutive.
  change (rev (1 :: S n :: repeat 1 (S (S d)))) with ((rev (repeat 1 (S (S d))) ++ [S n]) ++ [1]).
  replace ((rev (repeat 1 (S (S d))) ++ [S n]) ++ [1]) with (1 :: 1 :: (repeat 1 d ++ [S n]) ++ [1]) by (rewrite rev_repeat; reflexivity).
  cbn [bcast_rev]. rewrite bd_1r, bd_same, bcast_rev_same. cbn [option_map].
  eexists. split; [reflexivity|]. cbn [shp rev]. rewrite !rev_app_distr. cbn [rev app]. rewrite rev_repeat, <- app_assoc. reflexivity.
Qed.
Lemma bcast_rev_len s1 : forall s2 s, bcast_rev s1 s2 = Some s -> List.length s1 <= List.length s.
Proof.
  induction s1 as [|d1 s1 IH]; intros [|d2 s2] s; cbn [bcast_rev]; try (intros E; injection E as <-; cbn; lia).
  destruct (bcast_dim d1 d2); [|discriminate]. destruct (bcast_rev s1 s2) eqn:E; [|discriminate].
  intros E'. injection E' as <-. cbn. specialize (IH _ _ E). lia.
Qed.
Lemma not_assignable n d m : 1 <= n -> assignable [S n; m] (1 :: S n :: repeat 1 d ++ [1; m]) = false.
Proof.
  intros Hn. unfold assignable. assert (Ed : drop_ones (1 :: S n :: repeat 1 d ++ [1; m]) = S n :: repeat 1 d ++ [1; m]) by (destruct n; [lia|reflexivity]).
  rewrite Ed. unfold bcast_shape. destruct (bcast_rev _ _) as [s|] eqn:E; [|reflexivity]. cbn [option_map].
  apply shape_eqb_neq. intros H. apply bcast_rev_len in E. apply (f_equal (@List.length nat)) in H. rewrite rev_length in H, E.
  cbn in H, E. rewrite app_length in E. cbn in E. lia.
Qed.
Lemma assignable_1 n m : 1 <= m -> assignable [S n; m] [1; S n; m] = true.
Proof.
  intros Hm. unfold assignable. destruct n as [|n].
  - destruct m as [|[|m]]; [lia|reflexivity|]. change (drop_ones [1; 1; S (S m)]) with [S (S m)]. unfold bcast_shape. cbn [rev app bcast_rev]. rewrite bd_same. cbn [option_map rev app]. apply shape_eqb_refl.
  - change (drop_ones [1; S (S n); m]) with [S (S n); m]. unfold bcast_shape. cbn [rev app bcast_rev]. rewrite !bd_same. cbn [option_map rev app]. apply shape_eqb_refl.
Qed.

Lemma is_small_spec (z : cplx R) : @is_small R ROps z = true <-> (Cmod z < / 100000000)%R.
Proof.
  unfold is_small. assert (E : @rtenth R ROps 8 = (/ 100000000)%R) by (unfold rtenth; cbn; lra). rewrite E.
  change (@rltb R ROps) with Rltb. rewrite Rltb_true. unfold cabs. rewrite !rsqr_R. unfold Cmod. cbn [rsqrt ROps radd].
  now replace (fst z * fst z + snd z * snd z)%R with (fst z ^ 2 + snd z ^ 2)%R by ring.
Qed.

(** ** rank two and more: any small entry makes the call fail *)
Lemma jn_small_fails pi a n (z : tensor (cplx R)) ix : 1 <= n -> 2 <= ndim z -> in_bounds (shp z) ix -> (Cmod (at_ z ix) < / 100000000)%R ->
  jn_t pi a n z = Err RuntimeError.
Proof.
  intros Hn Hd Hix Hs. unfold sph_jn_torch.
  assert (Ez : atleast_1d z = z) by (unfold atleast_1d, ndim in *; destruct (shp z); [cbn in Hd; lia|reflexivity]).
  rewrite Ez. cbv zeta. set (small := filter _ (entries z)).
  assert (Hin : In (at_ z ix) small).
  { unfold small. apply filter_In. split; [apply in_map, in_indices, Hix|now apply is_small_spec]. }
  destruct small as [|s0 sm] eqn:E; [destruct Hin|]. rewrite <- E in *.
  unfold ndim in *. destruct (List.length (shp z)) as [|[|d]]; try lia.
  destruct (small_shape_2 n d small) as (t & -> & Ht). cbn [bind]. rewrite Ht, not_assignable by exact Hn. reflexivity.
Qed.

(** ** vectors, and any rank without small entries *)
Definition fine (z : tensor (cplx R)) : Prop := ndim z <= 1 \/ forall ix, in_bounds (shp z) ix -> (/ 100000000 <= Cmod (at_ z ix))%R.
Lemma filter_nil {A} (f : A -> bool) l : (forall x, In x l -> f x = false) -> filter f l = [].
Proof. induction l as [|a l IH]; intros H; [reflexivity|]. cbn. rewrite (H a) by now left. apply IH. intros; apply H; now right. Qed.
Lemma at1_in (z : tensor (cplx R)) x : In x (entries (atleast_1d z)) <-> exists ix, in_bounds (shp z) ix /\ at_ z ix = x.
Proof.
  rewrite entries_atleast_1d. unfold entries. rewrite in_map_iff. split.
  - intros (ix & E & H). apply in_indices in H. eauto.
  - intros (ix & H & E). exists ix. rewrite in_indices. tauto.
Qed.
Lemma jn_ok_gen pi a n (z : tensor (cplx R)) k : fine z ->
  (forall big, big <> [] -> (forall x, In x big -> exists ix, in_bounds (shp z) ix /\ at_ z ix = x) -> exists k', (0 <= k')%Z /\ @ratio_depth R ROps pi a big = Ok k' /\ k k') ->
  exists e v, jn_t pi a n z = Ok v /\ shp v = S n :: shp (atleast_1d z) /\
    ((exists ix, in_bounds (shp z) ix /\ (/ 100000000 <= Cmod (at_ z ix))%R) -> k (Z.of_nat e)) /\
    forall i ix, at_ v (i :: ix) = @sph_jn_ratio R ROps n e (at_ (atleast_1d z) ix) i.
Proof.
  intros Hf Hk. unfold sph_jn_torch. cbv zeta. set (small := filter is_small _). set (big := filter _ (entries (atleast_1d z))).
  assert (Hsm : match small with [] => Ok tt | _ :: _ => bind (@jn_small_t R ROps n (ndim (atleast_1d z)) small) (fun t => guard_err (assignable [S n; List.length small] (shp t)) RuntimeError) end = Ok tt).
  { destruct small as [|s0 sm] eqn:E; [reflexivity|]. rewrite <- E in *. destruct Hf as [Hf|Hf].
    - assert (Hn : ndim (atleast_1d z) = 1) by (unfold atleast_1d, ndim in *; destruct (shp z) as [|a0 [|? ?]] eqn:Es; cbn in *; [reflexivity|now rewrite Es|lia]).
      rewrite Hn. destruct (small_shape_1 n small) as (t & -> & Ht & _). cbn [bind]. rewrite Ht, assignable_1 by (rewrite E; cbn; lia). reflexivity.
    - exfalso. assert (Hin : In s0 small) by (rewrite E; now left). unfold small in Hin. apply filter_In in Hin. destruct Hin as [Hin Hs].
      apply at1_in in Hin. destruct Hin as (ix & Hix & Ea). apply is_small_spec in Hs. specialize (Hf ix Hix). rewrite Ea in Hf. lra. }
  rewrite Hsm. cbn [bind].
  assert (Hbig : forall x, In x big -> exists ix, in_bounds (shp z) ix /\ at_ z ix = x).
  { intros x Hx. apply filter_In in Hx. now apply at1_in. }
  assert (Hd : exists k', (0 <= k')%Z /\ match big with [] => Ok 0%Z | _ :: _ => @ratio_depth R ROps pi a big end = Ok k' /\ (big <> [] -> k k')).
  { destruct big as [|b bs] eqn:E; [exists 0%Z; split; [lia|split; [reflexivity|congruence]]|]. rewrite <- E in *.
    destruct (Hk big) as (k' & H0 & H1 & H2); [now rewrite E|exact Hbig|]. exists k'. auto. }
  destruct Hd as (k' & Hk0 & -> & Hkk). cbn [bind]. exists (Z.to_nat k'). eexists. split; [reflexivity|]. split; [reflexivity|]. split.
  - intros (ix & Hix & Hc). rewrite Z2Nat.id by exact Hk0. apply Hkk. intros E.
    assert (Hin : In (at_ z ix) big). { apply filter_In. split; [apply at1_in; eauto|]. apply negb_true_iff. apply not_true_iff_false. rewrite is_small_spec. lra. }
    rewrite E in Hin. destruct Hin.
  - intros i ix. cbn [at_ orders_t tl hd]. unfold sph_jn_ratio. replace (0 + Z.to_nat (Z.of_nat n + k')) with (n + Z.to_nat k') by lia. reflexivity.
Qed.
Lemma jn_auto_ok pi n (z : tensor (cplx R)) : fine z ->
  exists e v, jn_t pi (AStr "auto") n z = Ok v /\ shp v = S n :: shp (atleast_1d z) /\
    ((exists ix, in_bounds (shp z) ix /\ (/ 100000000 <= Cmod (at_ z ix))%R) -> 20 <= e <= 50) /\
    forall i ix, at_ v (i :: ix) = @sph_jn_ratio R ROps n e (at_ (atleast_1d z) ix) i.
Proof.
  intros Hf. destruct (jn_ok_gen pi (AStr "auto") n z (fun k => (20 <= k <= 50)%Z) Hf) as (e & v & H1 & H2 & H3 & H4).
  - intros big Hb _. unfold ratio_depth. change (("auto" =? "auto")%string) with true. cbn iota.
    assert (Hm : exists m, @tmax R ROps (vec_t rzero (map cabs big)) = Ok m).
    { destruct big as [|b bs]; [congruence|]. apply (tmax_some _ [0]). cbn. lia. }
    destruct Hm as (m & ->). cbn [bind]. unfold n_extra. generalize (@rtrunc R ROps (rmul m rtwo) + 10)%Z. intros q.
    eexists. split; [|split; [reflexivity|]]; lia.
  - exists e, v. split; [exact H1|]. split; [exact H2|]. split; [|exact H4]. intros H. specialize (H3 H). lia.
Qed.
Lemma jn_int_ok pi (k : nat) n (z : tensor (cplx R)) : fine z ->
  exists v, jn_t pi (AInt (Z.of_nat k)) n z = Ok v /\ shp v = S n :: shp (atleast_1d z) /\
    forall i ix, in_bounds (shp (atleast_1d z)) ix -> at_ v (i :: ix) = @sph_jn_ratio R ROps n k (at_ (atleast_1d z) ix) i.
Proof.
  intros Hf. destruct (jn_ok_gen pi (AInt (Z.of_nat k)) n z (fun k' => k' = Z.of_nat k) Hf) as (e & v & H1 & H2 & H3 & H4).
  - intros big Hb _. exists (Z.of_nat k). split; [lia|]. split; reflexivity.
  - exists v. split; [exact H1|]. split; [exact H2|]. intros i ix Hix. rewrite H4.
    destruct (Rle_lt_dec (/ 100000000) (Cmod (at_ (atleast_1d z) ix))) as [Hc|Hc].
    + assert (e = k); [|now subst]. apply Nat2Z.inj, H3.
      assert (Hin : In (at_ (atleast_1d z) ix) (entries (atleast_1d z))) by (apply in_map, in_indices, Hix).
      apply at1_in in Hin. destruct Hin as (ix' & H & E). exists ix'. rewrite E. auto.
    + unfold sph_jn_ratio. assert (Es : @rltb R ROps (cabs (at_ (atleast_1d z) ix)) (rtenth 8) = true) by now apply is_small_spec.
      rewrite Es. reflexivity.
Qed.
