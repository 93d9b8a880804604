(** Facts about the tensor operations. *)
From Coq Require Import List Arith Bool Lia.
From Verif Require Import Ops Tensor.
Import ListNotations.

Lemma shape_eqb_eq s1 : forall s2, shape_eqb s1 s2 = true <-> s1 = s2.
Proof.
  induction s1 as [|a s1 IH]; intros [|b s2]; cbn; try (split; congruence).
  rewrite andb_true_iff, Nat.eqb_eq, IH. split; [intros [-> ->]; reflexivity|intros E; injection E; auto].
Qed.
Lemma shape_eqb_refl s : shape_eqb s s = true. Proof. now apply shape_eqb_eq. Qed.
Lemma shape_eqb_neq s1 s2 : shape_eqb s1 s2 = false <-> s1 <> s2.
Proof. rewrite <- not_true_iff_false, shape_eqb_eq. reflexivity. Qed.

Lemma teq_refl {A} (t : tensor A) : teq t t. Proof. now split. Qed.
Lemma teq_sym {A} (t u : tensor A) : teq t u -> teq u t.
Proof. intros [E H]. split; [now symmetry|]. intros ix Hix. symmetry. apply H. now rewrite E. Qed.
Lemma teq_trans {A} (t u v : tensor A) : teq t u -> teq u v -> teq t v.
Proof. intros [E H] [E' H']. split; [congruence|]. intros ix Hix. rewrite H by exact Hix. apply H'. now rewrite <- E. Qed.

Lemma in_bounds_length s : forall ix, in_bounds s ix -> length ix = length s.
Proof. induction s as [|d s IH]; intros [|i ix]; cbn; try tauto. intros [_ H]. now rewrite (IH ix H). Qed.
Lemma in_indices s : forall ix, In ix (indices s) <-> in_bounds s ix.
Proof.
  induction s as [|d s IH]; intros ix; cbn [indices].
  - destruct ix; cbn; split; intros; try tauto; try (now left). destruct H; [discriminate|tauto].
  - rewrite in_flat_map. split.
    + intros (i & Hi & H). apply in_map_iff in H. destruct H as (ix' & <- & H). apply in_seq in Hi. cbn. split; [lia|now apply IH].
    + destruct ix as [|i ix]; [easy|]. intros [Hi H]. exists i. split; [apply in_seq; lia|]. apply in_map. now apply IH.
Qed.
Lemma tall_spec t : tall t = true <-> forall ix, in_bounds (shp t) ix -> at_ t ix = true.
Proof.
  unfold tall, entries. rewrite forallb_forall. split.
  - intros H ix Hix. apply (H (at_ t ix)). apply in_map. now apply in_indices.
  - intros H b Hb. apply in_map_iff in Hb. destruct Hb as (ix & <- & Hix). apply H. now apply in_indices.
Qed.
Lemma tequal_spec {A} (eqb : A -> A -> bool) (Heq : forall a b, eqb a b = true <-> a = b) t u :
  tequal eqb t u = true <-> teq t u.
Proof.
  unfold tequal, teq. rewrite andb_true_iff, shape_eqb_eq, forallb_forall. split; intros [E H]; split; try exact E.
  - intros ix Hix. apply Heq, H. now apply in_indices.
  - intros ix Hix. apply Heq, H. now apply in_indices.
Qed.

(** ** squeeze *)
Lemma unsqueeze_indices s : map (unsqueeze_ix s) (indices (squeeze_shape s)) = indices s.
Proof.
  induction s as [|d s IH]; [reflexivity|].
  cbn [squeeze_shape filter]. destruct (d =? 1) eqn:E; cbn [negb].
  - apply Nat.eqb_eq in E. subst d. cbn [indices seq flat_map]. rewrite app_nil_r.
    fold (squeeze_shape s). rewrite <- IH. rewrite map_map. apply map_ext. reflexivity.
  - fold (squeeze_shape s). cbn [indices]. rewrite flat_map_concat_map, concat_map, map_map, flat_map_concat_map.
    f_equal. apply map_ext. intros i. rewrite <- IH, !map_map. apply map_ext. intros ix. cbn. rewrite E. reflexivity.
Qed.
Lemma entries_squeeze {A} (t : tensor A) : entries (squeeze t) = entries t.
Proof. unfold entries, squeeze. cbn [shp at_]. pose proof (unsqueeze_indices (shp t)) as H. rewrite <- (map_map (unsqueeze_ix (shp t)) (at_ t)). now rewrite H. Qed.
Lemma entries_atleast_1d {A} (t : tensor A) : entries (atleast_1d t) = entries t.
Proof. unfold atleast_1d, entries. destruct (shp t) eqn:E; [reflexivity|now rewrite E]. Qed.
Lemma entries_vec {A} (t : tensor A) K : shp t = [K] -> forall j d, j < K -> nth j (entries t) d = at_ t [j].
Proof.
  intros E j d Hj. unfold entries. rewrite E. cbn [indices].
  assert (H : forall n a, flat_map (fun i : nat => map (cons i) [[]]) (seq a n) = map (fun i => [i]) (seq a n))
    by (induction n; intros; cbn; [reflexivity|now rewrite <- IHn]).
  rewrite H, map_map. rewrite (nth_indep _ d (at_ t [0])) by (rewrite map_length, seq_length; exact Hj).
  rewrite (map_nth (fun x => at_ t [x]) (seq 0 K) 0), seq_nth by exact Hj. reflexivity.
Qed.

(** ** broadcasting of concrete ranks *)
Lemma bd_same d : bcast_dim d d = Some d. Proof. unfold bcast_dim. now rewrite Nat.eqb_refl. Qed.
Lemma bd_1l d : bcast_dim 1 d = Some d. Proof. unfold bcast_dim. destruct d as [|[|d]]; reflexivity. Qed.
Lemma bd_1r d : bcast_dim d 1 = Some d. Proof. unfold bcast_dim. destruct d as [|[|d]]; reflexivity. Qed.
Lemma cl d i : i < d -> (if d =? 1 then 0 else i) = i.
Proof. intros H. destruct (Nat.eqb_spec d 1); [subst|]; lia. Qed.
Lemma clip_id s : forall ix, in_bounds s ix -> clip s ix = ix.
Proof. induction s as [|d s IH]; intros [|i ix]; cbn; try tauto. intros [H1 H2]. now rewrite (cl d i H1), IH. Qed.

Ltac bsimp := unfold tbin, broadcast_to, bcast_shape; cbn [shp rev app bcast_rev option_map];
  repeat (first [rewrite bd_same|rewrite bd_1l|rewrite bd_1r]; cbn [shp rev app bcast_rev option_map]);
  rewrite ?shape_eqb_refl.

Definition is1 {A} (t : tensor A) (K : nat) (f : nat -> A) : Prop :=
  shp t = [K] /\ forall k, k < K -> at_ t [k] = f k.
Definition is2 {A} (t : tensor A) (P K : nat) (f : nat -> nat -> A) : Prop :=
  shp t = [P; K] /\ forall p k, p < P -> k < K -> at_ t [p; k] = f p k.
Definition is3 {A} (t : tensor A) (N P K : nat) (f : nat -> nat -> nat -> A) : Prop :=
  shp t = [N; P; K] /\ forall n p k, n < N -> p < P -> k < K -> at_ t [n; p; k] = f n p k.

Section Bin.
  Context {A B D : Type} (op : A -> B -> D).
  Ltac go E1 E2 := unfold tbin; rewrite E1, E2; unfold bcast_shape; cbn [rev app bcast_rev option_map];
    repeat (first [rewrite bd_same|rewrite bd_1l|rewrite bd_1r]; cbn [rev app bcast_rev option_map]);
    eexists; split; [reflexivity|split; [reflexivity|]].
  Lemma tbin_22 t u P K f g : is2 t P K f -> is2 u P K g ->
    exists v, tbin op t u = Ok v /\ is2 v P K (fun p k => op (f p k) (g p k)).
  Proof.
    intros [E1 H1] [E2 H2]. go E1 E2. intros p k Hp Hk. cbn. rewrite ?cl by assumption. now rewrite H1, H2.
  Qed.
  Lemma tbin_33 t u N P K f g : is3 t N P K f -> is3 u N P K g ->
    exists v, tbin op t u = Ok v /\ is3 v N P K (fun n p k => op (f n p k) (g n p k)).
  Proof.
    intros [E1 H1] [E2 H2]. go E1 E2. intros n p k Hn Hp Hk. cbn. rewrite ?cl by assumption. now rewrite H1, H2.
  Qed.
  Lemma tbin_23 t u N P K f g : is2 t P K f -> is3 u N P K g ->
    exists v, tbin op t u = Ok v /\ is3 v N P K (fun n p k => op (f p k) (g n p k)).
  Proof.
    intros [E1 H1] [E2 H2]. go E1 E2. intros n p k Hn Hp Hk. cbn. rewrite ?cl by assumption. now rewrite H1, H2.
  Qed.
  (* (1, K) with (P, K) and conversely *)
  Lemma tbin_12 t u P K f g : is2 t 1 K f -> is2 u P K g ->
    exists v, tbin op t u = Ok v /\ is2 v P K (fun p k => op (f 0 k) (g p k)).
  Proof.
    intros [E1 H1] [E2 H2]. go E1 E2. intros p k Hp Hk. cbn. rewrite ?cl by assumption. rewrite H1, H2; auto.
  Qed.
  Lemma tbin_21 t u P K f g : is2 t P K f -> is2 u 1 K g ->
    exists v, tbin op t u = Ok v /\ is2 v P K (fun p k => op (f p k) (g 0 k)).
  Proof.
    intros [E1 H1] [E2 H2]. go E1 E2. intros p k Hp Hk. cbn. rewrite ?cl by assumption. rewrite H1, H2; auto.
  Qed.
  (* (1,1,K) with (P,L,1) *)
  Lemma tbin_outer t u P L K f g : is3 t 1 1 K f -> is3 u P L 1 g ->
    exists v, tbin op t u = Ok v /\ is3 v P L K (fun p l k => op (f 0 0 k) (g p l 0)).
  Proof.
    intros [E1 H1] [E2 H2]. go E1 E2. intros p l k Hp Hl Hk. cbn. rewrite ?cl by assumption. rewrite H1, H2; auto.
  Qed.
  (* (P,L,K) with (1,1,K) and conversely *)
  Lemma tbin_3k t u P L K f g : is3 t P L K f -> is3 u 1 1 K g ->
    exists v, tbin op t u = Ok v /\ is3 v P L K (fun p l k => op (f p l k) (g 0 0 k)).
  Proof.
    intros [E1 H1] [E2 H2]. go E1 E2. intros p l k Hp Hl Hk. cbn. rewrite ?cl by assumption. rewrite H1, H2; auto.
  Qed.
  Lemma tbin_k3 t u P L K f g : is3 t 1 1 K f -> is3 u P L K g ->
    exists v, tbin op t u = Ok v /\ is3 v P L K (fun p l k => op (f 0 0 k) (g p l k)).
  Proof.
    intros [E1 H1] [E2 H2]. go E1 E2. intros p l k Hp Hl Hk. cbn. rewrite ?cl by assumption. rewrite H1, H2; auto.
  Qed.
  (* (P,L,K) with (P,L,1) *)
  Lemma tbin_3l t u P L K f g : is3 t P L K f -> is3 u P L 1 g ->
    exists v, tbin op t u = Ok v /\ is3 v P L K (fun p l k => op (f p l k) (g p l 0)).
  Proof.
    intros [E1 H1] [E2 H2]. go E1 E2. intros p l k Hp Hl Hk. cbn. rewrite ?cl by assumption. rewrite H1, H2; auto.
  Qed.
  (* (N,1,1) with (1,P,K) *)
  Lemma tbin_n t u N P K f g : is3 t N 1 1 f -> is3 u 1 P K g ->
    exists v, tbin op t u = Ok v /\ is3 v N P K (fun n p k => op (f n 0 0) (g 0 p k)).
  Proof.
    intros [E1 H1] [E2 H2]. go E1 E2. intros n p k Hn Hp Hk. cbn. rewrite ?cl by assumption. rewrite H1, H2; auto.
  Qed.
  (* (N,P,K) with (1,P,K) and conversely *)
  Lemma tbin_N1 t u N P K f g : is3 t N P K f -> is3 u 1 P K g ->
    exists v, tbin op t u = Ok v /\ is3 v N P K (fun n p k => op (f n p k) (g 0 p k)).
  Proof.
    intros [E1 H1] [E2 H2]. go E1 E2. intros n p k Hn Hp Hk. cbn. rewrite ?cl by assumption. rewrite H1, H2; auto.
  Qed.
  Lemma tbin_1N t u N P K f g : is3 t 1 P K f -> is3 u N P K g ->
    exists v, tbin op t u = Ok v /\ is3 v N P K (fun n p k => op (f 0 p k) (g n p k)).
  Proof.
    intros [E1 H1] [E2 H2]. go E1 E2. intros n p k Hn Hp Hk. cbn. rewrite ?cl by assumption. rewrite H1, H2; auto.
  Qed.
End Bin.

Lemma is2_tmap {A B} (h : A -> B) t P K f : is2 t P K f -> is2 (tmap h t) P K (fun p k => h (f p k)).
Proof. intros [E H]. split; [exact E|]. intros. cbn. now rewrite H. Qed.
Lemma is3_tmap {A B} (h : A -> B) t P L K f : is3 t P L K f -> is3 (tmap h t) P L K (fun p l k => h (f p l k)).
Proof. intros [E H]. split; [exact E|]. intros. cbn. now rewrite H. Qed.
Lemma is3_un1 {A} (t : tensor A) P K f : is2 t P K f -> is3 (unsqueeze 1 t) P 1 K (fun p _ k => f p k).
Proof. intros [E H]. split; [cbn; now rewrite E|]. intros. cbn. now rewrite H. Qed.
Lemma is3_un0 {A} (t : tensor A) P K f : is2 t P K f -> is3 (unsqueeze 0 t) 1 P K (fun _ p k => f p k).
Proof. intros [E H]. split; [cbn; now rewrite E|]. intros. cbn. now rewrite H. Qed.
Lemma is3_unl {A} (t : tensor A) P L f : is2 t P L f -> is3 (unsqueeze_last t) P L 1 (fun p l _ => f p l).
Proof. intros [E H]. unfold unsqueeze_last, ndim. split; [cbn; now rewrite E|]. intros. rewrite E. cbn. now rewrite H. Qed.
Lemma is2_unl {A} (t : tensor A) P f : is1 t P f -> is2 (unsqueeze_last t) P 1 (fun p _ => f p).
Proof. intros [E H]. unfold unsqueeze_last, ndim. split; [cbn; now rewrite E|]. intros. rewrite E. cbn. now rewrite H. Qed.
Lemma is2_un0 {A} (t : tensor A) K f : is1 t K f -> is2 (unsqueeze 0 t) 1 K (fun _ k => f k).
Proof. intros [E H]. split; [cbn; now rewrite E|]. intros. cbn. now rewrite H. Qed.
Lemma is2_select {A} (t : tensor A) P L K f l : l < L -> is3 t P L K f -> is2 (select 1 l t) P K (fun p k => f p l k).
Proof. intros Hl [E H]. split; [cbn; now rewrite E|]. intros. cbn. now rewrite H. Qed.
Lemma is1_select {A} (t : tensor A) P L f l : l < L -> is2 t P L f -> is1 (select 1 l t) P (fun p => f p l).
Proof. intros Hl [E H]. split; [cbn; now rewrite E|]. intros. cbn. now rewrite H. Qed.
Lemma is3_narrow {A} (t : tensor A) N P K f a n : a + n <= N -> is3 t N P K f ->
  is3 (narrow 0 a n t) n P K (fun i p k => f (i + a) p k).
Proof. intros Hn [E H]. split; [cbn; now rewrite E|]. intros. cbn. rewrite H; [reflexivity|lia..]. Qed.
Lemma is2_broadcast_col {A} (t : tensor A) P K f : is2 t P 1 f ->
  exists v, broadcast_to [P; K] t = Ok v /\ is2 v P K (fun p _ => f p 0).
Proof.
  intros [E H]. unfold broadcast_to. rewrite E. unfold bcast_shape. cbn [rev app bcast_rev option_map].
  rewrite bd_1l. cbn [bcast_rev]. rewrite bd_same. cbn. rewrite !Nat.eqb_refl. cbn.
  eexists. split; [reflexivity|]. split; [reflexivity|]. intros. cbn. rewrite cl by assumption. rewrite H; auto.
Qed.
Lemma is2_ext {A} (t : tensor A) P K f g : (forall p k, p < P -> k < K -> f p k = g p k) -> is2 t P K f -> is2 t P K g.
Proof. intros Hfg [E H]. split; [exact E|]. intros. rewrite H by assumption. auto. Qed.
Lemma is3_ext {A} (t : tensor A) N P K f g :
  (forall n p k, n < N -> p < P -> k < K -> f n p k = g n p k) -> is3 t N P K f -> is3 t N P K g.
Proof. intros Hfg [E H]. split; [exact E|]. intros. rewrite H by assumption. auto. Qed.
