(** The amplitude tensors of the pena near fields hold, entry by entry, the
    amplitudes of the scalar backward recurrence. *)
From Coq Require Import ZArith List Bool String Arith Lia Reals.
From Verif Require Import Ops ROps Tensor TensorProofs TensorView ModelSpecial ModelMie ModelBatch BatchProofs ModelNear ModelNearLegacy ModelNearPena NearLegacyProofs.
Import ListNotations.
Open Scope nat_scope.
Open Scope list_scope.

Notation Cx := (cplx R).
Lemma ix3 N P K ix : in_bounds [N; P; K] ix -> exists n p k, ix = [n; p; k] /\ n < N /\ p < P /\ k < K.
Proof. destruct ix as [|n [|p [|k [|? ?]]]]; cbn; try tauto. intros H. exists n, p, k. tauto. Qed.
Lemma is3_rp {A} (t : tensor A) N P K f : is3 t N P K f -> rp [N; P; K] t [N; P; K] (fun ix => f (ax 0 ix) (ax 1 ix) (ax 2 ix)).
Proof.
  intros [E H]. split; [exact E|]. split; [rewrite E; unfold fits; cbn; tauto|]. intros ix Hix. rewrite E. destruct (ix3 _ _ _ _ Hix) as (n & p & k & -> & Hn & Hp & Hk).
  unfold bcast_ix. cbn [List.length Nat.sub skipn clip ax nth]. rewrite !cl by assumption. now apply H.
Qed.
Lemma is2_rp3 {A} (t : tensor A) N P K f : is2 t P K f -> rp [N; P; K] t [P; K] (fun ix => f (ax 1 ix) (ax 2 ix)).
Proof.
  intros [E H]. split; [exact E|]. split; [rewrite E; unfold fits; cbn; tauto|]. intros ix Hix. rewrite E. destruct (ix3 _ _ _ _ Hix) as (n & p & k & -> & Hn & Hp & Hk).
  unfold bcast_ix. cbn [List.length Nat.sub skipn clip ax nth]. rewrite !cl by assumption. now apply H.
Qed.
Lemma rp_is3 {A} (t : tensor A) N P K F f : rp [N; P; K] t [N; P; K] F -> (forall n p k, n < N -> p < P -> k < K -> F [n; p; k] = f n p k) -> is3 t N P K f.
Proof. intros [E H] X. split; [exact E|]. intros n p k Hn Hp Hk. rewrite (rep_full_at _ _ _ H E) by (cbn; auto). now apply X. Qed.
Lemma rr_is3 (x : result (tensor Cx)) N P K F f : rr [N; P; K] x [N; P; K] F -> (forall n p k, n < N -> p < P -> k < K -> F [n; p; k] = f n p k) -> exists t, x = Ok t /\ is3 t N P K f.
Proof. intros (t & E & S & H) X. exists t. split; [exact E|]. eapply rp_is3; [split; eassumption|exact X]. Qed.

Ltac ev3 := match goal with
  | |- rr _ (lift2 _ _ _) _ _ => eapply lift2_rr; [ev3|ev3|bs]
  | |- rr _ (Ok _) _ _ => apply rr_ok; eassumption
  end.

Section Step.
  Variables (N P K : nat).
  Definition isA (A : @amps_t R) (F : nat -> nat -> nat -> @amps R) : Prop :=
    is3 (ta A) (S N) P K (fun n p k => na (F n p k)) /\ is3 (tb A) (S N) P K (fun n p k => nb (F n p k)) /\
    is3 (tc A) (S N) P K (fun n p k => nc (F n p k)) /\ is3 (td A) (S N) P K (fun n p k => nd (F n p k)).
  Lemma isA_ext A F G : (forall n p k, n < S N -> p < P -> k < K -> F n p k = G n p k) -> isA A F -> isA A G.
  Proof. intros E (A1 & A2 & A3 & A4). repeat split; try apply A1; try apply A2; try apply A3; try apply A4; intros n p k Hn Hp Hk; rewrite <- E by assumption; [apply A1|apply A2|apply A3|apply A4]; assumption. Qed.

  Lemma near_step_ok ml mp xl nxt fml fmp fxl F : is2 ml P K fml -> is2 mp P K fmp -> is2 xl P K fxl -> isA nxt F ->
    exists A, near_step_t N ml mp xl nxt = Ok A /\ isA A (fun n p k => near_step N 15 (fml p k) (fmp p k) (fxl p k) (F n p k) n).
  Proof.
    intros Im Ip Ix (Ia & Ib & Ic & Id). unfold near_step_t.
    destruct (tbin_22 cmul _ _ _ _ _ _ Im Ix) as (zl & -> & Jl). cbn [bind].
    destruct (tbin_22 cmul _ _ _ _ _ _ Ip Ix) as (zp & -> & Jp). cbn [bind].
    assert (O : forall f z g, is2 z P K g -> rp [S N; P; K] (@orders_t R N f z) [S N; P; K] (fun ix => f (g (ax 1 ix) (ax 2 ix)) (ax 0 ix))).
    { intros f z g H. exact (is3_rp _ _ _ _ _ (is3_orders N f z P K g H)). }
    pose proof (O (fun z => pD1 N 15 z) _ _ Jl) as R1. pose proof (O (fun z => pD3 N 15 z) _ _ Jl) as R2. pose proof (O (fun z => ppsi N 15 z) _ _ Jl) as R3. pose proof (O (fun z => pzeta N 15 z) _ _ Jl) as R4.
    pose proof (O (fun z => pD1 N 15 z) _ _ Jp) as R5. pose proof (O (fun z => pD3 N 15 z) _ _ Jp) as R6. pose proof (O (fun z => ppsi N 15 z) _ _ Jp) as R7. pose proof (O (fun z => pzeta N 15 z) _ _ Jp) as R8.
    clear O. fold (D1_t N zl) in R1. fold (D3_t N zl) in R2. fold (psi_t N zl) in R3. fold (zeta_t N zl) in R4. fold (D1_t N zp) in R5. fold (D3_t N zp) in R6. fold (psi_t N zp) in R7. fold (zeta_t N zp) in R8.
    pose proof (is3_rp _ _ _ _ _ Ia) as Ra. pose proof (is3_rp _ _ _ _ _ Ib) as Rb. pose proof (is3_rp _ _ _ _ _ Ic) as Rc. pose proof (is3_rp _ _ _ _ _ Id) as Rd.
    pose proof (is2_rp3 _ (S N) _ _ _ Im) as Rm. pose proof (is2_rp3 _ (S N) _ _ _ Ip) as Rq.
    set (u1 := D1_t N zl) in *. set (u2 := D3_t N zl) in *. set (u3 := psi_t N zl) in *. set (u4 := zeta_t N zl) in *.
    set (u5 := D1_t N zp) in *. set (u6 := D3_t N zp) in *. set (u7 := psi_t N zp) in *. set (u8 := zeta_t N zp) in *. clearbody u1 u2 u3 u4 u5 u6 u7 u8.
    Ltac stp t Rt := match goal with |- context [bind ?x _] =>
      let X := fresh in assert (X : exists s F, rr _ x s F) by (eexists; eexists; ev3); clear X;
      let X := fresh in eassert (X : rr _ x _ _) by ev3; destruct X as (t & -> & Rt); cbn [bind];
      match type of Rt with shp _ = ?s /\ rep ?full _ ?F => fold (rp full t s F) in Rt end end.
    stp T1 RT1. stp T2 RT2. stp T3 RT3. stp T4 RT4. stp U RU. stp dena Rda. stp denc Rdc.
    pose proof (rp_tmap _ (@guard R ROps eps30) _ _ _ Rda) as Rga. pose proof (rp_tmap _ (@guard R ROps eps30) _ _ _ Rdc) as Rgc. clear Rda Rdc.
    set (ga := tmap (guard eps30) dena) in *. set (gc := tmap (guard eps30) denc) in *. clearbody ga gc.
    stp mr Rmr. stp a Raa. stp b Rbb. stp c Rcc. stp d Rdd.
    eexists. split; [reflexivity|]. unfold isA. cbn [ta tb tc td].
    split; [|split; [|split]]; (eapply rp_is3; [eassumption|]); intros; reflexivity.
  Qed.
  Lemma zero_core_ok A F : isA A F -> isA (zero_core_t A) (fun n p k => zero_core (F n p k)).
  Proof.
    intros (A1 & A2 & A3 & A4). unfold isA, zero_core_t. cbn [ta tb tc td zero_core na nb nc nd].
    split; [exact (is3_tmap _ _ _ _ _ _ A1)|]. split; [exact (is3_tmap _ _ _ _ _ _ A2)|]. split; [exact A3|exact A4].
  Qed.
End Step.

(** ** the backward loop *)
Lemma near_raw_len N l rest ext n : List.length (@near_raw R ROps N 15 l rest ext n) = S (S (List.length rest)).
Proof. revert l. induction rest as [|l' rest IH]; intros l; cbn [near_raw List.length]; [reflexivity|]. now rewrite IH. Qed.
Lemma near_raw_last N l rest ext n d : nth (S (List.length rest)) (@near_raw R ROps N 15 l rest ext n) d = ext.
Proof. revert l. induction rest as [|l' rest IH]; intros l; cbn [near_raw List.length nth]; [reflexivity|]. apply IH. Qed.
Lemma near_raw_nth N ext n d d0 rest : forall l i, i <= List.length rest ->
  nth i (@near_raw R ROps N 15 l rest ext n) d =
  near_step N 15 (fst (nth i (l :: rest) d0)) (if i =? List.length rest then cone else fst (nth (S i) (l :: rest) d0)) (snd (nth i (l :: rest) d0)) (nth (S i) (near_raw N 15 l rest ext n) d) n.
Proof.
  induction rest as [|l' rest IH]; intros l i Hi.
  - cbn [List.length] in *. assert (i = 0) as -> by lia. reflexivity.
  - destruct i as [|i].
    + cbn [near_raw]. assert (H : nth 0 (near_raw N 15 l' rest ext n) d = hd ext (near_raw N 15 l' rest ext n)) by (destruct rest; reflexivity).
      cbn [nth List.length Nat.eqb fst snd]. now rewrite H.
    + cbn [List.length] in *. change (nth (S i) (near_raw N 15 l (l' :: rest) ext n) d) with (nth i (near_raw N 15 l' rest ext n) d).
      rewrite IH by lia. reflexivity.
Qed.

Section Loop.
  Variables (N P L K : nat) (m x : tensor Cx) (fm fx : nat -> nat -> nat -> Cx) (fext : nat -> nat -> nat -> @amps R).
  Hypotheses (HL : 1 <= L) (Im : is3 m P (S L) K (fun p l k => if l =? L then cone else fm p l k)) (Ix : is3 x P L K fx).
  Notation lay p k l := (fm p l k, fx p l k).
  Definition raw n p k : list (@amps R) := near_raw N 15 (lay p k 0) (map (fun l => lay p k l) (seq 1 (L - 1))) (fext n p k) n.
  Definition RAW li n p k : @amps R := nth li (raw n p k) amp0.
  Definition NEAR li n p k : @amps R := nth li (on_head zero_core (raw n p k)) amp0.
  Lemma raw_cons n p k : exists a l, raw n p k = a :: l.
  Proof. unfold raw. destruct (map _ _); cbn [near_raw]; eauto. Qed.
  Lemma NEAR_0 n p k : NEAR 0 n p k = zero_core (RAW 0 n p k).
  Proof. unfold NEAR, RAW. destruct (raw_cons n p k) as (a & l & ->). reflexivity. Qed.
  Lemma NEAR_S li n p k : NEAR (S li) n p k = RAW (S li) n p k.
  Proof. unfold NEAR, RAW. destruct (raw_cons n p k) as (a & l & ->). reflexivity. Qed.
  Lemma RAW_last n p k : RAW L n p k = fext n p k.
  Proof. unfold RAW, raw. replace L with (S (List.length (map (fun l => lay p k l) (seq 1 (L - 1))))) at 1 by (rewrite map_length, seq_length; lia). apply near_raw_last. Qed.
  Lemma lay_nth p k i d : i < L -> nth i (lay p k 0 :: map (fun l => lay p k l) (seq 1 (L - 1))) d = lay p k i.
  Proof.
    intros Hi. change (lay p k 0 :: map (fun l => lay p k l) (seq 1 (L - 1))) with (map (fun l => lay p k l) (seq 0 (S (L - 1)))).
    rewrite (nth_indep _ d (lay p k 0)) by (rewrite map_length, seq_length; lia). rewrite (map_nth (fun l => lay p k l)), seq_nth by lia. reflexivity.
  Qed.
  Lemma RAW_step li n p k : li < L -> RAW li n p k =
    near_step N 15 (fm p li k) (if S li =? L then cone else fm p (S li) k) (fx p li k) (RAW (S li) n p k) n.
  Proof.
    intros Hl. unfold RAW, raw. rewrite (near_raw_nth N _ n amp0 (lay p k 0) _ _ li) by (rewrite map_length, seq_length; lia).
    rewrite (lay_nth p k li _ Hl), map_length, seq_length. cbn [fst snd].
    replace (li =? L - 1) with (S li =? L) by (destruct (Nat.eqb_spec (S li) L), (Nat.eqb_spec li (L - 1)); lia).
    destruct (Nat.eqb_spec (S li) L) as [E|E]; [reflexivity|]. now rewrite (lay_nth p k (S li)) by lia.
  Qed.
  Lemma near_loop_ok cnt : forall nxt acc, cnt <= L -> (1 <= cnt -> isA N P K nxt (RAW cnt)) ->
    List.length acc = S L - cnt -> (forall j, j < S L - cnt -> isA N P K (nth j acc nxt) (NEAR (cnt + j))) ->
    exists ls, near_loop_t N m x cnt nxt acc = Ok ls /\ List.length ls = S L /\ forall li d, li <= L -> isA N P K (nth li ls d) (NEAR li).
  Proof.
    induction cnt as [|li IH]; intros nxt acc Hc Hn Hlen Hacc; cbn [near_loop_t].
    - exists acc. split; [reflexivity|]. split; [lia|]. intros li d Hl. rewrite (nth_indep _ d nxt) by lia. apply (Hacc li). lia.
    - assert (H1 : li < S L) by lia. assert (H2 : S li < S L) by lia. assert (H3 : li < L) by lia.
      destruct (near_step_ok N P K _ _ _ _ _ _ _ _ (is2_select _ _ _ _ _ li H1 Im) (is2_select _ _ _ _ _ (S li) H2 Im) (is2_select _ _ _ _ _ li H3 Ix) (Hn (le_n_S _ _ (Nat.le_0_l li)))) as (A & -> & HA).
      cbn [bind].
      assert (HA' : isA N P K A (RAW li)).
      { eapply isA_ext; [|exact HA]. intros n p k _ _ _. cbv beta. rewrite (RAW_step li) by lia. destruct (Nat.eqb_spec li L); [lia|reflexivity]. }
      clear HA. set (B := if li =? 0 then zero_core_t A else A).
      assert (HB : isA N P K B (NEAR li)).
      { unfold B. destruct li as [|li]; cbn [Nat.eqb].
        - eapply isA_ext; [|apply zero_core_ok; exact HA']. intros; cbv beta. now rewrite NEAR_0.
        - eapply isA_ext; [|exact HA']. intros. now rewrite NEAR_S. }
      apply IH; [lia| |cbn [List.length]; lia|].
      + intros Hl. unfold B. destruct li; [lia|exact HA'].
      + intros [|j] Hj.
        * rewrite Nat.add_0_r. exact HB.
        * cbn [nth]. rewrite (nth_indep _ B nxt) by lia. replace (li + S j) with (S li + j) by lia. apply Hacc. lia.
  Qed.
  Lemma near_layers_ok ext : isA N P K ext fext -> exists ls, near_loop_t N m x L ext [ext] = Ok ls /\ List.length ls = S L /\
    forall li d, li <= L -> isA N P K (nth li ls d) (NEAR li).
  Proof.
    intros He. apply near_loop_ok; [lia| |cbn [List.length]; lia|].
    - intros _. eapply isA_ext; [|exact He]. intros; now rewrite RAW_last.
    - intros j Hj. assert (j = 0) as -> by lia. rewrite Nat.add_0_r. cbn [nth]. eapply isA_ext; [|exact He].
      intros n p k _ _ _. rewrite <- (RAW_last n p k). replace L with (S (L - 1)) at 2 by lia. rewrite NEAR_S. f_equal. lia.
  Qed.
End Loop.
