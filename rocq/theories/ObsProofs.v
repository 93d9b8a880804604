(** The batched observables are the scalar formulas entry by entry. *)
From Coq Require Import Reals ZArith List Bool Arith Lia Lra.
From Coquelicot Require Import Coquelicot.
From Verif Require Import Ops ROps Tensor TensorProofs ModelSpecial ModelMie ModelBatch ModelObs.
Import ListNotations.
Open Scope nat_scope.
Open Scope list_scope.

Definition is4 {A} (t : tensor A) (M N P K : nat) (f : nat -> nat -> nat -> nat -> A) : Prop :=
  shp t = [M; N; P; K] /\ forall m n p k, m < M -> n < N -> p < P -> k < K -> at_ t [m; n; p; k] = f m n p k.
Lemma is4_tmap {A B} (h : A -> B) t M N P K f : is4 t M N P K f -> is4 (tmap h t) M N P K (fun m n p k => h (f m n p k)).
Proof. intros [E H]. split; [exact E|]. intros. cbn. now rewrite H. Qed.
Lemma is4_ext {A} (t : tensor A) M N P K f g :
  (forall m n p k, m < M -> n < N -> p < P -> k < K -> f m n p k = g m n p k) -> is4 t M N P K f -> is4 t M N P K g.
Proof. intros Hfg [E H]. split; [exact E|]. intros. rewrite H by assumption. auto. Qed.
Lemma stack0 {A} (t u : tensor A) N P K f g : is3 t N P K f -> is3 u N P K g ->
  exists v, stack 0 [t; u] = Ok v /\ is4 v 2 N P K (fun m n p k => if m =? 0 then f n p k else g n p k).
Proof.
  intros [E H] [E' H']. unfold stack. cbn [forallb]. rewrite E, E', shape_eqb_refl. cbn [andb]. eexists. split; [reflexivity|].
  split; [reflexivity|]. intros [|[|m]] n p k Hm Hn Hp Hk; [| |lia]; cbn; [now apply H|now apply H'].
Qed.
Section Bin4.
  Context {A B D : Type} (op : A -> B -> D).
  Ltac go E1 E2 := unfold tbin; rewrite E1, E2; unfold bcast_shape; cbn [rev app bcast_rev option_map];
    repeat (first [rewrite bd_same|rewrite bd_1l|rewrite bd_1r]; cbn [rev app bcast_rev option_map]);
    eexists; split; [reflexivity|split; [reflexivity|]].
  Lemma tbin_44 t u M N P K f g : is4 t M N P K f -> is4 u M N P K g ->
    exists v, tbin op t u = Ok v /\ is4 v M N P K (fun m n p k => op (f m n p k) (g m n p k)).
  Proof. intros [E1 H1] [E2 H2]. go E1 E2. intros m n p k Hm Hn Hp Hk. cbn. rewrite ?cl by assumption. now rewrite H1, H2. Qed.
  (* (1,1,K) with (N,1,1) *)
  Lemma tbin_kn t u N K f g : is3 t 1 1 K f -> is3 u N 1 1 g ->
    exists v, tbin op t u = Ok v /\ is3 v N 1 K (fun n _ k => op (f 0 0 k) (g n 0 0)).
  Proof. intros [E1 H1] [E2 H2]. go E1 E2. intros n p k Hn Hp Hk. cbn. rewrite ?cl by assumption. rewrite H1, H2; auto. Qed.
  (* (N,1,K) with (M,N,P,K) *)
  Lemma tbin_34 t u M N P K f g : is3 t N 1 K f -> is4 u M N P K g ->
    exists v, tbin op t u = Ok v /\ is4 v M N P K (fun m n p k => op (f n 0 k) (g m n p k)).
  Proof. intros [E1 H1] [E2 H2]. go E1 E2. intros m n p k Hm Hn Hp Hk. cbn. rewrite ?cl by assumption. rewrite H1, H2; auto. Qed.
  (* (M,N,P,K) with (1,P,K) *)
  Lemma tbin_43 t u M N P K f g : is4 t M N P K f -> is3 u 1 P K g ->
    exists v, tbin op t u = Ok v /\ is4 v M N P K (fun m n p k => op (f m n p k) (g 0 p k)).
  Proof. intros [E1 H1] [E2 H2]. go E1 E2. intros m n p k Hm Hn Hp Hk. cbn. rewrite ?cl by assumption. rewrite H1, H2; auto. Qed.
  (* (N,P,K,1) with (N,1,1,Q) *)
  Lemma tbin_ang t u N P K Q f g : is4 t N P K 1 f -> is4 u N 1 1 Q g ->
    exists v, tbin op t u = Ok v /\ is4 v N P K Q (fun n p k q => op (f n p k 0) (g n 0 0 q)).
  Proof. intros [E1 H1] [E2 H2]. go E1 E2. intros m n p k Hm Hn Hp Hk. cbn. rewrite ?cl by assumption. rewrite H1, H2; auto. Qed.
  (* (N,1,1,1) with (N,P,K,Q) *)
  Lemma tbin_w t u N P K Q f g : is4 t N 1 1 1 f -> is4 u N P K Q g ->
    exists v, tbin op t u = Ok v /\ is4 v N P K Q (fun n p k q => op (f n 0 0 0) (g n p k q)).
  Proof. intros [E1 H1] [E2 H2]. go E1 E2. intros m n p k Hm Hn Hp Hk. cbn. rewrite ?cl by assumption. rewrite H1, H2; auto. Qed.
End Bin4.
Lemma csum_ext (f g : nat -> cplx R) l : (forall i, In i l -> f i = g i) -> @csum R ROps (map f l) = csum (map g l).
Proof. intros H. f_equal. now apply map_ext_in. Qed.
Lemma is2_sum01 (t : tensor (cplx R)) M N P K f : is4 t M N P K f ->
  is2 (tsum01 t) P K (fun p k => csum (map (fun m => csum (map (fun n => f m n p k) (seq 0 N))) (seq 0 M))).
Proof.
  intros [E H]. split; [cbn; now rewrite E|]. intros p k Hp Hk. unfold tsum01. cbn [at_]. rewrite E. cbn [nth].
  apply csum_ext. intros m Hm. apply in_seq in Hm. apply csum_ext. intros n Hn. apply in_seq in Hn. apply H; lia.
Qed.
Lemma is3_sum0 (t : tensor (cplx R)) N P K Q f : is4 t N P K Q f ->
  is3 (tsum0 t) P K Q (fun p k q => csum (map (fun n => f n p k q) (seq 0 N))).
Proof.
  intros [E H]. split; [cbn; now rewrite E|]. intros p k q Hp Hk Hq. unfold tsum0. cbn [at_]. rewrite E. cbn [nth].
  apply csum_ext. intros n Hn. apply in_seq in Hn. apply H; lia.
Qed.
Lemma orders_shift {A} (f : nat -> A) N : map f (orders N) = map (fun i => f (S i)) (seq 0 N).
Proof. unfold orders. rewrite <- seq_shift, map_map. reflexivity. Qed.

Lemma two_n_one i : @radd R ROps (rmul rtwo (rofn (S i))) rone = rofn (2 * S i + 1).
Proof. rewrite !rofn_R. unfold rtwo. cbn [radd rmul rone ROps]. rewrite plus_INR, mult_INR. cbn [INR]. lra. Qed.

(** order n (from 1) of a coefficient tensor at particle p, wavelength k *)
Definition column (t : tensor (cplx R)) (p k n : nat) : cplx R := at_ t [n - 1; p; k].

Record obs_shapes (o : @output R) (N P K : nat) : Prop := {
  os_n : Z.to_nat (o_n_max o) = N; os_a : shp (o_a o) = [N; P; K]; os_b : shp (o_b o) = [N; P; K];
  os_k : shp (o_k o) = [1; K]; os_r : shp (o_r_s o) = [P; K] }.

Lemma cross_sections_ok (o : @output R) N P K : obs_shapes o N P K ->
  let kv k := at_ (o_k o) [0; k] in
  let rv p k := at_ (o_r_s o) [p; k] in
  let a p k := column (o_a o) p k in let b p k := column (o_b o) p k in
  exists x, cross_sections o = Ok x /\ x_n_max x = o_n_max o /\
    is2 (x_cs_ext x) P K (fun p k => cs_ext N (kv k) (a p k) (b p k)) /\
    is2 (x_cs_sca x) P K (fun p k => cs_sca N (kv k) (a p k) (b p k)) /\
    is2 (x_cs_abs x) P K (fun p k => cs_abs N (kv k) (a p k) (b p k)) /\
    is2 (x_q_ext x) P K (fun p k => q_ext N (kv k) (rv p k) (a p k) (b p k)) /\
    is2 (x_q_sca x) P K (fun p k => q_sca N (kv k) (rv p k) (a p k) (b p k)) /\
    is2 (x_q_abs x) P K (fun p k => q_abs N (kv k) (rv p k) (a p k) (b p k)) /\
    is3 (x_geo x) 1 P K (fun _ p k => cs_geo (rv p k)) /\
    is4 (x_cs_ext_mp x) 2 N P K (fun t i p k => cs_ext_multipole (kv k) (a p k) (b p k) (negb (t =? 0)) (S i)) /\
    is4 (x_cs_sca_mp x) 2 N P K (fun t i p k => cs_sca_multipole (kv k) (a p k) (b p k) (negb (t =? 0)) (S i)) /\
    is4 (x_cs_abs_mp x) 2 N P K (fun t i p k => cs_abs_multipole (kv k) (a p k) (b p k) (negb (t =? 0)) (S i)) /\
    is4 (x_q_ext_mp x) 2 N P K (fun t i p k => q_ext_multipole (kv k) (rv p k) (a p k) (b p k) (negb (t =? 0)) (S i)) /\
    is4 (x_q_sca_mp x) 2 N P K (fun t i p k => q_sca_multipole (kv k) (rv p k) (a p k) (b p k) (negb (t =? 0)) (S i)) /\
    is4 (x_q_abs_mp x) 2 N P K (fun t i p k => q_abs_multipole (kv k) (rv p k) (a p k) (b p k) (negb (t =? 0)) (S i)).
Proof.
  intros [Hn Ha Hb Hk Hr] kv rv a b. unfold cross_sections. rewrite Hn.
  assert (Ik : is2 (o_k o) 1 K (fun _ k => kv k)).
  { split; [exact Hk|]. intros p k Hp Hk'. assert (p = 0) as -> by lia. reflexivity. }
  assert (Ir : is2 (o_r_s o) P K rv) by (split; [exact Hr|reflexivity]).
  assert (Ia : is3 (o_a o) N P K (fun i p k => a p k (S i))).
  { split; [exact Ha|]. intros i p k Hi Hp Hk'. unfold a, column. now rewrite Nat.sub_succ, Nat.sub_0_r. }
  assert (Ib : is3 (o_b o) N P K (fun i p k => b p k (S i))).
  { split; [exact Hb|]. intros i p k Hi Hp Hk'. unfold b, column. now rewrite Nat.sub_succ, Nat.sub_0_r. }
  set (nn := unsqueeze_last (unsqueeze_last (arange1 N))).
  assert (In : is3 nn N 1 1 (fun i _ _ => rofn (S i))) by (split; reflexivity).
  pose proof (is3_tmap (fun k => cdiv (cofr (rmul rtwo rpi)) (csqr k)) _ _ _ _ _ (is3_un0 _ _ _ _ Ik)) as Jp.
  pose proof (is3_tmap (fun n => cofr (radd (rmul rtwo n) rone)) _ _ _ _ _ In) as Jn.
  destruct (tbin_kn cmul _ _ _ _ _ _ Jp Jn) as (pn & -> & Jpn). cbn [bind]. cbv beta in Jpn.
  destruct (stack0 _ _ _ _ _ _ _ (is3_tmap (fun z => cofr (cre z)) _ _ _ _ _ Ia) (is3_tmap (fun z => cofr (cre z)) _ _ _ _ _ Ib)) as (re & -> & Jre).
  cbn [bind]. destruct (tbin_34 cmul _ _ _ _ _ _ _ _ Jpn Jre) as (ext & -> & Jext). cbn [bind].
  destruct (stack0 _ _ _ _ _ _ _ (is3_tmap (fun z => cofr (rsqr (cabs z))) _ _ _ _ _ Ia) (is3_tmap (fun z => cofr (rsqr (cabs z))) _ _ _ _ _ Ib)) as (ab & -> & Jab).
  cbn [bind]. destruct (tbin_34 cmul _ _ _ _ _ _ _ _ Jpn Jab) as (sca & -> & Jsca). cbn [bind].
  assert (Kext : is4 ext 2 N P K (fun t i p k => cs_ext_mp (kv k) (a p k) (b p k) (negb (t =? 0)) (S i))).
  { eapply is4_ext; [|exact Jext]. intros t i p k Ht Hi Hp Hk'. cbv beta. unfold cs_ext_mp, prefactor, coef. rewrite two_n_one.
    destruct (t =? 0); reflexivity. }
  assert (Ksca : is4 sca 2 N P K (fun t i p k => cs_sca_mp (kv k) (a p k) (b p k) (negb (t =? 0)) (S i))).
  { eapply is4_ext; [|exact Jsca]. intros t i p k Ht Hi Hp Hk'. cbv beta. unfold cs_sca_mp, prefactor, coef. rewrite two_n_one.
    destruct (t =? 0); reflexivity. }
  clear Jext Jsca.
  destruct (tbin_44 csub _ _ _ _ _ _ _ _ Kext Ksca) as (abs & -> & Kabs). cbn [bind].
  change (is4 abs 2 N P K (fun t i p k => cs_abs_mp (kv k) (a p k) (b p k) (negb (t =? 0)) (S i))) in Kabs.
  assert (Kgeo : is3 (tmap (fun r => rmul rpi (rsqr r)) (unsqueeze 0 (o_r_s o))) 1 P K (fun _ p k => cs_geo (rv p k))).
  { apply (is3_tmap (fun r => rmul rpi (rsqr r)) _ _ _ _ _ (is3_un0 _ _ _ _ Ir)). }
  assert (Kg0 : is2 (select 0 0 (tmap (fun r => rmul rpi (rsqr r)) (unsqueeze 0 (o_r_s o)))) P K (fun p k => cs_geo (rv p k))).
  { split; [cbn; now rewrite Hr|]. intros p k Hp Hk'. cbn. reflexivity. }
  assert (Sum : forall t (f : nat -> nat -> bool -> nat -> cplx R), is4 t 2 N P K (fun t i p k => f p k (negb (t =? 0)) (S i)) ->
     is2 (tmap cre (tsum01 t)) P K (fun p k => sum01 N (f p k))).
  { intros t f It. eapply is2_ext; [|exact (is2_tmap cre _ _ _ _ (is2_sum01 _ _ _ _ _ _ It))].
    intros p k _ _. cbv beta. unfold sum01, types. cbn [map seq negb Nat.eqb]. rewrite !orders_shift. reflexivity. }
  pose proof (Sum _ (fun p k => cs_ext_mp (kv k) (a p k) (b p k)) Kext) as Sext.
  pose proof (Sum _ (fun p k => cs_sca_mp (kv k) (a p k) (b p k)) Ksca) as Ssca.
  pose proof (Sum _ (fun p k => cs_abs_mp (kv k) (a p k) (b p k)) Kabs) as Sabs.
  destruct (tbin_22 rdiv _ _ _ _ _ _ Sext Kg0) as (qe & -> & Jqe). cbn [bind].
  destruct (tbin_22 rdiv _ _ _ _ _ _ Ssca Kg0) as (qs & -> & Jqs). cbn [bind].
  destruct (tbin_22 rdiv _ _ _ _ _ _ Sabs Kg0) as (qa & -> & Jqa). cbn [bind].
  destruct (tbin_43 rdiv _ _ _ _ _ _ _ _ (is4_tmap cre _ _ _ _ _ _ Kext) Kgeo) as (qem & -> & Jqem). cbn [bind].
  destruct (tbin_43 rdiv _ _ _ _ _ _ _ _ (is4_tmap cre _ _ _ _ _ _ Ksca) Kgeo) as (qsm & -> & Jqsm). cbn [bind].
  destruct (tbin_43 rdiv _ _ _ _ _ _ _ _ (is4_tmap cre _ _ _ _ _ _ Kabs) Kgeo) as (qam & -> & Jqam). cbn [bind].
  eexists. split; [reflexivity|]. cbn [x_n_max x_cs_ext x_cs_sca x_cs_abs x_q_ext x_q_sca x_q_abs x_geo x_cs_ext_mp x_cs_sca_mp x_cs_abs_mp x_q_ext_mp x_q_sca_mp x_q_abs_mp].
  split; [reflexivity|].
  split; [exact Sext|]. split; [exact Ssca|]. split; [exact Sabs|]. split; [exact Jqe|]. split; [exact Jqs|]. split; [exact Jqa|].
  split; [exact Kgeo|].
  split; [exact (is4_tmap cre _ _ _ _ _ _ Kext)|]. split; [exact (is4_tmap cre _ _ _ _ _ _ Ksca)|]. split; [exact (is4_tmap cre _ _ _ _ _ _ Kabs)|].
  split; [exact Jqem|]. split; [exact Jqsm|]. exact Jqam.
Qed.

Lemma angular_ok (o : @output R) (theta : tensor R) N P K Q : obs_shapes o N P K -> 1 <= N -> shp theta = [Q] ->
  let th q := at_ theta [q] in
  let a p k := column (o_a o) p k in let b p k := column (o_b o) p k in
  exists s, angular_scattering theta o = Ok s /\
    is3 (s_S1 s) P K Q (fun p k q => S1 N (a p k) (b p k) (th q)) /\
    is3 (s_S2 s) P K Q (fun p k q => S2 N (a p k) (b p k) (th q)) /\
    is3 (s_i_per s) P K Q (fun p k q => i_per N (a p k) (b p k) (th q)) /\
    is3 (s_i_par s) P K Q (fun p k q => i_par N (a p k) (b p k) (th q)) /\
    is3 (s_i_unpol s) P K Q (fun p k q => i_unpol N (a p k) (b p k) (th q)) /\
    is3 (s_pol_degree s) P K Q (fun p k q => pol_degree N (a p k) (b p k) (th q)).
Proof.
  intros [Hn Ha Hb Hk Hr] HN Hth th a b. unfold angular_scattering, pi_tau_t.
  destruct (Z.ltb_spec (o_n_max o) 1) as [Hbad|_]; [lia|]. cbn [bind fst snd]. rewrite Hn.
  assert (Ia : is4 (unsqueeze_last (o_a o)) N P K 1 (fun i p k _ => a p k (S i))).
  { unfold unsqueeze_last, ndim. split; [cbn; now rewrite Ha|]. rewrite Ha. intros i p k q Hi Hp Hk' Hq. cbn.
    unfold a, column. now rewrite Nat.sub_succ, Nat.sub_0_r. }
  assert (Ib : is4 (unsqueeze_last (o_b o)) N P K 1 (fun i p k _ => b p k (S i))).
  { unfold unsqueeze_last, ndim. split; [cbn; now rewrite Hb|]. rewrite Hb. intros i p k q Hi Hp Hk' Hq. cbn.
    unfold b, column. now rewrite Nat.sub_succ, Nat.sub_0_r. }
  assert (Ang : forall g : R -> nat -> R, is4 (tmap (@cofr R ROps) (unsqueeze 1 (unsqueeze 1 (narrow 0 1 N
       (mkT (S N :: shp (tmap (@rcos R ROps) theta)) (fun ix => g (at_ (tmap (@rcos R ROps) theta) (tl ix)) (hd 0 ix))))))) N 1 1 Q (fun i _ _ q => cofr (g (mu (th q)) (S i)))).
  { intros g. split; [cbn; now rewrite Hth|]. intros i x y q Hi Hx Hy Hq. cbn. replace (i + 1) with (S i) by lia. reflexivity. }
  pose proof (Ang (@pi_n R ROps)) as Ip. pose proof (Ang (@tau_n R ROps)) as It. clear Ang.
  set (pi := tmap cofr _) in Ip |- *. set (tau := tmap cofr _) in It |- *.
  set (w := tmap _ (unsqueeze_last (unsqueeze_last (unsqueeze_last (arange1 N))))).
  assert (Iw : is4 w N 1 1 1 (fun i _ _ _ => ang_w (S i))).
  { split; [reflexivity|]. intros i x y q Hi Hx Hy Hq. unfold w. cbn [tmap at_ unsqueeze_last unsqueeze arange1].
    unfold ang_w. f_equal. cbn [ndim shp List.length insert_at remove_at nth]. f_equal; [apply two_n_one|].
    rewrite !rofn_R. cbn [rmul radd rone ROps]. rewrite mult_INR, plus_INR. cbn [INR]. reflexivity. }
  destruct (tbin_ang cmul _ _ _ _ _ _ _ _ Ia Ip) as (ap & -> & Jap). cbn [bind].
  destruct (tbin_ang cmul _ _ _ _ _ _ _ _ Ib It) as (bt & -> & Jbt). cbn [bind].
  destruct (tbin_44 cadd _ _ _ _ _ _ _ _ Jap Jbt) as (s1 & -> & J1). cbn [bind].
  destruct (tbin_w cmul _ _ _ _ _ _ _ _ Iw J1) as (s1w & -> & J1w). cbn [bind].
  destruct (tbin_ang cmul _ _ _ _ _ _ _ _ Ia It) as (at' & -> & Jat). cbn [bind].
  destruct (tbin_ang cmul _ _ _ _ _ _ _ _ Ib Ip) as (bp & -> & Jbp). cbn [bind].
  destruct (tbin_44 cadd _ _ _ _ _ _ _ _ Jat Jbp) as (s2 & -> & J2). cbn [bind].
  destruct (tbin_w cmul _ _ _ _ _ _ _ _ Iw J2) as (s2w & -> & J2w). cbn [bind].
  assert (K1 : is3 (tsum0 s1w) P K Q (fun p k q => S1 N (a p k) (b p k) (th q))).
  { eapply is3_ext; [|exact (is3_sum0 _ _ _ _ _ _ J1w)]. intros p k q _ _ _. cbv beta. unfold S1. rewrite orders_shift. reflexivity. }
  assert (K2 : is3 (tsum0 s2w) P K Q (fun p k q => S2 N (a p k) (b p k) (th q))).
  { eapply is3_ext; [|exact (is3_sum0 _ _ _ _ _ _ J2w)]. intros p k q _ _ _. cbv beta. unfold S2. rewrite orders_shift. reflexivity. }
  pose proof (is3_tmap (fun z => rsqr (cabs z)) _ _ _ _ _ K1) as Kper. pose proof (is3_tmap (fun z => rsqr (cabs z)) _ _ _ _ _ K2) as Kpar.
  destruct (tbin_33 radd _ _ _ _ _ _ _ Kpar Kper) as (sum & -> & Jsum). cbn [bind].
  destruct (tbin_33 rsub _ _ _ _ _ _ _ Kper Kpar) as (dif & -> & Jdif). cbn [bind].
  destruct (tbin_33 radd _ _ _ _ _ _ _ Kper Kpar) as (sum' & -> & Jsum'). cbn [bind].
  destruct (tbin_33 rdiv _ _ _ _ _ _ _ Jdif Jsum') as (pol & -> & Jpol). cbn [bind].
  eexists. split; [reflexivity|]. cbn [s_S1 s_S2 s_i_per s_i_par s_i_unpol s_pol_degree].
  split; [exact K1|]. split; [exact K2|]. split; [exact Kper|]. split; [exact Kpar|].
  split; [exact (is3_tmap (fun x => rdiv x rtwo) _ _ _ _ _ Jsum)|exact Jpol].
Qed.
