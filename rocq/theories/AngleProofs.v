(** What angular_scattering does with a scalar angle (single particle). *)
From Coq Require Import Reals ZArith List Bool Arith Lia Lra.
From Coquelicot Require Import Coquelicot.
From Verif Require Import Ops ROps Tensor TensorProofs ModelSpecial ModelMie ModelBatch ModelObs ObsProofs.
Import ListNotations.
Open Scope nat_scope.
Open Scope list_scope.

Section Bin.
  Context {A B D : Type} (op : A -> B -> D).
  Ltac go E1 E2 := unfold tbin; rewrite E1, E2; unfold bcast_shape; cbn [rev app bcast_rev option_map];
    repeat (first [rewrite bd_same|rewrite bd_1l|rewrite bd_1r]; cbn [rev app bcast_rev option_map]);
    eexists; split; [reflexivity|split; [reflexivity|]].
  (* (N,1,K,1) with (M,1,1) *)
  Lemma tbin_mis t u N M K f g : is4 t N 1 K 1 f -> is3 u M 1 1 g ->
    exists v, tbin op t u = Ok v /\ is4 v N M K 1 (fun n m k q => op (f n 0 k 0) (g m 0 0)).
  Proof.
    intros [E1 H1] [E2 H2]. go E1 E2. intros m n p k Hm Hn Hp Hk. assert (k = 0) as -> by lia.
    cbn. rewrite ?cl by assumption. rewrite H1, H2; auto.
  Qed.
End Bin.

Lemma angular_scalar (o : @output R) (th : R) N K : obs_shapes o N 1 K -> 1 <= N ->
  let a k := column (o_a o) 0 k in let b k := column (o_b o) 0 k in
  exists s, angular_scattering (scalar_t th) o = Ok s /\
    is3 (s_S1 s) N K 1 (fun j k _ => csum (map (fun n => cmul (ang_w n) (cadd (cmul (a k n) (cofr (pi_n (mu th) (S j)))) (cmul (b k n) (cofr (tau_n (mu th) (S j)))))) (orders N))).
Proof.
  intros [Hn Ha Hb Hk Hr] HN a b. unfold angular_scattering, pi_tau_t.
  destruct (Z.ltb_spec (o_n_max o) 1) as [Hbad|_]; [lia|]. cbn [bind fst snd]. rewrite Hn.
  assert (Ia : is4 (unsqueeze_last (o_a o)) N 1 K 1 (fun i _ k _ => a k (S i))).
  { unfold unsqueeze_last, ndim. split; [cbn; now rewrite Ha|]. rewrite Ha. intros i p k q Hi Hp Hk' Hq. assert (p = 0) as -> by lia. cbn.
    unfold a, column. now rewrite Nat.sub_succ, Nat.sub_0_r. }
  assert (Ib : is4 (unsqueeze_last (o_b o)) N 1 K 1 (fun i _ k _ => b k (S i))).
  { unfold unsqueeze_last, ndim. split; [cbn; now rewrite Hb|]. rewrite Hb. intros i p k q Hi Hp Hk' Hq. assert (p = 0) as -> by lia. cbn.
    unfold b, column. now rewrite Nat.sub_succ, Nat.sub_0_r. }
  assert (Ang : forall g : R -> nat -> R, is3 (tmap (@cofr R ROps) (unsqueeze 1 (unsqueeze 1 (narrow 0 1 N
       (mkT (S N :: shp (tmap (@rcos R ROps) (scalar_t th))) (fun ix => g (at_ (tmap (@rcos R ROps) (scalar_t th)) (tl ix)) (hd 0 ix))))))) N 1 1 (fun i _ _ => cofr (g (mu th) (S i)))).
  { intros g. split; [reflexivity|]. intros i x y Hi Hx Hy. cbn. replace (i + 1) with (S i) by lia. reflexivity. }
  pose proof (Ang (@pi_n R ROps)) as Ip. pose proof (Ang (@tau_n R ROps)) as It. clear Ang.
  set (pi := tmap cofr _) in Ip |- *. set (tau := tmap cofr _) in It |- *.
  set (w := tmap _ (unsqueeze_last (unsqueeze_last (unsqueeze_last (arange1 N))))).
  assert (Iw : is4 w N 1 1 1 (fun i _ _ _ => ang_w (S i))).
  { split; [reflexivity|]. intros i x y q Hi Hx Hy Hq. unfold w. cbn [tmap at_ unsqueeze_last unsqueeze arange1].
    unfold ang_w. f_equal. cbn [ndim shp List.length insert_at remove_at nth]. f_equal; [apply two_n_one|].
    rewrite !rofn_R. cbn [rmul radd rone ROps]. rewrite mult_INR, plus_INR. cbn [INR]. reflexivity. }
  destruct (tbin_mis cmul _ _ _ _ _ _ _ Ia Ip) as (ap & -> & Jap). cbn [bind].
  destruct (tbin_mis cmul _ _ _ _ _ _ _ Ib It) as (bt & -> & Jbt). cbn [bind].
  destruct (tbin_44 cadd _ _ _ _ _ _ _ _ Jap Jbt) as (s1 & -> & J1). cbn [bind].
  destruct (tbin_w cmul _ _ _ _ _ _ _ _ Iw J1) as (s1w & -> & J1w). cbn [bind].
  destruct (tbin_mis cmul _ _ _ _ _ _ _ Ia It) as (at' & -> & Jat). cbn [bind].
  destruct (tbin_mis cmul _ _ _ _ _ _ _ Ib Ip) as (bp & -> & Jbp). cbn [bind].
  destruct (tbin_44 cadd _ _ _ _ _ _ _ _ Jat Jbp) as (s2 & -> & J2). cbn [bind].
  destruct (tbin_w cmul _ _ _ _ _ _ _ _ Iw J2) as (s2w & -> & J2w). cbn [bind].
  pose proof (is3_sum0 _ _ _ _ _ _ J1w) as K1. pose proof (is3_sum0 _ _ _ _ _ _ J2w) as K2.
  pose proof (is3_tmap (fun z => rsqr (cabs z)) _ _ _ _ _ K1) as Kper. pose proof (is3_tmap (fun z => rsqr (cabs z)) _ _ _ _ _ K2) as Kpar.
  destruct (tbin_33 radd _ _ _ _ _ _ _ Kpar Kper) as (sum & -> & Jsum). cbn [bind].
  destruct (tbin_33 rsub _ _ _ _ _ _ _ Kper Kpar) as (dif & -> & Jdif). cbn [bind].
  destruct (tbin_33 radd _ _ _ _ _ _ _ Kper Kpar) as (sum' & -> & Jsum'). cbn [bind].
  destruct (tbin_33 rdiv _ _ _ _ _ _ _ Jdif Jsum') as (pol & -> & Jpol). cbn [bind].
  eexists. split; [reflexivity|]. cbn [s_S1].
  eapply is3_ext; [|exact K1]. intros p k q _ _ _. cbv beta. rewrite orders_shift. reflexivity.
Qed.

(* two orders with a_1 = a_2 = 1, b = 0, forward direction: the amplitude is 4,
   the call returns two numbers, the first of which is 7/3 *)
Definition wit_t (v : R) : tensor (cplx R) := mkT [2; 1; 1] (fun _ => cofr v).
Definition wit_o : @output R :=
  let r := mkT [1; 1] (fun _ => 1%R) in let c := mkT [1; 1] (fun _ => @cofr R ROps 1%R) in
  {| o_cfg := {| c_k0 := r; c_r := r; c_eps := mkT [1; 1; 1] (fun _ => cofr 1%R); c_env := c; c_n_env := c |};
     o_n_max := 2; o_k := c; o_r_c := r; o_r_s := r; o_eps_c := c; o_eps_s := c;
     o_a := wit_t 1; o_b := wit_t 0; o_internal := None |}.
Lemma wit_shapes : obs_shapes wit_o 2 1 1. Proof. split; reflexivity. Qed.
Lemma angular_scalar_wrong : exists s, angular_scattering (scalar_t 0%R) wit_o = Ok s /\
  shp (s_S1 s) = [2; 1; 1] /\ at_ (s_S1 s) [0; 0; 0] = RtoC (7/3) /\ at_ (s_S1 s) [1; 0; 0] = RtoC 7 /\
  S1 2 (column (o_a wit_o) 0 0) (column (o_b wit_o) 0 0) 0%R = RtoC 4.
Proof.
  destruct (angular_scalar wit_o 0%R 2 1 wit_shapes ltac:(lia)) as (s & Hs & [Hsh Hat]). exists s. split; [exact Hs|]. split; [exact Hsh|].
  rewrite !Hat by lia. unfold S1, orders, ang_w, column, mu, wit_o, wit_t. cbn [o_a o_b at_ rcos ROps seq map]. rewrite cos_0.
  unfold csum. cbn. unfold cmul, cadd, cofr, czero. cbn. unfold rtwo. cbn.
  split; [|split]; apply injective_projections; cbn; field.
Qed.
