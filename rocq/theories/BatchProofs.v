(** The tensor-level coefficient computations refine the scalar ones. *)
From Coq Require Import ZArith List Bool String Arith Lia.
From Verif Require Import Ops Tensor TensorProofs ModelSpecial ModelMie ModelBatch.
Import ListNotations.
Open Scope nat_scope.
Open Scope list_scope.

Section Batch.
  Context {T : Type} {RO : RealOps T}.
  Notation C := (cplx T).

  Lemma is3_orders n_max (f : C -> nat -> C) z P K g : is2 z P K g ->
    is3 (orders_t n_max f z) (S n_max) P K (fun n p k => f (g p k) n).
  Proof. intros [E H]. split; [cbn; now rewrite E|]. intros. cbn. now rewrite H. Qed.

  Lemma h_step_ok n_max P K N ml mlm1 H D1c D3c D1p D3p Q fml fmlm1 fH fD1c fD3c fD1p fD3p fQ :
    is2 ml P K fml -> is2 mlm1 P K fmlm1 -> is3 H N P K fH ->
    is3 D1c N P K fD1c -> is3 D3c N P K fD3c -> is3 D1p N P K fD1p -> is3 D3p N P K fD3p -> is3 Q N P K fQ ->
    exists v, h_step n_max ml mlm1 H D1c D3c D1p D3p Q = Ok v /\ is3 v N P K (fun n p k =>
      let G1 := csub (cmul (fml p k) (fH n p k)) (cmul (fmlm1 p k) (fD1p n p k)) in
      let G2 := csub (cmul (fml p k) (fH n p k)) (cmul (fmlm1 p k) (fD3p n p k)) in
      cdiv (csub (cmul G2 (fD1c n p k)) (cmul (cmul (fQ n p k) G1) (fD3c n p k)))
           (guard eps30 (csub G2 (cmul (fQ n p k) G1)))).
  Proof.
    intros I1 I2 I3 I4 I5 I6 I7 I8. unfold h_step.
    destruct (tbin_23 cmul _ _ _ _ _ _ _ I1 I3) as (mH & -> & J1). cbn [bind].
    destruct (tbin_23 cmul _ _ _ _ _ _ _ I2 I6) as (mD1 & -> & J2). cbn [bind].
    destruct (tbin_23 cmul _ _ _ _ _ _ _ I2 I7) as (mD3 & -> & J3). cbn [bind].
    destruct (tbin_33 csub _ _ _ _ _ _ _ J1 J2) as (G1 & -> & J4). cbn [bind].
    destruct (tbin_33 csub _ _ _ _ _ _ _ J1 J3) as (G2 & -> & J5). cbn [bind].
    destruct (tbin_33 cmul _ _ _ _ _ _ _ I8 J4) as (QG1 & -> & J6). cbn [bind].
    destruct (tbin_33 csub _ _ _ _ _ _ _ J5 J6) as (den & -> & J7). cbn [bind].
    destruct (tbin_33 cmul _ _ _ _ _ _ _ J5 I4) as (n1 & -> & J8). cbn [bind].
    destruct (tbin_33 cmul _ _ _ _ _ _ _ J6 I5) as (n2 & -> & J9). cbn [bind].
    destruct (tbin_33 csub _ _ _ _ _ _ _ J8 J9) as (num & -> & J10). cbn [bind].
    destruct (tbin_33 cdiv _ _ _ _ _ _ _ J10 (is3_tmap (guard eps30) _ _ _ _ _ J7)) as (v & -> & J11).
    exists v. split; [reflexivity|exact J11].
  Qed.

  Section Stack.
    Variables (n_max P L K : nat) (m x : tensor C) (fm fx : nat -> nat -> nat -> C).
    Hypothesis (Im : is3 m P L K fm) (Ix : is3 x P L K fx).
    Notation lay p k l := (fm p l k, fx p l k).

    Lemma layer_ok l H fH : 1 <= l < L ->
      is3 (fst H) (S n_max) P K (fun n p k => fst (fH n p k)) ->
      is3 (snd H) (S n_max) P K (fun n p k => snd (fH n p k)) ->
      exists H', pena_layer_t n_max m x l H = Ok H' /\
        is3 (fst H') (S n_max) P K (fun n p k => fst (pena_layer n_max 15 (lay p k (l - 1)) (lay p k l) (fH n p k) n)) /\
        is3 (snd H') (S n_max) P K (fun n p k => snd (pena_layer n_max 15 (lay p k (l - 1)) (lay p k l) (fH n p k) n)).
    Proof.
      intros Hl Ia Ib. unfold pena_layer_t.
      assert (Hl1 : l - 1 < L) by lia. assert (Hl0 : l < L) by lia.
      pose proof (is2_select m P L K fm l Hl0 Im) as Jm. pose proof (is2_select x P L K fx l Hl0 Ix) as Jx.
      pose proof (is2_select m P L K fm (l - 1) Hl1 Im) as Jm1. pose proof (is2_select x P L K fx (l - 1) Hl1 Ix) as Jx1.
      destruct (tbin_22 cmul _ _ _ _ _ _ Jm Jx) as (zc & -> & Jc). cbn [bind].
      destruct (tbin_22 cmul _ _ _ _ _ _ Jm Jx1) as (zp & -> & Jp). cbn [bind].
      assert (JQ : is3 (Q_t n_max zp zc (select 1 (l - 1) x) (select 1 l x)) (S n_max) P K
        (fun n p k => pQ n_max 15 (cmul (fm p l k) (fx p (l - 1) k)) (cmul (fm p l k) (fx p l k)) (fx p (l - 1) k) (fx p l k) n)).
      { split; [cbn [Q_t shp]; now rewrite (proj1 Jp)|]. intros n p k Hn Hp Hk. unfold Q_t. cbn [at_ tl hd].
        rewrite (proj2 Jp p k Hp Hk), (proj2 Jc p k Hp Hk), (proj2 Jx p k Hp Hk), (proj2 Jx1 p k Hp Hk). reflexivity. }
      pose proof (is3_orders n_max (fun z => pD1 n_max 15 z) zc P K _ Jc) as J1c.
      pose proof (is3_orders n_max (fun z => pD3 n_max 15 z) zc P K _ Jc) as J3c.
      pose proof (is3_orders n_max (fun z => pD1 n_max 15 z) zp P K _ Jp) as J1p.
      pose proof (is3_orders n_max (fun z => pD3 n_max 15 z) zp P K _ Jp) as J3p.
      cbv beta in J1c, J3c, J1p, J3p.
      destruct (h_step_ok n_max P K _ _ _ _ _ _ _ _ _ _ _ _ _ _ _ _ _ Jm Jm1 Ia J1c J3c J1p J3p JQ) as (Ha & Ea & Ja).
      destruct (h_step_ok n_max P K _ _ _ _ _ _ _ _ _ _ _ _ _ _ _ _ _ Jm1 Jm Ib J1c J3c J1p J3p JQ) as (Hb & Eb & Jb).
      unfold D1_t, D3_t. rewrite Ea. cbn [bind]. rewrite Eb. cbn [bind].
      eexists. split; [reflexivity|]. cbn [fst snd]. split; [exact Ja|exact Jb].
    Qed.

    Lemma loop_ok cnt : forall l H fH, 1 <= l -> l + cnt = L ->
      is3 (fst H) (S n_max) P K (fun n p k => fst (fH n p k)) ->
      is3 (snd H) (S n_max) P K (fun n p k => snd (fH n p k)) ->
      exists H', pena_loop_t n_max m x l cnt H = Ok H' /\
        is3 (fst H') (S n_max) P K (fun n p k => fst (pena_layers n_max 15 (lay p k (l - 1)) (map (fun j => lay p k j) (seq l cnt)) (fH n p k) n)) /\
        is3 (snd H') (S n_max) P K (fun n p k => snd (pena_layers n_max 15 (lay p k (l - 1)) (map (fun j => lay p k j) (seq l cnt)) (fH n p k) n)).
    Proof.
      induction cnt as [|cnt IH]; intros l H fH Hl HL Ia Ib.
      - exists H. split; [reflexivity|]. split; assumption.
      - cbn [pena_loop_t seq map pena_layers].
        destruct (layer_ok l H fH ltac:(lia) Ia Ib) as (H1 & -> & Ia1 & Ib1). cbn [bind].
        destruct (IH (S l) H1 (fun n p k => pena_layer n_max 15 (lay p k (l - 1)) (lay p k l) (fH n p k) n) ltac:(lia) ltac:(lia) Ia1 Ib1)
          as (H2 & -> & Ia2 & Ib2).
        exists H2. split; [reflexivity|]. replace (S l - 1) with l in Ia2, Ib2 by lia. split; assumption.
    Qed.
  End Stack.

  Lemma final_ok n_max P K term xL ft fx : is3 term (S n_max) P K ft -> is2 xL P K fx ->
    exists v, final_t n_max term xL = Ok v /\ is3 v n_max P K (fun i p k =>
      cdiv (csub (cmul (ft (S i) p k) (ppsi n_max 15 (fx p k) (S i))) (ppsi n_max 15 (fx p k) i))
           (guard eps30 (csub (cmul (ft (S i) p k) (pzeta n_max 15 (fx p k) (S i))) (pzeta n_max 15 (fx p k) i)))).
  Proof.
    intros It Ix. unfold final_t, psi_t, zeta_t.
    pose proof (is3_orders n_max (fun z => ppsi n_max 15 z) _ _ _ _ Ix) as Jp.
    pose proof (is3_orders n_max (fun z => pzeta n_max 15 z) _ _ _ _ Ix) as Jz.
    pose proof (is3_narrow _ _ _ _ _ 1 n_max (le_n _) It) as Ut.
    pose proof (is3_narrow _ _ _ _ _ 1 n_max (le_n _) Jp) as Up. pose proof (is3_narrow _ _ _ _ _ 1 n_max (le_n _) Jz) as Uz.
    assert (H0 : 0 + n_max <= S n_max) by lia.
    pose proof (is3_narrow _ _ _ _ _ 0 n_max H0 Jp) as Lp. pose proof (is3_narrow _ _ _ _ _ 0 n_max H0 Jz) as Lz.
    destruct (tbin_33 cmul _ _ _ _ _ _ _ Ut Uz) as (tz & -> & J1). cbn [bind].
    destruct (tbin_33 csub _ _ _ _ _ _ _ J1 Lz) as (den & -> & J2). cbn [bind].
    destruct (tbin_33 cmul _ _ _ _ _ _ _ Ut Up) as (tp & -> & J3). cbn [bind].
    destruct (tbin_33 csub _ _ _ _ _ _ _ J3 Lp) as (num & -> & J4). cbn [bind].
    destruct (tbin_33 cdiv _ _ _ _ _ _ _ J4 (is3_tmap (guard eps30) _ _ _ _ _ J2)) as (v & -> & J5).
    exists v. split; [reflexivity|]. eapply is3_ext; [|exact J5]. intros i p k _ _ _. cbn beta.
    replace (i + 1) with (S i) by lia. replace (i + 0) with i by lia. reflexivity.
  Qed.

  Lemma pena_t_ok k r eps n_env (n : Z) P L K kf rf ef nf :
    is2 k 1 K kf -> is2 r P L rf -> is3 eps P L K ef -> is2 n_env 1 K nf -> 1 <= L -> (1 <= n)%Z ->
    let n_max := Z.to_nat n in
    let lay p k l := (cdiv (csqrt (ef p l k)) (nf 0 k), cmul (kf 0 k) (cofr (rf p l))) in
    let ab i p k := pena_ab n_max 15 (lay p k 0) (map (lay p k) (seq 1 (L - 1))) (S i) in
    exists a b, miecoef_pena_t k r eps n_env n false = Ok (a, b) /\
      is3 a n_max P K (fun i p k => fst (ab i p k)) /\ is3 b n_max P K (fun i p k => snd (ab i p k)).
  Proof.
    intros Ik Ir Ie In HL Hn n_max lay ab. unfold miecoef_pena_t.
    destruct (Z.ltb_spec n 1) as [Hbad|_]; [lia|]. fold n_max.
    destruct (tbin_outer cmul _ _ _ _ _ _ _ (is3_un1 _ _ _ _ Ik) (is3_unl _ _ _ _ (is2_tmap cofr _ _ _ _ Ir))) as (x & -> & Jx).
    cbn [bind]. cbn beta in Jx.
    destruct (tbin_3k cdiv _ _ _ _ _ _ _ (is3_tmap csqrt _ _ _ _ _ Ie) (is3_un1 _ _ _ _ In)) as (m & -> & Jm).
    cbn [bind]. cbn beta in Jm.
    unfold dim_size. rewrite (proj1 Jx). cbn [nth].
    destruct (tbin_22 cmul _ _ _ _ _ _ (is2_select _ _ _ _ _ 0 HL Jm) (is2_select _ _ _ _ _ 0 HL Jx)) as (z0 & -> & Jz). cbn [bind].
    pose proof (is3_orders n_max (fun z => pD1 n_max 15 z) z0 _ _ _ Jz) as JD. cbn beta in JD.
    set (fm := fun p l k => cdiv (csqrt (ef p l k)) (nf 0 k)) in *.
    set (fx := fun p l k => cmul (kf 0 k) (cofr (rf p l))) in *.
    destruct (loop_ok n_max P L K m x fm fx Jm Jx (L - 1) 1 (D1_t n_max z0, D1_t n_max z0)
                (fun n p k => pena_first n_max 15 (fm p 0 k, fx p 0 k) n) ltac:(lia) ltac:(lia) JD JD) as (H & -> & Ja & Jb).
    cbn [bind].
    assert (HL1 : L - 1 < L) by lia.
    pose proof (is2_select _ _ _ _ _ (L - 1) HL1 Jm) as JmL. pose proof (is2_select _ _ _ _ _ (L - 1) HL1 Jx) as JxL.
    set (narr := mkT [S n_max; 1; 1] _).
    assert (Jn : is3 narr (S n_max) 1 1 (fun n _ _ => cofn n)) by (split; reflexivity).
    destruct (tbin_n cdiv _ _ _ _ _ _ _ Jn (is3_un0 _ _ _ _ (is2_tmap (guard eps30) _ _ _ _ JxL))) as (nx & -> & Jnx). cbn [bind].
    destruct (tbin_N1 cdiv _ _ _ _ _ _ _ Ja (is3_un0 _ _ _ _ JmL)) as (ha & -> & Jha). cbn [bind].
    destruct (tbin_33 cadd _ _ _ _ _ _ _ Jha Jnx) as (ta & -> & Jta). cbn [bind].
    destruct (final_ok n_max _ _ _ _ _ _ Jta JxL) as (a & -> & Jfa). cbn [bind].
    destruct (tbin_1N cmul _ _ _ _ _ _ _ (is3_un0 _ _ _ _ JmL) Jb) as (hb & -> & Jhb). cbn [bind].
    destruct (tbin_33 cadd _ _ _ _ _ _ _ Jhb Jnx) as (tb & -> & Jtb). cbn [bind].
    destruct (final_ok n_max _ _ _ _ _ _ Jtb JxL) as (b & -> & Jfb). cbn [bind].
    exists a, b. split; [reflexivity|].
    assert (Hlast : forall p k, last (map (lay p k) (seq 1 (L - 1))) (lay p k 0) = (fm p (L - 1) k, fx p (L - 1) k)).
    { intros p k0. destruct L as [|L']; [lia|]. cbn [Nat.sub]. rewrite Nat.sub_0_r.
      destruct L' as [|L']; [reflexivity|]. rewrite seq_S, map_app. cbn [map]. rewrite last_last. reflexivity. }
    split; (eapply is3_ext; [|eassumption]); intros i p k0 Hi Hp Hk; cbn beta; unfold ab, pena_ab; rewrite Hlast;
      unfold pena_final; cbn [fst snd]; replace (S i - 1) with i by lia; reflexivity.
  Qed.
End Batch.
