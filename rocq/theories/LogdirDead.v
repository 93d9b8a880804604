(** The log-derivative variants never deliver a table (C92). *)
From Coq Require Import Reals ZArith List Bool String Arith Lia Lra.
From Coquelicot Require Import Coquelicot.
From Verif Require Import Ops ROps CLemmas Tensor TensorProofs ModelSpecial ModelMie ModelBatch ModelJn ModelLogdir JnProofs.
Import ListNotations.
Open Scope nat_scope.
Open Scope list_scope.

Lemma bind_ok {A B} (x : result A) (f : A -> result B) b : bind x f = Ok b -> exists a, x = Ok a /\ f a = Ok b.
Proof. destruct x as [a|e]; [|discriminate]. intros H. now exists a. Qed.
Lemma result_split {A} (x : result A) : (exists e, x = Err e) \/ (exists a, x = Ok a).
Proof. destruct x; [right|left]; eexists; reflexivity. Qed.
Lemma psi_logdir_none n (x : tensor (cplx R)) r : @psi_torch_logdir R ROps n x = Ok r -> r = RetNone.
Proof.
  unfold psi_torch_logdir. intros H. repeat (apply bind_ok in H as (? & _ & H)). now injection H.
Qed.

(** loops that hit a failing iteration *)
Lemma appends_fail (step : list (tensor (cplx R)) -> nat -> result (tensor (cplx R))) k ns :
  In k ns -> (forall fs t, step fs k <> Ok t) -> forall fs, exists e, appends step ns fs = Err e.
Proof.
  intros Hin Hk. induction ns as [|n ns IH]; intros fs; [destruct Hin|]. cbn [appends].
  destruct (step fs n) as [t|e] eqn:E; [|exists e; reflexivity]. cbn [bind].
  destruct Hin as [->|Hin]; [now apply Hk in E|]. now apply IH.
Qed.
(* the result of D3n_torch is a pair: index 2 does not exist *)
Lemma D3_pair n (z d : tensor (cplx R)) l : @D3n_torch_t R ROps n z d = Ok l -> exists a b, l = [a; b].
Proof. unfold D3n_torch_t. intros H. apply bind_ok in H as (u & _ & H). injection H as <-. eexists. eexists. reflexivity. Qed.
Lemma pair_item {A} (a b : A) : py_item [a; b] 2 = Err IndexError. Proof. reflexivity. Qed.

Ltac no_ok := let t := fresh in intros t;
  repeat match goal with |- bind ?x _ <> _ => let E := fresh in destruct x eqn:E; cbn [bind]; [|discriminate] end.
Lemma xi_logdir_err n (x : tensor (cplx R)) : exists e, @xi_torch_logdir R ROps n x = Err e.
Proof.
  unfold xi_torch_logdir. destruct (t_item 0 x (-1)) as [xL|e]; [|now exists e]. cbn [bind].
  destruct (D1n_torch_t (AStr "auto") n xL) as [D1|e]; [|now exists e]. cbn [bind].
  destruct (D3n_torch_t n xL D1) as [D3|e] eqn:E3; [|now exists e]. cbn [bind].
  destruct (D3_pair _ _ _ _ E3) as (a & b & ->).
  match goal with |- context [appends ?s ?l ?f] => destruct (appends_fail s 4 l) with (fs := f) as [e Ee] end.
  - apply in_seq. lia.
  - intros fs t. cbv beta. destruct (py_item fs _) as [p|e]; cbn [bind]; [|discriminate].
    change (Z.of_nat 4 - 2)%Z with 2%Z. rewrite pair_item. discriminate.
  - rewrite Ee. now exists e.
Qed.
Lemma Ql_layer_err n (m x : tensor (cplx R)) Qls l : exists e, @Ql_layer R ROps n m x Qls l = Err e.
Proof.
  unfold Ql_layer.
  destruct (t_item 1 m _) as [ml|e]; [|now exists e]; cbn [bind].
  destruct (t_item 1 x (Z.of_nat l - 2)) as [xa|e]; [|now exists e]; cbn [bind].
  destruct (t_item 1 x _) as [xb|e]; [|now exists e]; cbn [bind].
  destruct (tbin cmul ml xa) as [z1|e]; [|now exists e]; cbn [bind].
  destruct (tbin cmul ml xb) as [z2|e]; [|now exists e]; cbn [bind].
  destruct (D1n_torch_t _ n z1) as [D1a|e]; [|now exists e]; cbn [bind].
  destruct (D1n_torch_t _ n z2) as [D1b|e]; [|now exists e]; cbn [bind].
  destruct (D3n_torch_t n z1 D1a) as [D3a|e]; [|now exists e]; cbn [bind].
  destruct (D3n_torch_t n z2 D1b) as [D3b|e] eqn:E3; [|now exists e]; cbn [bind].
  destruct (D3_pair _ _ _ _ E3) as (a & b & ->).
  destruct (t_item 0 z1 _) as [z1l|e]; [|now exists e]; cbn [bind].
  destruct (t_item 0 z2 _) as [z2l|e]; [|now exists e]; cbn [bind].
  destruct (tbin Ql_first z1l z2l) as [q0|e]; [|now exists e]; cbn [bind].
  match goal with |- context [appends ?s ?l ?f] => destruct (appends_fail s 4 l) with (fs := f) as [e Ee] end.
  - apply in_seq. lia.
  - intros fs t. cbv beta. change (Z.of_nat 4 - 2)%Z with 2%Z. rewrite pair_item.
    repeat match goal with |- bind ?x _ <> _ => destruct x; cbn [bind]; [|discriminate] end. discriminate.
  - now exists e.
Qed.
Lemma Ql_err n (m x : tensor (cplx R)) : exists e, @Ql_torch R ROps n m x = Err e.
Proof.
  unfold Ql_torch. cbn [seq Ql_layers]. destruct (Ql_layer_err n m x [] 1) as [e E]. rewrite E. now exists e.
Qed.
Lemma Ql_den0_zero (z2 : C) : @Ql_den0 R ROps z2 = RtoC 0.
Proof. unfold Ql_den0. cbv zeta. toC. apply Cplus_opp_r. Qed.

(** ** what happens on ordinary arguments *)
Lemma bcast_cons d (s : list nat) : bcast_shape s (d :: s) = Some (d :: s).
Proof. unfold bcast_shape. cbn [rev]. rewrite bcast_rev_same. cbn [option_map]. now rewrite rev_app_distr, rev_involutive. Qed.
Lemma bcast_eq (s : list nat) : bcast_shape s s = Some s.
Proof. unfold bcast_shape. pose proof (bcast_rev_same (rev s) []) as H. rewrite !app_nil_r in H. rewrite H. cbn. now rewrite rev_involutive. Qed.
Lemma tbin_ok {A B D} (f : A -> B -> D) t u s : bcast_shape (shp t) (shp u) = Some s -> exists v, tbin f t u = Ok v /\ shp v = s.
Proof. intros H. unfold tbin. rewrite H. eexists. split; reflexivity. Qed.
Lemma D1_auto n (z : tensor (cplx R)) ix : in_bounds (shp z) ix -> exists v, @D1n_torch_t R ROps (AStr "auto") n z = Ok v /\ shp v = S n :: shp (atleast_1d z).
Proof.
  intros H. destruct (tmax_some (tmap cabs z) ix H) as (m & Hm).
  unfold D1n_torch_t, rec_depth. change (str_lower (AStr "auto")) with (@Ok string "auto"%string).
  cbn [bind]. change (("auto" =? "auto")%string) with true. cbn iota. rewrite Hm. cbn [bind]. eexists. split; reflexivity.
Qed.
Lemma atleast_id {A} (t : tensor A) : 1 <= ndim t -> shp (atleast_1d t) = shp t.
Proof. intros H. unfold atleast_1d. unfold ndim in H. destruct (shp t) eqn:E; [cbn in H; lia|]. now rewrite ?E. Qed.
(* x of shape (L, b, ...), not empty: the last layer *)
Lemma last_layer (x : tensor (cplx R)) L b s ix : shp x = S L :: b :: s -> in_bounds (shp x) ix ->
  exists xL, t_item 0 x (-1) = Ok xL /\ shp xL = b :: s /\ exists ix', in_bounds (shp xL) ix'.
Proof.
  intros E H. unfold t_item, ndim. rewrite E. cbn [List.length Nat.ltb Nat.leb guard_err bind]. unfold dim_size. rewrite E. cbn [nth].
  unfold py_wrap. change ((-1 <? 0)%Z) with true. cbv iota beta zeta.
  replace (((-1 + Z.of_nat (S L)) <? 0)%Z) with false by (symmetry; apply Z.ltb_ge; lia).
  replace ((Z.of_nat (S L) <=? -1 + Z.of_nat (S L))%Z) with false by (symmetry; apply Z.leb_gt; lia). cbn [orb bind].
  eexists. split; [reflexivity|]. unfold select. cbn [shp]. rewrite E. split; [reflexivity|]. rewrite E in H.
  destruct ix as [|i ix]; [destruct H|]. exists ix. apply H.
Qed.
Lemma xi_index_error n (x : tensor (cplx R)) L b s ix : shp x = S L :: b :: s -> in_bounds (shp x) ix ->
  @xi_torch_logdir R ROps n x = Err IndexError.
Proof.
  intros E H. destruct (last_layer x L b s ix E H) as (xL & E1 & S1 & ix' & Hin).
  unfold xi_torch_logdir. rewrite E1. cbn [bind]. destruct (D1_auto n xL ix' Hin) as (D1 & E2 & _). rewrite E2. cbn [bind].
  unfold D3n_torch_t. replace (0 <? ndim xL) with true by (unfold ndim; rewrite S1; reflexivity). cbn [orb guard_err bind].
  set (d3 := mkT (S n :: shp (atleast_1d xL)) _). set (pz := mkT (S n :: shp xL) _).
  assert (Sd : shp d3 = S n :: b :: s) by (unfold d3; cbn [shp]; rewrite atleast_id by (unfold ndim; rewrite S1; cbn; lia); now rewrite S1).
  assert (Sp : shp pz = S n :: b :: s) by (unfold pz; cbn [shp]; now rewrite S1).
  clearbody d3 pz. set (x0 := tmap _ xL). assert (S0 : shp x0 = b :: s) by exact S1. clearbody x0.
  unfold hard_orders. cbn [seq appends].
  assert (Ov : forall k, shp (@over R ROps k xL) = b :: s) by (intros; exact S1).
  change (py_item [x0] (Z.of_nat 1 - 2)) with (Ok x0). change (py_item [d3; pz] (Z.of_nat 1 - 2)) with (Ok pz). cbn [bind].
  destruct (tbin_ok csub (over 1 xL) pz (S n :: b :: s)) as (q1 & Q1 & T1); [rewrite Ov, Sp; apply bcast_cons|]. rewrite Q1. cbn [bind].
  destruct (tbin_ok cmul x0 q1 (S n :: b :: s)) as (x1 & X1 & U1); [rewrite S0, T1; apply bcast_cons|]. rewrite X1. cbn [bind app].
  change (py_item [x0; x1] (Z.of_nat 2 - 2)) with (Ok x0). change (py_item [d3; pz] (Z.of_nat 2 - 2)) with (Ok d3). cbn [bind].
  destruct (tbin_ok csub (over 2 xL) d3 (S n :: b :: s)) as (q2 & Q2 & T2); [rewrite Ov, Sd; apply bcast_cons|]. rewrite Q2. cbn [bind].
  destruct (tbin_ok cmul x0 q2 (S n :: b :: s)) as (x2 & X2 & U2); [rewrite S0, T2; apply bcast_cons|]. rewrite X2. cbn [bind app].
  change (py_item [x0; x1; x2] (Z.of_nat 3 - 2)) with (Ok x1). change (py_item [d3; pz] (Z.of_nat 3 - 2)) with (Ok pz). cbn [bind].
  destruct (tbin_ok csub (over 3 xL) pz (S n :: b :: s)) as (q3 & Q3 & T3); [rewrite Ov, Sp; apply bcast_cons|]. rewrite Q3. cbn [bind].
  destruct (tbin_ok cmul x1 q3 (S n :: b :: s)) as (x3 & X3 & U3); [rewrite U1, T3; apply bcast_eq|]. rewrite X3. cbn [bind app].
  reflexivity.
Qed.
(* psi: ten orders need nine rows of D1 *)
Lemma py_wrap_ok len (i : Z) : (0 <= i < Z.of_nat len)%Z -> py_wrap len i = Ok (Z.to_nat i).
Proof.
  intros H. unfold py_wrap. replace (i <? 0)%Z with false by (symmetry; apply Z.ltb_ge; lia).
  replace (i <? 0)%Z with false by (symmetry; apply Z.ltb_ge; lia). replace (Z.of_nat len <=? i)%Z with false by (symmetry; apply Z.leb_gt; lia). reflexivity.
Qed.
Lemma py_wrap_m1 len : 0 < len -> exists j, py_wrap len (-1) = Ok j /\ j < len.
Proof.
  intros H. unfold py_wrap. change (-1 <? 0)%Z with true. cbv iota beta zeta.
  replace (-1 + Z.of_nat len <? 0)%Z with false by (symmetry; apply Z.ltb_ge; lia).
  replace (Z.of_nat len <=? -1 + Z.of_nat len)%Z with false by (symmetry; apply Z.leb_gt; lia). eexists. split; [reflexivity|lia].
Qed.
Lemma row_ok {A} (t : tensor A) r s k : shp t = r :: s -> 1 <= k -> k <= r + 1 -> 0 < r ->
  exists v, t_item 0 t (Z.of_nat k - 2) = Ok v /\ shp v = s.
Proof.
  intros E H1 H2 H3. unfold t_item, ndim, dim_size. rewrite E. cbn [List.length Nat.ltb Nat.leb guard_err bind nth].
  assert (Q : exists j, py_wrap r (Z.of_nat k - 2) = Ok j).
  { destruct (Nat.eq_dec k 1) as [->|N]; [destruct (py_wrap_m1 r H3) as (j & Hj & _); now exists j|]. rewrite py_wrap_ok by lia. eexists. reflexivity. }
  destruct Q as [j ->]. cbn [bind]. eexists. split; [reflexivity|]. unfold select. cbn [shp]. now rewrite E.
Qed.
Lemma row_err {A} (t : tensor A) r s k : shp t = r :: s -> 2 <= k -> r + 2 <= k -> t_item 0 t (Z.of_nat k - 2) = Err IndexError.
Proof.
  intros E H1 H2. unfold t_item, ndim, dim_size. rewrite E. cbn [List.length Nat.ltb Nat.leb guard_err bind nth]. unfold py_wrap.
  replace (Z.of_nat k - 2 <? 0)%Z with false by (symmetry; apply Z.ltb_ge; lia).
  replace (Z.of_nat r <=? Z.of_nat k - 2)%Z with true by (symmetry; apply Z.leb_le; lia). now rewrite orb_true_r.
Qed.
Section Psi.
  Variables (n L b : nat) (s : list nat) (x : tensor (cplx R)) (ix : list nat).
  Hypothesis E : shp x = S L :: b :: s.
  Hypothesis H : in_bounds (shp x) ix.
  Definition good (t : tensor (cplx R)) := shp t = b :: s.
  Section Loop.
    Variables (xL D1 : tensor (cplx R)).
    Hypothesis SL : shp xL = b :: s.
    Hypothesis SD : shp D1 = S n :: b :: s.
    Definition pstep (psis : list (tensor (cplx R))) (k : nat) : result (tensor (cplx R)) :=
      let* p := py_item psis (Z.of_nat k - 2) in
      let* d := t_item 0 D1 (Z.of_nat k - 2) in
      let* q := tbin csub (@over R ROps k xL) d in tbin cmul p q.
    Lemma item_ok fs k : 1 <= k -> List.length fs = k -> List.Forall good fs -> exists p, py_item fs (Z.of_nat k - 2) = Ok p /\ good p.
    Proof.
      intros H1 Hl Hf. unfold py_item. rewrite Hl.
      assert (Q : exists j, py_wrap k (Z.of_nat k - 2) = Ok j /\ j < k).
      { destruct (Nat.eq_dec k 1) as [->|N]; [apply py_wrap_m1; lia|]. rewrite py_wrap_ok by lia. eexists. split; [reflexivity|lia]. }
      destruct Q as (j & -> & Hj). cbn [bind]. destruct (nth_error fs j) as [p|] eqn:Ep; [|apply nth_error_None in Ep; lia].
      exists p. split; [reflexivity|]. rewrite List.Forall_forall in Hf. apply Hf. now apply nth_error_In in Ep.
    Qed.
    Lemma pstep_ok fs k : 1 <= k -> k <= n + 2 -> List.length fs = k -> List.Forall good fs -> exists t, pstep fs k = Ok t /\ good t.
    Proof.
      intros H1 H2 Hl Hf. unfold pstep. destruct (item_ok fs k H1 Hl Hf) as (p & -> & Gp). cbn [bind].
      destruct (row_ok D1 (S n) (b :: s) k SD H1 ltac:(lia) ltac:(lia)) as (d & -> & Sd). cbn [bind].
      destruct (tbin_ok csub (@over R ROps k xL) d (b :: s)) as (q & -> & Sq); [rewrite Sd; unfold over; cbn [shp tmap]; rewrite SL; apply bcast_eq|]. cbn [bind].
      destruct (tbin_ok cmul p q (b :: s)) as (v & -> & Sv); [rewrite Gp, Sq; apply bcast_eq|]. exists v. split; [reflexivity|exact Sv].
    Qed.
    Lemma appends_ok len : forall k fs, 1 <= k -> k + len <= n + 3 -> List.length fs = k -> List.Forall good fs ->
      exists gs, appends pstep (seq k len) fs = Ok gs /\ List.Forall good gs /\ List.length gs = k + len.
    Proof.
      induction len as [|len IH]; intros k fs H1 H2 Hl Hf; [exists fs; repeat split; [exact Hf|lia]|].
      cbn [seq appends]. destruct (pstep_ok fs k H1 ltac:(lia) Hl Hf) as (t & -> & Gt). cbn [bind].
      destruct (IH (S k) (fs ++ [t])) as (gs & -> & Gg & Lg); [lia|lia|rewrite app_length; cbn; lia|apply Forall_app; split; [exact Hf|now constructor]|].
      exists gs. split; [reflexivity|]. split; [exact Gg|lia].
    Qed.
    Lemma appends_short len : forall k fs, 1 <= k -> k <= n + 3 -> n + 3 < k + len -> List.length fs = k -> List.Forall good fs ->
      appends pstep (seq k len) fs = Err IndexError.
    Proof.
      induction len as [|len IH]; intros k fs H1 H2 H3 Hl Hf; [lia|]. cbn [seq appends].
      destruct (Nat.eq_dec k (n + 3)) as [Ek|Nk].
      - unfold pstep at 1. destruct (item_ok fs k H1 Hl Hf) as (p & -> & _). cbn [bind]. rewrite (row_err D1 (S n) (b :: s)); [reflexivity|exact SD|lia|lia].
      - destruct (pstep_ok fs k H1 ltac:(lia) Hl Hf) as (t & -> & Gt). cbn [bind]. apply IH; [lia|lia|lia|rewrite app_length; cbn; lia|].
        apply Forall_app; split; [exact Hf|now constructor].
    Qed.
  End Loop.
  Lemma psi_cases : @psi_torch_logdir R ROps n x = if 8 <=? n then Ok RetNone else Err IndexError.
  Proof.
    destruct (last_layer x L b s ix E H) as (xL & E1 & S1 & ix' & Hin).
    unfold psi_torch_logdir. rewrite E1. cbn [bind]. destruct (D1_auto n xL ix' Hin) as (D1 & E2 & SD). rewrite E2. cbn [bind].
    rewrite atleast_id, S1 in SD by (unfold ndim; rewrite S1; cbn; lia).
    match goal with |- context [appends ?st _ _] => change st with (pstep xL D1) end. unfold hard_orders.
    assert (G0 : List.Forall good [tmap csin xL]) by (constructor; [exact S1|constructor]).
    destruct (8 <=? n) eqn:En.
    - apply Nat.leb_le in En. destruct (appends_ok xL D1 S1 SD 10 1 [tmap csin xL] ltac:(lia) ltac:(lia) eq_refl G0) as (gs & -> & Gg & Lg). cbn [bind].
      unfold stack. destruct gs as [|g gs]; [discriminate|]. replace (forallb _ _) with true; [reflexivity|]. symmetry. apply forallb_forall.
      intros t Ht. rewrite List.Forall_forall in Gg. rewrite (Gg t Ht), (Gg g (or_introl eq_refl)). apply shape_eqb_refl.
    - apply Nat.leb_gt in En. rewrite (appends_short xL D1 S1 SD 10 1); [reflexivity|lia|lia|lia|reflexivity|exact G0].
  Qed.
End Psi.
