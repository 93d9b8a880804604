(** Proofs about [_as_layer_inputs] and [_broadcast_mie_layers]. *)
From Coq Require Import Reals ZArith List Bool String Arith Lia Lra.
From Coquelicot Require Import Complex.
From Verif Require Import Ops ROps Tensor TensorProofs ModelSpecial ModelMie ModelBatch BroadcastSpec.
Import ListNotations.
Open Scope nat_scope.
Open Scope list_scope.

Lemma rltb_lt (x y : R) : rltb x y = true <-> (x < y)%R.
Proof. cbn. unfold Rltb. destruct (Rlt_dec x y); split; auto; discriminate. Qed.
Lemma reqb_eq (x y : R) : reqb x y = true <-> x = y.
Proof. cbn. unfold Reqb. destruct (Req_EM_T x y); split; auto; discriminate. Qed.

(** ** spectrum *)
Lemma k0_some (k0 : tensor R) K : k0_len (shp k0) = Some K -> shp (atleast_1d (squeeze k0)) = [K].
Proof.
  unfold k0_len, atleast_1d, squeeze, squeeze_shape. cbn.
  destruct (filter _ _) as [|a [|b l]] eqn:E; intros H; try discriminate; injection H as <-; cbn; auto.
Qed.
Lemma k0_none (k0 : tensor R) : k0_len (shp k0) = None -> forall K, shp (atleast_1d (squeeze k0)) <> [K].
Proof.
  unfold k0_len, atleast_1d, squeeze, squeeze_shape. cbn.
  destruct (filter _ _) as [|a [|b l]] eqn:E; intros H; try discriminate; cbn; discriminate.
Qed.

(** ** permittivities *)
Lemma bto3 {A} (t : tensor A) a b c P L K :
  shp t = [a; b; c] -> (a = P \/ a = 1) -> (b = L \/ b = 1) -> (c = K \/ c = 1) ->
  exists v, broadcast_to [P; L; K] t = Ok v /\ shp v = [P; L; K] /\
    forall p l k, at_ v [p; l; k] = at_ t [if a =? 1 then 0 else p; if b =? 1 then 0 else l; if c =? 1 then 0 else k].
Proof.
  intros E Ha Hb Hc. unfold broadcast_to. rewrite E.
  assert (B : bcast_shape [a; b; c] [P; L; K] = Some [P; L; K]).
  { unfold bcast_shape. cbn [rev app bcast_rev].
    assert (D : forall x y, x = y \/ x = 1 -> bcast_dim x y = Some y) by (intros x y [->| ->]; [apply bd_same|apply bd_1l]).
    rewrite (D c K Hc), (D b L Hb), (D a P Ha). reflexivity. }
  rewrite B, shape_eqb_refl. eexists. split; [reflexivity|]. split; [reflexivity|]. intros. reflexivity.
Qed.
Lemma sel1 {X} (a i : nat) (f : nat -> X) : i < a -> f (if a =? 1 then 0 else i) = f i.
Proof. intros. now rewrite cl. Qed.

Lemma eps_ok P L K (eps : tensor (cplx R)) ef : eps_layout P L K (shp eps) = Some ef ->
  exists v, broadcast_eps P L K eps = Ok v /\ is3 v P L K (fun p l k => at_ eps (ef p l k)).
Proof.
  unfold eps_layout, broadcast_eps, atleast_1d. destruct (shp eps) as [|a [|b [|c [|d s]]]] eqn:E; intros H; try discriminate.
  - destruct (Nat.eqb_spec L 1) as [->|]; [|discriminate]. injection H as <-. cbn [shp Nat.eqb negb].
    destruct (bto3 (mkT [1; 1; 1] (fun ix => at_ eps [])) 1 1 1 P 1 K eq_refl) as (v & Hv & Hs & Hat); auto.
    cbn [at_]. exists v. split; [exact Hv|]. split; [exact Hs|]. intros. rewrite Hat. reflexivity.
  - destruct (Nat.eqb_spec a L) as [->|]; [|discriminate]. injection H as <-. rewrite E, Nat.eqb_refl. cbn [negb].
    destruct (bto3 (mkT [1; L; 1] (fun ix => at_ eps [nth 1 ix 0])) 1 L 1 P L K eq_refl) as (v & Hv & Hs & Hat); auto.
    exists v. split; [exact Hv|]. split; [exact Hs|]. intros. rewrite Hat. cbn. now rewrite cl.
  - rewrite E. cbn [shape_eqb].
    destruct ((a =? P) && (b =? L)) eqn:E1.
    + apply andb_true_iff in E1. destruct E1 as [E1 E2]. rewrite E1, E2. cbn [andb]. injection H as <-.
      apply Nat.eqb_eq in E1, E2. subst a b.
      destruct (bto3 (unsqueeze_last eps) P L 1 P L K) as (v & Hv & Hs & Hat); auto.
      { unfold unsqueeze_last, ndim. cbn. now rewrite E. }
      exists v. split; [exact Hv|]. split; [exact Hs|]. intros. rewrite Hat. unfold unsqueeze_last, ndim. cbn. rewrite E. cbn.
      now rewrite !cl.
    + replace ((a =? P) && ((b =? L) && true)) with false by (now rewrite andb_true_r, E1).
      destruct ((a =? L) && (b =? K)) eqn:E2; [|discriminate]. injection H as <-.
      apply andb_true_iff in E2. destruct E2 as [E2 E3]. rewrite E2, E3. cbn [andb].
      apply Nat.eqb_eq in E2, E3. subst a b.
      destruct (bto3 (unsqueeze 0 eps) 1 L K P L K) as (v & Hv & Hs & Hat); auto.
      { cbn. now rewrite E. }
      exists v. split; [exact Hv|]. split; [exact Hs|]. intros. rewrite Hat. cbn. now rewrite !cl.
  - rewrite E. fold (singleton a P).
    destruct (((a =? P) || singleton a P) && (b =? L) && ((c =? K) || singleton c K)) eqn:E1; [|discriminate]. injection H as <-.
    apply andb_true_iff in E1. destruct E1 as [E1 E3]. apply andb_true_iff in E1. destruct E1 as [E1 E2].
    apply Nat.eqb_eq in E2. subst b.
    assert (S1 : exists e1, (if singleton a P then broadcast_to [P; L; c] eps else Ok eps) = Ok e1 /\ shp e1 = [P; L; c] /\
       forall p l k, p < P -> l < L -> k < c -> at_ e1 [p; l; k] = at_ eps [if a =? 1 then 0 else p; l; k]).
    { destruct (singleton a P) eqn:Es.
      - unfold singleton in Es. apply andb_true_iff in Es. destruct Es as [Es _]. apply Nat.eqb_eq in Es. subst a.
        destruct (bto3 eps 1 L c P L c E) as (v & Hv & Hs & Hat); auto. exists v. split; [exact Hv|]. split; [exact Hs|].
        intros. rewrite Hat. cbn. now rewrite !cl.
      - rewrite orb_false_r in E1. apply Nat.eqb_eq in E1. subst a. exists eps. split; [reflexivity|]. split; [exact E|].
        intros. now rewrite cl. }
    destruct S1 as (e1 & -> & Es1 & Hat1). cbn [bind].
    unfold dim_size. rewrite Es1. cbn [firstn nth]. rewrite shape_eqb_refl. cbn [negb].
    fold (singleton c K).
    destruct (singleton c K) eqn:Es.
    + unfold singleton in Es. apply andb_true_iff in Es. destruct Es as [Es _]. apply Nat.eqb_eq in Es. subst c.
      destruct (bto3 e1 P L 1 P L K Es1) as (v & Hv & Hs & Hat); auto. exists v. split; [exact Hv|]. split; [exact Hs|].
      intros. rewrite Hat. rewrite !cl by assumption. cbn [Nat.eqb]. apply Hat1; auto.
    + rewrite orb_false_r in E3. apply Nat.eqb_eq in E3. subst c. rewrite Nat.eqb_refl. cbn [negb].
      exists e1. split; [reflexivity|]. split; [exact Es1|]. intros. rewrite cl with (d := K) by assumption. now apply Hat1.
Qed.
Lemma eps_bad P L K (eps : tensor (cplx R)) : eps_layout P L K (shp eps) = None -> broadcast_eps P L K eps = Err ValueError.
Proof.
  unfold eps_layout, broadcast_eps, atleast_1d. destruct (shp eps) as [|a [|b [|c [|d s]]]] eqn:E; intros H; cbn [shp].
  - rewrite Nat.eqb_sym. destruct (L =? 1); [discriminate|reflexivity].
  - rewrite E. destruct (a =? L); [discriminate|reflexivity].
  - rewrite E. cbn [shape_eqb]. rewrite !andb_true_r.
    destruct ((a =? P) && (b =? L)); [discriminate|]. destruct ((a =? L) && (b =? K)); [discriminate|reflexivity].
  - rewrite E. fold (singleton a P).
    destruct (singleton a P) eqn:Es.
    + assert (Ea : a = 1) by (unfold singleton in Es; apply andb_true_iff in Es; now apply Nat.eqb_eq). subst a.
      destruct (bto3 eps 1 b c P b c E) as (v & -> & Hs & _); auto. cbn [bind]. rewrite Hs. unfold dim_size. rewrite Hs. cbn [firstn nth shape_eqb].
      rewrite Nat.eqb_refl, andb_true_r. cbn [andb]. rewrite orb_true_r in H. cbn [andb] in H. fold (singleton c K).
      destruct (b =? L); [|reflexivity]. cbn [andb negb] in *.
      destruct (singleton c K); [rewrite orb_true_r in H; discriminate|]. rewrite orb_false_r in H.
      destruct (c =? K); [discriminate|reflexivity].
    + cbn [bind]. rewrite E. unfold dim_size. rewrite E. cbn [firstn nth shape_eqb]. rewrite orb_false_r in H. rewrite andb_true_r.
      destruct ((a =? P) && (b =? L)) eqn:E1; cbn [negb]; [|reflexivity]. cbn [andb] in H. fold (singleton c K).
      destruct (singleton c K); [rewrite orb_true_r in H; discriminate|]. rewrite orb_false_r in H.
      destruct (c =? K); [discriminate|reflexivity].
  - rewrite E. reflexivity.
Qed.

(** ** environment *)
Definition env_step (K : nat) (env : tensor (cplx R)) : result (tensor (cplx R)) :=
  let env := atleast_1d env in
  match shp env with
  | [a] => if (a =? 1) && (1 <? K) then broadcast_to [K] env
           else if negb (a =? K) then Err ValueError else Ok env
  | _ => Err ValueError
  end.
Lemma env_ok K (env : tensor (cplx R)) vf : env_layout K (shp env) = Some vf ->
  exists v, env_step K env = Ok v /\ is1 v K (fun k => at_ env (vf k)).
Proof.
  unfold env_layout, env_step, atleast_1d. destruct (shp env) as [|a [|b s]] eqn:E; intros H; try discriminate.
  - destruct (Nat.leb_spec 1 K) as [HK|]; [|discriminate]. injection H as <-. cbn [shp]. rewrite Nat.eqb_refl. cbn [andb].
    destruct (Nat.ltb_spec 1 K).
    + unfold broadcast_to, bcast_shape. cbn [shp rev app bcast_rev]. rewrite bd_1l. cbn. rewrite Nat.eqb_refl. cbn.
      eexists. split; [reflexivity|]. split; [reflexivity|]. reflexivity.
    + assert (K = 1) as -> by lia. cbn. eexists. split; [reflexivity|]. split; [reflexivity|]. reflexivity.
  - rewrite E. fold (singleton a K). destruct (Nat.eqb_spec a K) as [->|Hne].
    + injection H as <-. unfold singleton. destruct (Nat.eqb_spec K 1) as [->|]; cbn [andb Nat.ltb Nat.leb negb].
      * exists env. split; [reflexivity|]. split; [exact E|reflexivity].
      * exists env. split; [reflexivity|]. split; [exact E|reflexivity].
    + destruct (singleton a K) eqn:Es; [|discriminate]. injection H as <-.
      assert (Ea : a = 1) by (unfold singleton in Es; apply andb_true_iff in Es; now apply Nat.eqb_eq). subst a.
      unfold broadcast_to, bcast_shape. rewrite E. cbn [shp rev app bcast_rev]. rewrite bd_1l. cbn. rewrite Nat.eqb_refl. cbn.
      eexists. split; [reflexivity|]. split; [reflexivity|]. reflexivity.
Qed.
Lemma env_bad K (env : tensor (cplx R)) : env_layout K (shp env) = None -> env_step K env = Err ValueError.
Proof.
  unfold env_layout, env_step, atleast_1d. destruct (shp env) as [|a [|b s]] eqn:E; intros H; cbn [shp].
  - destruct K; [reflexivity|discriminate].
  - rewrite E. fold (singleton a K). destruct (a =? K); [discriminate|]. destruct (singleton a K); [discriminate|reflexivity].
  - rewrite E. reflexivity.
Qed.

(** ** the whole function *)
Definition r2 (r : tensor R) : tensor R :=
  let r := atleast_1d r in match shp r with [_] => unsqueeze 0 r | _ => r end.
Lemma r2_some r P L : r_dims (shp r) = Some (P, L) -> is2 (r2 r) P L (fun p l => at_ r (r_ix (shp r) p l)).
Proof.
  unfold r_dims, r2, atleast_1d. destruct (shp r) as [|a [|b [|c s]]] eqn:E; intros H; try discriminate; injection H as <- <-.
  - split; reflexivity.
  - rewrite E. split; [cbn; now rewrite E|reflexivity].
  - rewrite E. split; [exact E|reflexivity].
Qed.
Lemma r2_none r : r_dims (shp r) = None -> forall P L, shp (r2 r) <> [P; L].
Proof.
  unfold r_dims, r2, atleast_1d. destruct (shp r) as [|a [|b [|c s]]] eqn:E; intros H; try discriminate.
  rewrite E, E. discriminate.
Qed.
Lemma increasing_spec r P L : increasing r P L = true <->
  forall p l, p < P -> S l < L -> (at_ r [p; l] < at_ r [p; S l])%R.
Proof.
  unfold increasing. rewrite tall_spec. cbn [shp at_]. split.
  - intros H p l Hp Hl. apply rltb_lt. apply (H [p; l]). cbn. lia.
  - intros H [|p [|l [|x ix]]] Hb; cbn in Hb; try tauto. cbn. apply rltb_lt. apply H; lia.
Qed.

Lemma broadcast_unfold (k0 r : tensor R) (eps env : tensor (cplx R)) :
  broadcast_mie_layers k0 r eps env =
  let k0 := atleast_1d (squeeze k0) in
  match shp k0 with
  | [K] =>
    match shp (r2 r) with
    | [P; L] =>
      if (1 <? L) && negb (increasing (r2 r) P L) then Err ValueError
      else
        let* eps := broadcast_eps P L K eps in
        let* env := env_step K env in
        Ok {| c_k0 := unsqueeze 0 k0; c_r := r2 r; c_eps := eps; c_env := unsqueeze 0 env;
              c_n_env := tmap csqrt (unsqueeze 0 env) |}
    | _ => Err ValueError
    end
  | _ => Err ValueError
  end.
Proof.
  unfold broadcast_mie_layers. cbv zeta. destruct (shp (atleast_1d (squeeze k0))) as [|K [|? ?]]; try reflexivity.
  unfold r2. cbv zeta.
  set (rr := match shp (atleast_1d r) with [_] => _ | _ => _ end).
  destruct (shp rr) as [|P [|L [|? ?]]]; try reflexivity.
  destruct ((1 <? L) && negb (increasing rr P L)); [reflexivity|].
  destruct (broadcast_eps P L K eps) as [e|]; [|reflexivity]. cbn [bind]. unfold env_step. cbv zeta.
  destruct (shp (atleast_1d env)) as [|a [|? ?]]; reflexivity.
Qed.

Lemma is1_k0 (k0 : tensor R) K d : k0_len (shp k0) = Some K ->
  is1 (atleast_1d (squeeze k0)) K (fun k => nth k (entries k0) d).
Proof.
  intros H. apply k0_some in H. split; [exact H|]. intros k Hk.
  rewrite <- (entries_vec _ K H k d Hk). now rewrite entries_atleast_1d, entries_squeeze.
Qed.

Definition denotes (b : @config R) (k0 r : tensor R) (eps env : tensor (cplx R)) K P L ef vf : Prop :=
  is2 (c_k0 b) 1 K (fun _ k => nth k (entries k0) 0%R) /\
  is2 (c_r b) P L (fun p l => at_ r (r_ix (shp r) p l)) /\
  is3 (c_eps b) P L K (fun p l k => at_ eps (ef p l k)) /\
  is2 (c_env b) 1 K (fun _ k => at_ env (vf k)) /\
  is2 (c_n_env b) 1 K (fun _ k => csqrt (at_ env (vf k))).

Lemma broadcast_accepts k0 r eps env K P L ef vf : valid k0 r eps env K P L ef vf ->
  exists b, broadcast_mie_layers k0 r eps env = Ok b /\ denotes b k0 r eps env K P L ef vf.
Proof.
  intros [Hk Hr Hi He Hv]. rewrite broadcast_unfold. cbv zeta.
  rewrite (k0_some _ _ Hk). pose proof (r2_some r P L Hr) as [Er Hat]. rewrite Er.
  assert (Hinc : increasing (r2 r) P L = true).
  { apply increasing_spec. intros p l Hp Hl. rewrite !Hat by lia. now apply Hi. }
  rewrite Hinc, andb_false_r.
  destruct (eps_ok P L K eps ef He) as (e & -> & Is3). cbn [bind].
  destruct (env_ok K env vf Hv) as (v & -> & Is1). cbn [bind].
  eexists. split; [reflexivity|]. repeat split; cbn [c_k0 c_r c_eps c_env c_n_env].
  - cbn. now rewrite (k0_some _ _ Hk).
  - intros p k _ Hlt. cbn. now apply (proj2 (is1_k0 k0 K 0%R Hk)).
  - exact Er.
  - exact Hat.
  - exact (proj1 Is3).
  - exact (proj2 Is3).
  - cbn. now rewrite (proj1 Is1).
  - intros p k _ Hlt. cbn. now apply (proj2 Is1).
  - cbn. now rewrite (proj1 Is1).
  - intros p k _ Hlt. cbn [tmap at_ unsqueeze remove_at]. now rewrite (proj2 Is1).
Qed.
Lemma broadcast_rejects k0 r eps env : (forall K P L ef vf, ~ valid k0 r eps env K P L ef vf) ->
  broadcast_mie_layers k0 r eps env = Err ValueError.
Proof.
  intros Hn. rewrite broadcast_unfold. cbv zeta.
  destruct (k0_len (shp k0)) as [K|] eqn:Hk.
  2:{ pose proof (k0_none k0 Hk) as H. destruct (shp (atleast_1d (squeeze k0))) as [|K [|? ?]]; try reflexivity. now destruct (H K). }
  rewrite (k0_some _ _ Hk).
  destruct (r_dims (shp r)) as [[P L]|] eqn:Hr.
  2:{ pose proof (r2_none r Hr) as H. destruct (shp (r2 r)) as [|P [|L [|? ?]]]; try reflexivity. now destruct (H P L). }
  pose proof (r2_some r P L Hr) as [Er Hat]. rewrite Er.
  destruct (increasing (r2 r) P L) eqn:Hi.
  2:{ destruct (1 <? L) eqn:HL; [reflexivity|]. exfalso. apply not_true_iff_false in Hi. apply Hi. apply increasing_spec.
      intros. apply Nat.ltb_ge in HL. lia. }
  rewrite andb_false_r.
  destruct (eps_layout P L K (shp eps)) as [ef|] eqn:He; [|now rewrite (eps_bad P L K eps He)].
  destruct (eps_ok P L K eps ef He) as (e & -> & _). cbn [bind].
  destruct (env_layout K (shp env)) as [vf|] eqn:Hv; [|now rewrite (env_bad K env Hv)].
  exfalso. apply (Hn K P L ef vf). split; auto. intros p l Hp Hl. rewrite increasing_spec in Hi. specialize (Hi p l Hp Hl).
  now rewrite !Hat in Hi by lia.
Qed.
Lemma valid_dec k0 r eps env : (exists K P L ef vf, valid k0 r eps env K P L ef vf) \/
  (forall K P L ef vf, ~ valid k0 r eps env K P L ef vf).
Proof.
  destruct (k0_len (shp k0)) as [K|] eqn:Hk; [|right; intros ? ? ? ? ? [? ? ? ? ?]; congruence].
  destruct (r_dims (shp r)) as [[P L]|] eqn:Hr; [|right; intros ? ? ? ? ? [? ? ? ? ?]; congruence].
  destruct (eps_layout P L K (shp eps)) as [ef|] eqn:He.
  2:{ right. intros ? ? ? ? ? [? ? ? ? ?]. rewrite Hk in *. rewrite Hr in *. congruence. }
  destruct (env_layout K (shp env)) as [vf|] eqn:Hv.
  2:{ right. intros ? ? ? ? ? [? ? ? ? ?]. rewrite Hk in *. congruence. }
  pose proof (r2_some r P L Hr) as [Er Hat].
  destruct (increasing (r2 r) P L) eqn:Hi.
  - left. exists K, P, L, ef, vf. split; auto. intros p l Hp Hl. rewrite increasing_spec in Hi. specialize (Hi p l Hp Hl).
    now rewrite !Hat in Hi by lia.
  - right. intros K' P' L' ef' vf' [Hk' Hr' Hi' _ _]. rewrite Hr in Hr'. injection Hr' as <- <-.
    apply not_true_iff_false in Hi. apply Hi. apply increasing_spec. intros. rewrite !Hat by lia. now apply Hi'.
Qed.
