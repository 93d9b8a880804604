(** Legacy core/shell arguments (C32-C34) and the 2-D permittivity layout (C30). *)
From Coq Require Import Reals ZArith List Bool String Arith Lia Lra.
From Coquelicot Require Import Complex.
From Verif Require Import Ops ROps Tensor TensorProofs ModelSpecial ModelMie ModelBatch BroadcastSpec BroadcastProofs BatchProofs BatchReal.
Import ListNotations.
Open Scope nat_scope.
Open Scope list_scope.

Definition config_eq (b b' : @config R) : Prop :=
  teq (c_k0 b) (c_k0 b') /\ teq (c_r b) (c_r b') /\ teq (c_eps b) (c_eps b') /\ teq (c_env b) (c_env b') /\ teq (c_n_env b) (c_n_env b').

Lemma is2_teq {A} (t u : tensor A) P K f : is2 t P K f -> is2 u P K f -> teq t u.
Proof.
  intros [E H] [E' H']. split; [congruence|]. rewrite E. intros [|p [|k [|? ?]]] Hb; cbn in Hb; try tauto.
  rewrite H, H' by tauto. reflexivity.
Qed.
Lemma is3_teq {A} (t u : tensor A) N P K f : is3 t N P K f -> is3 u N P K f -> teq t u.
Proof.
  intros [E H] [E' H']. split; [congruence|]. rewrite E. intros [|n [|p [|k [|? ?]]]] Hb; cbn in Hb; try tauto.
  rewrite H, H' by tauto. reflexivity.
Qed.
Lemma denotes_eq k0 r eps env K P L ef vf r' eps' ef' b b' :
  denotes b k0 r eps env K P L ef vf -> denotes b' k0 r' eps' env K P L ef' vf ->
  (forall p l, p < P -> l < L -> at_ r (r_ix (shp r) p l) = at_ r' (r_ix (shp r') p l)) ->
  (forall p l k, p < P -> l < L -> k < K -> at_ eps (ef p l k) = at_ eps' (ef' p l k)) -> config_eq b b'.
Proof.
  intros (A1 & A2 & A3 & A4 & A5) (B1 & B2 & B3 & B4 & B5) Hr He. repeat split.
  - apply (is2_teq _ _ _ _ _ A1 B1). - apply (is2_teq _ _ _ _ _ A1 B1).
  - apply (is2_teq _ _ _ _ _ (is2_ext _ _ _ _ _ Hr A2) B2). - apply (is2_teq _ _ _ _ _ (is2_ext _ _ _ _ _ Hr A2) B2).
  - apply (is3_teq _ _ _ _ _ _ (is3_ext _ _ _ _ _ _ He A3) B3). - apply (is3_teq _ _ _ _ _ _ (is3_ext _ _ _ _ _ _ He A3) B3).
  - apply (is2_teq _ _ _ _ _ A4 B4). - apply (is2_teq _ _ _ _ _ A4 B4).
  - apply (is2_teq _ _ _ _ _ A5 B5). - apply (is2_teq _ _ _ _ _ A5 B5).
Qed.

Section Legacy.
  Variables (N : nat) (rc rs : tensor R).
  Hypothesis (Src : shp rc = [N]) (Srs : shp rs = [N]).

  Lemma al1 : atleast_1d rc = rc. Proof. unfold atleast_1d. now rewrite Src. Qed.
  Lemma al2 : atleast_1d rs = rs. Proof. unfold atleast_1d. now rewrite Srs. Qed.
  Lemma tequal_false p : p < N -> at_ rc [p] <> at_ rs [p] -> tequal reqb rc rs = false.
  Proof.
    intros Hp Hne. apply not_true_iff_false. intros H. apply (tequal_spec reqb reqb_eq) in H. destruct H as [_ H].
    apply Hne, H. rewrite Src. cbn. lia.
  Qed.
  Lemma stack_r : exists r, stack (ndim rc) [rc; rs] = Ok r /\ is2 r N 2 (fun p l => if l =? 0 then at_ rc [p] else at_ rs [p]).
  Proof.
    unfold stack, ndim. cbn [forallb]. rewrite Src, Srs, shape_eqb_refl. cbn [andb List.length].
    eexists. split; [reflexivity|]. split; [reflexivity|]. intros p [|[|l]] Hp Hl; [| |lia]; reflexivity.
  Qed.

  (* (N,K) spectra *)
  Lemma legacy_shell K (ec es : tensor (cplx R)) p0 : p0 < N -> at_ rc [p0] <> at_ rs [p0] ->
    shp ec = [N; K] -> shp es = [N; K] ->
    exists r e, as_layer_inputs (Some rc) (Some rs) (Some ec) (Some es) None None = Ok (r, e) /\
      is2 r N 2 (fun p l => if l =? 0 then at_ rc [p] else at_ rs [p]) /\
      is3 e N 2 K (fun p l k => if l =? 0 then at_ ec [p; k] else at_ es [p; k]).
  Proof.
    intros Hp Hne Sec Ses. unfold as_layer_inputs. rewrite al1, al2, Src, Srs, shape_eqb_refl. cbn [negb].
    rewrite (tequal_false p0 Hp Hne). destruct stack_r as (r & -> & Ir). cbn [bind].
    unfold ndim at 1. rewrite Sec. cbn [List.length].
    unfold stack. cbn [forallb]. rewrite Sec, Ses, shape_eqb_refl. cbn [andb bind].
    eexists _, _. split; [reflexivity|]. split; [exact Ir|]. split; [reflexivity|].
    intros p [|[|l]] k Hp' Hl Hk; [| |lia]; reflexivity.
  Qed.
  (* per-particle constants, N >= 2 *)
  Lemma legacy_const (ec es : tensor (cplx R)) p0 : 2 <= N -> p0 < N -> at_ rc [p0] <> at_ rs [p0] ->
    shp ec = [N] -> shp es = [N] ->
    exists r e, as_layer_inputs (Some rc) (Some rs) (Some ec) (Some es) None None = Ok (r, e) /\
      is2 r N 2 (fun p l => if l =? 0 then at_ rc [p] else at_ rs [p]) /\
      is2 e N 2 (fun p l => if l =? 0 then at_ ec [p] else at_ es [p]).
  Proof.
    intros HN Hp Hne Sec Ses. unfold as_layer_inputs. rewrite al1, al2, Src, Srs, shape_eqb_refl. cbn [negb].
    rewrite (tequal_false p0 Hp Hne). destruct stack_r as (r & -> & Ir). cbn [bind].
    unfold ndim at 1. rewrite Sec. cbn [List.length].
    unfold numel. rewrite Src. cbn [fold_right]. rewrite shape_eqb_refl. cbn [andb].
    replace (1 <? N * 1) with true by (symmetry; apply Nat.ltb_lt; lia).
    unfold stack. cbn [forallb]. rewrite Sec, Ses, shape_eqb_refl. cbn [andb bind].
    eexists _, _. split; [reflexivity|]. split; [exact Ir|]. split; [reflexivity|].
    intros p [|[|l]] Hp' Hl; [| |lia]; reflexivity.
  Qed.
  (* one particle, constants in 1-D arrays of length one *)
  Lemma legacy_const1 (ec es : tensor (cplx R)) : N = 1 -> at_ rc [0] <> at_ rs [0] ->
    shp ec = [1] -> shp es = [1] ->
    exists r e, as_layer_inputs (Some rc) (Some rs) (Some ec) (Some es) None None = Ok (r, e) /\ shp r = [1; 2] /\ shp e = [2; 1].
  Proof.
    intros HN Hne Sec Ses. unfold as_layer_inputs. rewrite al1, al2, Src, Srs, shape_eqb_refl. cbn [negb].
    assert (Hp : 0 < N) by lia.
    rewrite (tequal_false 0 Hp Hne). destruct stack_r as (r & -> & Ir). cbn [bind].
    unfold ndim at 1. rewrite Sec. cbn [List.length].
    unfold numel. rewrite Src. rewrite HN. cbn [fold_right Nat.mul Nat.add]. rewrite andb_false_r.
    unfold stack. cbn [forallb]. rewrite Sec, Ses, shape_eqb_refl. cbn [andb bind].
    eexists _, _. split; [reflexivity|]. split; [|reflexivity]. rewrite (proj1 Ir). now rewrite HN.
  Qed.
  (* batches mixing r_c = r_s and r_c <> r_s *)
  Lemma legacy_mixed k0 (ec es env : tensor (cplx R)) p q r e : p < N -> q < N -> at_ rc [p] = at_ rs [p] -> at_ rc [q] <> at_ rs [q] ->
    as_layer_inputs (Some rc) (Some rs) (Some ec) (Some es) None None = Ok (r, e) -> broadcast_mie_layers k0 r e env = Err ValueError.
  Proof.
    intros Hp Hq He Hne Ha. unfold as_layer_inputs in Ha. rewrite al1, al2, Src, Srs, shape_eqb_refl in Ha. cbn [negb] in Ha.
    rewrite (tequal_false q Hq Hne) in Ha. destruct stack_r as (r' & Er & Ir). rewrite Er in Ha. cbn [bind] in Ha.
    assert (Hr : r = r').
    { destruct (ndim ec) as [|[|?]].
      - destruct (stack 0 [ec; es]); [|discriminate]. cbn in Ha. congruence.
      - destruct (if shape_eqb (shp ec) [N] && (1 <? numel rc) then stack 1 [ec; es] else stack 0 [ec; es]); [|discriminate]. cbn in Ha. congruence.
      - destruct (stack 1 [ec; es]); [|discriminate]. cbn in Ha. congruence. }
    subst r'. apply broadcast_rejects. intros K P L ef vf [_ Hd Hi _ _].
    rewrite (proj1 Ir) in Hd, Hi. injection Hd as <- <-. specialize (Hi p 0 Hp ltac:(lia)). cbn [r_ix] in Hi.
    rewrite !(proj2 Ir) in Hi by lia. cbn in Hi. rewrite He in Hi. lra.
  Qed.
End Legacy.

(* a call without a shell *)
Lemma legacy_sphere N K (rc : tensor R) (ec : tensor (cplx R)) : shp rc = [N] -> shp ec = [N; K] ->
  exists r e, as_layer_inputs (Some rc) None (Some ec) None None None = Ok (r, e) /\
    is2 r N 1 (fun p _ => at_ rc [p]) /\ is3 e N 1 K (fun p _ k => at_ ec [p; k]).
Proof.
  intros Src Sec. unfold as_layer_inputs. rewrite (al1 N rc Src), Src, shape_eqb_refl. cbn [negb].
  replace (tequal reqb rc rc) with true by (symmetry; apply (tequal_spec reqb reqb_eq), teq_refl).
  unfold ndim at 1. rewrite Sec. cbn [List.length]. eexists _, _. split; [reflexivity|].
  split; [apply is2_unl; now split|apply is3_un1; now split].
Qed.

Lemma cfg_of_is k0 r eps env K P L rf ef vf : k0_len (shp k0) = Some K -> env_layout K (shp env) = Some vf ->
  is2 r P L rf -> is3 eps P L K ef -> (forall p l, p < P -> S l < L -> (rf p l < rf p (S l))%R) ->
  exists b, broadcast_mie_layers k0 r eps env = Ok b /\ is2 (c_r b) P L rf /\ is3 (c_eps b) P L K ef /\
    is2 (c_k0 b) 1 K (fun _ k => nth k (entries k0) 0%R) /\ is2 (c_env b) 1 K (fun _ k => at_ env (vf k)) /\
    is2 (c_n_env b) 1 K (fun _ k => csqrt (at_ env (vf k))).
Proof.
  intros Hk Hv [Sr Hr] [Se He] Hi.
  assert (V : valid k0 r eps env K P L (fun p l k => [if P =? 1 then 0 else p; l; if K =? 1 then 0 else k]) vf).
  { split; auto; change (@shp C) with (@shp (cplx R)) in *.
    - now rewrite Sr. - rewrite Sr. cbn [r_ix]. intros p l Hp Hl. rewrite !Hr by lia. auto.
    - rewrite Se. cbn. rewrite !Nat.eqb_refl. reflexivity. }
  destruct (broadcast_accepts _ _ _ _ _ _ _ _ _ V) as (b & -> & (A1 & A2 & A3 & A4 & A5)).
  exists b. split; [reflexivity|]. split; [|split; [|split; [|split]]]; auto.
  - eapply is2_ext; [|exact A2]. intros. rewrite Sr. cbn. auto.
  - eapply is3_ext; [|exact A3]. intros p l k Hp Hl Hk'. cbn beta. rewrite !cl by assumption. auto.
Qed.

Lemma legacy_shell_same N K (rc rs : tensor R) (ec es : tensor (cplx R)) k0 env vf (r : tensor R) (e : tensor (cplx R)) : 1 <= N ->
  shp rc = [N] -> shp rs = [N] -> shp ec = [N; K] -> shp es = [N; K] -> (forall p, p < N -> (at_ rc [p] < at_ rs [p])%R) ->
  k0_len (shp k0) = Some K -> env_layout K (shp env) = Some vf ->
  shp r = [N; 2] -> (forall p, p < N -> at_ r [p; 0] = at_ rc [p] /\ at_ r [p; 1] = at_ rs [p]) ->
  shp e = [N; 2; K] -> (forall p k, p < N -> k < K -> at_ e [p; 0; k] = at_ ec [p; k] /\ at_ e [p; 1; k] = at_ es [p; k]) ->
  exists r1 e1 b1 b2, as_layer_inputs (Some rc) (Some rs) (Some ec) (Some es) None None = Ok (r1, e1) /\
    broadcast_mie_layers k0 r1 e1 env = Ok b1 /\ broadcast_mie_layers k0 r e env = Ok b2 /\ config_eq b1 b2.
Proof.
  intros HN Src Srs Sec Ses Hlt Hk Hv Sr Hr Se He.
  assert (Hp0 : 0 < N) by lia. assert (Hne : at_ rc [0] <> at_ rs [0]) by (specialize (Hlt 0 Hp0); lra).
  destruct (legacy_shell N rc rs Src Srs K ec es 0 Hp0 Hne Sec Ses) as (r1 & e1 & Hin & Ir & Ie).
  assert (Ir' : is2 r N 2 (fun p l => if l =? 0 then at_ rc [p] else at_ rs [p])).
  { split; [exact Sr|]. intros p [|[|l]] Hp Hl; [| |lia]; cbn; apply Hr; exact Hp. }
  assert (Ie' : is3 e N 2 K (fun p l k => if l =? 0 then at_ ec [p; k] else at_ es [p; k])).
  { split; [exact Se|]. intros p [|[|l]] k Hp Hl Hk'; [| |lia]; cbn; apply He; assumption. }
  assert (Hi : forall p l, p < N -> S l < 2 -> ((if l =? 0 then at_ rc [p] else at_ rs [p]) < (if S l =? 0 then at_ rc [p] else at_ rs [p]))%R).
  { intros p [|l] Hp Hl; [|lia]. cbn. auto. }
  destruct (cfg_of_is k0 r1 e1 env K N 2 _ _ vf Hk Hv Ir Ie Hi) as (b1 & Hb1 & A1 & A2 & A3 & A4 & A5).
  destruct (cfg_of_is k0 r e env K N 2 _ _ vf Hk Hv Ir' Ie' Hi) as (b2 & Hb2 & B1 & B2 & B3 & B4 & B5).
  exists r1, e1, b1, b2. repeat (split; [assumption|]).
  split; [eapply is2_teq; eassumption|]. split; [eapply is2_teq; eassumption|]. split; [eapply is3_teq; eassumption|].
  split; eapply is2_teq; eassumption.
Qed.
Lemma legacy_sphere_same N K (rc : tensor R) (ec : tensor (cplx R)) k0 env vf (r : tensor R) (e : tensor (cplx R)) :
  shp rc = [N] -> shp ec = [N; K] ->
  k0_len (shp k0) = Some K -> env_layout K (shp env) = Some vf ->
  shp r = [N; 1] -> (forall p, p < N -> at_ r [p; 0] = at_ rc [p]) ->
  shp e = [N; 1; K] -> (forall p k, p < N -> k < K -> at_ e [p; 0; k] = at_ ec [p; k]) ->
  exists r1 e1 b1 b2, as_layer_inputs (Some rc) None (Some ec) None None None = Ok (r1, e1) /\
    broadcast_mie_layers k0 r1 e1 env = Ok b1 /\ broadcast_mie_layers k0 r e env = Ok b2 /\ config_eq b1 b2.
Proof.
  intros Src Sec Hk Hv Sr Hr Se He.
  destruct (legacy_sphere N K rc ec Src Sec) as (r1 & e1 & Hin & Ir & Ie).
  assert (Ir' : is2 r N 1 (fun p l => at_ rc [p])).
  { split; [exact Sr|]. intros p [|l] Hp Hl; [|lia]; cbn; apply Hr; exact Hp. }
  assert (Ie' : is3 e N 1 K (fun p l k => at_ ec [p; k])).
  { split; [exact Se|]. intros p [|l] k Hp Hl Hk'; [|lia]; cbn; apply He; assumption. }
  assert (Hi : forall p l, p < N -> S l < 1 -> (at_ rc [p] < at_ rc [p])%R) by (intros; lia).
  destruct (cfg_of_is k0 r1 e1 env K N 1 _ _ vf Hk Hv Ir Ie Hi) as (b1 & Hb1 & A1 & A2 & A3 & A4 & A5).
  destruct (cfg_of_is k0 r e env K N 1 _ _ vf Hk Hv Ir' Ie' Hi) as (b2 & Hb2 & B1 & B2 & B3 & B4 & B5).
  exists r1, e1, b1, b2. repeat (split; [assumption|]).
  split; [eapply is2_teq; eassumption|]. split; [eapply is2_teq; eassumption|]. split; [eapply is3_teq; eassumption|].
  split; eapply is2_teq; eassumption.
Qed.

Lemma legacy_const_many N K (rc rs : tensor R) (ec es : tensor (cplx R)) k0 env vf : 2 <= N ->
  shp rc = [N] -> shp rs = [N] -> shp ec = [N] -> shp es = [N] -> (forall p, p < N -> (at_ rc [p] < at_ rs [p])%R) ->
  k0_len (shp k0) = Some K -> env_layout K (shp env) = Some vf ->
  exists r e b, as_layer_inputs (Some rc) (Some rs) (Some ec) (Some es) None None = Ok (r, e) /\
    broadcast_mie_layers k0 r e env = Ok b /\ shp (c_eps b) = [N; 2; K] /\
    forall p k, p < N -> k < K -> at_ (c_eps b) [p; 0; k] = at_ ec [p] /\ at_ (c_eps b) [p; 1; k] = at_ es [p].
Proof.
  intros HN Src Srs Sec Ses Hlt Hk Hv.
  assert (Hp0 : 0 < N) by lia. assert (Hne : at_ rc [0] <> at_ rs [0]) by (specialize (Hlt 0 Hp0); lra).
  destruct (legacy_const N rc rs Src Srs ec es 0 HN Hp0 Hne Sec Ses) as (r & e & Hin & Ir & Ie).
  assert (V : valid k0 r e env K N 2 (fun p l _ => [p; l]) vf).
  { split; auto; change (@shp C) with (@shp (cplx R)) in *.
    - now rewrite (proj1 Ir).
    - rewrite (proj1 Ir). cbn [r_ix]. intros p [|l] Hp Hl; [|lia]. rewrite !(proj2 Ir) by lia. cbn. auto.
    - rewrite (proj1 Ie). cbn. now rewrite Nat.eqb_refl. }
  destruct (broadcast_accepts _ _ _ _ _ _ _ _ _ V) as (b & Hb & (A1 & A2 & A3 & A4 & A5)).
  exists r, e, b. split; [exact Hin|]. split; [exact Hb|]. split; [apply A3|]. intros p k Hp Hk'.
  rewrite !(proj2 A3) by lia. rewrite !(proj2 Ie) by lia. split; reflexivity.
Qed.
Lemma legacy_const_one K (rc rs : tensor R) (ec es : tensor (cplx R)) k0 env : 2 <= K ->
  shp rc = [1] -> shp rs = [1] -> shp ec = [1] -> shp es = [1] -> (at_ rc [0%nat] < at_ rs [0%nat])%R -> k0_len (shp k0) = Some K ->
  exists r e, as_layer_inputs (Some rc) (Some rs) (Some ec) (Some es) None None = Ok (r, e) /\
    broadcast_mie_layers k0 r e env = Err ValueError.
Proof.
  intros HK Src Srs Sec Ses Hlt Hk.
  destruct (legacy_const1 1 rc rs Src Srs ec es eq_refl ltac:(lra) Sec Ses) as (r & e & Hin & Er & Ee).
  exists r, e. split; [exact Hin|]. apply broadcast_rejects. intros K' P L ef vf [Hk' Hr _ He _]. change (@shp C) with (@shp (cplx R)) in *.
  rewrite Hk in Hk'. injection Hk' as <-. rewrite Er in Hr. injection Hr as <- <-. rewrite Ee in He. cbn in He.
  destruct K as [|[|K]]; try lia. discriminate.
Qed.

(** ** the 2-D layout *)
Lemma layout_2d_spectral k0 r eps env K P L vf :
  k0_len (shp k0) = Some K -> r_dims (shp r) = Some (P, L) -> env_layout K (shp env) = Some vf ->
  (forall p l, p < P -> S l < L -> (at_ r (r_ix (shp r) p l) < at_ r (r_ix (shp r) p (S l)))%R) ->
  shp eps = [L; K] -> ~ (P = L /\ L = K) ->
  exists b, broadcast_mie_layers k0 r eps env = Ok b /\ is3 (c_eps b) P L K (fun _ l k => at_ eps [l; k]).
Proof.
  intros Hk Hr Hv Hi Se Hne.
  assert (V : valid k0 r eps env K P L (fun _ l k => [l; k]) vf).
  { split; auto. change (@shp C) with (@shp (cplx R)) in *. rewrite Se. cbn.
    destruct ((L =? P) && (K =? L)) eqn:E.
    - apply andb_true_iff in E. destruct E as [E1 E2]. apply Nat.eqb_eq in E1, E2. exfalso. apply Hne. lia.
    - now rewrite !Nat.eqb_refl. }
  destruct (broadcast_accepts _ _ _ _ _ _ _ _ _ V) as (b & Hb & (A1 & A2 & A3 & A4 & A5)). exists b. auto.
Qed.
Lemma layout_2d_square k0 r eps env K vf :
  k0_len (shp k0) = Some K -> r_dims (shp r) = Some (K, K) -> env_layout K (shp env) = Some vf ->
  (forall p l, p < K -> S l < K -> (at_ r (r_ix (shp r) p l) < at_ r (r_ix (shp r) p (S l)))%R) ->
  shp eps = [K; K] ->
  exists b, broadcast_mie_layers k0 r eps env = Ok b /\ is3 (c_eps b) K K K (fun p l _ => at_ eps [p; l]).
Proof.
  intros Hk Hr Hv Hi Se.
  assert (V : valid k0 r eps env K K K (fun p l _ => [p; l]) vf).
  { split; auto. change (@shp C) with (@shp (cplx R)) in *. rewrite Se. cbn. now rewrite !Nat.eqb_refl. }
  destruct (broadcast_accepts _ _ _ _ _ _ _ _ _ V) as (b & Hb & (A1 & A2 & A3 & A4 & A5)). exists b. auto.
Qed.
