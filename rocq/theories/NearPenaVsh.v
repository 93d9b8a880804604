(** Broadcast views on the five axes (order, particle, wavelength, position,
    component) for any number of particles, and the harmonics [vsh_pena_t]. *)
From Coq Require Import Reals ZArith List Bool String Arith Lia.
From Verif Require Import Ops ROps Tensor TensorProofs TensorView ModelSpecial ModelMie ModelBatch ModelObs ModelNear ModelNearLegacy ModelNearPena NearLegacySpec NearLegacyProofs.
Import ListNotations.
Open Scope nat_scope.
Open Scope list_scope.

Lemma fits5P N P K Q s4 s3 s2 s1 s0 : (s0 = 1 \/ s0 = N) -> (s1 = 1 \/ s1 = P) -> (s2 = 1 \/ s2 = K) -> (s3 = 1 \/ s3 = Q) -> (s4 = 1 \/ s4 = 3) ->
  fits [s0; s1; s2; s3; s4] [N; P; K; Q; 3].
Proof. unfold fits. cbn. intuition. Qed.

Section Views.
  Variables N P K Q : nat.
  Notation full := [N; P; K; Q; 3].
  Notation rp' := (rp [N; P; K; Q; 3]).
  Notation rr' := (rr [N; P; K; Q; 3]).
  Ltac view := intros ix Hix; destruct (ix5 _ _ _ _ _ _ Hix) as (n & p & k & i & c & -> & Hn & Hp & Hk & Hi & Hc); cbn [shp at_]; rewrite bix5.

  Lemma vw_cfg1 {A} (t : tensor A) f : is2 t 1 K f -> rp' (expand_cfg t) [1; 1; K; 1; 1] (fun ix => f 0 (ax 2 ix)).
  Proof.
    intros [E H]. unfold expand_cfg, unsqueeze_last, unsqueeze, ndim. cbn [shp]. rewrite E. cbn [insert_at List.length]. split; [reflexivity|].
    split; [apply fits5P; auto|]. view. cbn [remove_at Nat.eqb ax nth]. rewrite cl by assumption. apply H; lia.
  Qed.
  Lemma vw_cfgP {A} (t : tensor A) f : is2 t P K f -> rp' (expand_cfg t) [1; P; K; 1; 1] (fun ix => f (ax 1 ix) (ax 2 ix)).
  Proof.
    intros [E H]. unfold expand_cfg, unsqueeze_last, unsqueeze, ndim. cbn [shp]. rewrite E. cbn [insert_at List.length]. split; [reflexivity|].
    split; [apply fits5P; auto|]. view. cbn [remove_at Nat.eqb ax nth]. rewrite !cl by assumption. now apply H.
  Qed.
  Lemma vw_pos {A} (t : tensor A) : shp t = [Q] -> rp' (expand_pos t) [1; 1; 1; Q; 1] (fun ix => at_ t [ax 3 ix]).
  Proof.
    intros E. unfold expand_pos, unsqueeze_last, unsqueeze, ndim. cbn [shp]. rewrite E. cbn [insert_at List.length]. split; [reflexivity|].
    split; [apply fits5P; auto|]. view. cbn [remove_at Nat.eqb ax nth]. now rewrite cl.
  Qed.
  Lemma vw_unit j : rp' (@unit_vec R ROps 5 j) [1; 1; 1; 1; 3] (fun ix => if ax 4 ix =? j then cone else czero).
  Proof. split; [reflexivity|]. split; [apply fits5P; auto|]. intros ix Hix. destruct (ix5 _ _ _ _ _ _ Hix) as (n & p & k & i & c & -> & _). reflexivity. Qed.
  Lemma vw_En (g : nat -> cplx R) : rp' (mkT [N; 1; 1; 1; 1] (fun ix => g (S (hd 0 ix)))) [N; 1; 1; 1; 1] (fun ix => g (S (ax 0 ix))).
  Proof. split; [reflexivity|]. split; [apply fits5P; auto|]. view. cbn [hd ax nth]. now rewrite cl. Qed.
  Lemma vw_order : rp' (@order_axis R ROps 5 N) [N; 1; 1; 1; 1] (fun ix => cofn (S (ax 0 ix))).
  Proof. exact (vw_En (fun n => cofn n)). Qed.

  (** *** vector harmonics in a medium given per wavelength (d = 1) or per particle and wavelength (d = P) *)
  Section Vsh.
    Variables (d : nat) (k0 : tensor R) (fk : nat -> R) (nm : tensor (cplx R)) (m : list nat -> cplx R) (r th ph : tensor R).
    Hypotheses (HN : 1 <= N) (Hd : d = 1 \/ d = P) (Ik : is2 k0 1 K (fun _ k => fk k)) (Sr : shp r = [Q]) (St : shp th = [Q]) (Sp : shp ph = [Q]).
    Hypothesis Hm : rp' nm [1; d; K; 1; 1] m.
    Definition RHO_ (ix : list nat) : cplx R := rho_at (fk (ax 2 ix)) (m ix) (at_ r [ax 3 ix]).

    Ltac ev := match goal with
      | |- rr _ (lift2 _ _ _) _ _ => eapply lift2_rr; [ev|ev|bs]
      | |- rr _ (Ok _) _ _ => apply rr_ok; eassumption
      end.
    Lemma rhoP_ok : exists rho, lift2 cmul (lift2 cmul (Ok (cten (expand_cfg k0))) (Ok nm)) (Ok (cten (expand_pos r))) = Ok rho /\
      rp' (tmap (fun z => cadd z (@cofr R ROps (rtenth 8))) rho) [1; d; K; Q; 1] RHO_.
    Proof.
      pose proof (rp_tmap _ (@cofr R ROps) _ _ _ (vw_cfg1 k0 _ Ik)) as Rk. pose proof (rp_tmap _ (@cofr R ROps) _ _ _ (vw_pos r Sr)) as Rr.
      fold (cten (expand_cfg k0)) in Rk. fold (cten (expand_pos r)) in Rr.
      assert (X : rr' (lift2 cmul (lift2 cmul (Ok (cten (expand_cfg k0))) (Ok nm)) (Ok (cten (expand_pos r)))) [1; d; K; Q; 1]
                (fun ix => cmul (cmul (cofr (fk (ax 2 ix))) (m ix)) (cofr (at_ r [ax 3 ix])))) by ev.
      destruct X as (rho & E & S & R0). exists rho. split; [exact E|].
      exact (rp_tmap _ (fun z => cadd z (@cofr R ROps (rtenth 8))) rho _ _ (conj S R0)).
    Qed.
    Lemma ordP_rep rho (f : cplx R -> nat -> cplx R) : rp' rho [1; d; K; Q; 1] RHO_ ->
      rp' (narrow 0 1 N (orders_t N f (select 0 0 rho))) [N; d; K; Q; 1] (fun ix => f (RHO_ ix) (S (ax 0 ix))).
    Proof.
      intros [Sρ [_ Vρ]].
      assert (Sn : shp (narrow 0 1 N (orders_t N f (select 0 0 rho))) = [N; d; K; Q; 1]) by (unfold narrow, orders_t, select; cbn [shp]; now rewrite Sρ).
      split; [exact Sn|]. split; [rewrite Sn; apply fits5P; auto|].
      intros ix Hix. specialize (Vρ _ Hix). rewrite Sn. rewrite Sρ in Vρ.
      destruct (ix5 _ _ _ _ _ _ Hix) as (n & p & k & i & c & -> & Hn & Hp & Hk & Hi & Hc).
      rewrite bix5 in *. rewrite (cl K), (cl Q) in * by lia. rewrite (cl N) by lia. cbn [Nat.eqb] in *.
      set (p' := if d =? 1 then 0 else p) in *. unfold narrow, orders_t, select. cbn [at_ set_at nth tl hd insert_at]. rewrite Vρ.
      cbn [ax nth]. now replace (n + 1) with (S n) by lia.
    Qed.

    Definition HARMP (kd3 : bool) (ix : list nat) : @vsh_t R :=
      vsh_pena N 15 (fk (ax 2 ix)) (m ix) (at_ r [ax 3 ix]) (at_ th [ax 3 ix]) (at_ ph [ax 3 ix]) kd3 (S (ax 0 ix)).
    Lemma vshP_ok kd : exists V, vsh_pena_t N (expand_cfg k0) nm (expand_pos r) (expand_pos th) (expand_pos ph) kd = Ok V /\
      rp' (VM_o V) [N; d; K; Q; 3] (fun ix => comp (ax 4 ix) (M_o (HARMP kd ix))) /\
      rp' (VM_e V) [N; d; K; Q; 3] (fun ix => comp (ax 4 ix) (M_e (HARMP kd ix))) /\
      rp' (VN_o V) [N; d; K; Q; 3] (fun ix => comp (ax 4 ix) (N_o (HARMP kd ix))) /\
      rp' (VN_e V) [N; d; K; Q; 3] (fun ix => comp (ax 4 ix) (N_e (HARMP kd ix))).
    Proof.
      destruct rhoP_ok as (rho0 & Er & Rr).
      unfold vsh_pena_t. cbv zeta. rewrite Er. cbn [bind]. set (rho := tmap _ rho0) in *. clearbody rho. clear Er rho0.
      assert (Nd : ndim (expand_pos r) = 5) by (unfold ndim; rewrite (proj1 (vw_pos r Sr)); reflexivity). rewrite Nd. clear Nd.
      unfold pi_tau_t. destruct (Z.ltb_spec (Z.of_nat N) 1); [lia|]. cbn [bind fst snd]. rewrite Nat2Z.id.
      set (FF := fun z => if kd then @pzeta R ROps N 15 z else ppsi N 15 z). set (DD := fun z => if kd then @pD3 R ROps N 15 z else pD1 N 15 z).
      assert (R1 : rp' (narrow 0 1 N (if kd then zeta_t N (select 0 0 rho) else psi_t N (select 0 0 rho))) [N; d; K; Q; 1] (fun ix => FF (RHO_ ix) (S (ax 0 ix)))).
      { unfold FF. destruct kd; [exact (ordP_rep rho (fun z => pzeta N 15 z) Rr)|exact (ordP_rep rho (fun z => ppsi N 15 z) Rr)]. }
      assert (R2 : rp' (narrow 0 1 N (if kd then D3_t N (select 0 0 rho) else D1_t N (select 0 0 rho))) [N; d; K; Q; 1] (fun ix => DD (RHO_ ix) (S (ax 0 ix)))).
      { unfold DD. destruct kd; [exact (ordP_rep rho (fun z => pD3 N 15 z) Rr)|exact (ordP_rep rho (fun z => pD1 N 15 z) Rr)]. }
      set (f1 := narrow 0 1 N (if kd then zeta_t _ _ else _)) in *. set (f2 := narrow 0 1 N (if kd then D3_t _ _ else _)) in *. clearbody f1 f2.
      pose proof (vw_unit 0) as U0. pose proof (vw_unit 1) as U1. pose proof (vw_unit 2) as U2. pose proof vw_order as RN.
      pose proof (rp_tmap _ (fun z => cadd z (@cone R ROps)) _ _ _ RN) as RN1.
      assert (Rt : forall g : R -> R, rp' (cten (tmap g (expand_pos th))) [1; 1; 1; Q; 1] (fun ix => cofr (g (at_ th [ax 3 ix])))).
      { intros g. exact (rp_tmap _ (@cofr R ROps) _ _ _ (rp_tmap _ g _ _ _ (vw_pos th St))). }
      assert (Rp : forall g : R -> R, rp' (cten (tmap g (expand_pos ph))) [1; 1; 1; Q; 1] (fun ix => cofr (g (at_ ph [ax 3 ix])))).
      { intros g. exact (rp_tmap _ (@cofr R ROps) _ _ _ (rp_tmap _ g _ _ _ (vw_pos ph Sp))). }
      pose proof (Rt (@rsin R ROps)) as Rst. pose proof (Rp (@rcos R ROps)) as Rcp. pose proof (Rp (@rsin R ROps)) as Rsp.
      pose proof (rp_tmap _ (@copp R ROps) _ _ _ Rsp) as Rmp.
      assert (Rang : forall g : R -> nat -> R, rp' (cten (narrow 0 1 N (mkT (S N :: shp (select 0 0 (tmap rcos (expand_pos th)))) (fun ix => g (at_ (select 0 0 (tmap rcos (expand_pos th))) (tl ix)) (hd 0 ix)))))
          [N; 1; 1; Q; 1] (fun ix => cofr (g (rcos (at_ th [ax 3 ix])) (S (ax 0 ix))))).
      { intros g. apply rp_tmap. pose proof (proj1 (vw_pos th St)) as Se. unfold narrow, select, tmap. cbn [shp at_]. rewrite Se. cbn [remove_at set_at].
        split; [reflexivity|]. split; [apply fits5P; auto|]. view. rewrite (cl N), (cl Q) by lia. cbn [Nat.eqb nth set_at tl hd insert_at ax].
        unfold expand_pos, unsqueeze_last, unsqueeze, ndim. cbn [shp at_]. rewrite St. cbn [insert_at List.length remove_at]. now replace (n + 1) with (S n) by lia. }
      pose proof (Rang (@pi_n R ROps)) as Rpi. pose proof (Rang (@tau_n R ROps)) as Rta. clear Rang.
      set (PI := cten (narrow 0 1 N (mkT _ (fun ix => pi_n _ _)))) in *. set (TA := cten (narrow 0 1 N (mkT _ (fun ix => tau_n _ _)))) in *. clearbody PI TA.
      set (st := cten (tmap rsin (expand_pos th))) in *. set (cp := cten (tmap rcos (expand_pos ph))) in *. set (sp := cten (tmap rsin (expand_pos ph))) in *.
      set (msp := tmap copp sp) in *. set (n1 := tmap _ (order_axis 5 N)) in *. set (n0 := order_axis 5 N) in *.
      set (u0 := unit_vec 5 0) in *. set (u1 := unit_vec 5 1) in *. set (u2 := unit_vec 5 2) in *.
      clearbody st msp n1 u0 u1 u2. clearbody cp sp n0. clear Rt Rp.
      set (ZN := fun ix => cdiv (FF (RHO_ ix) (S (ax 0 ix))) (RHO_ ix)).
      set (DZ := fun ix => cmul (DD (RHO_ ix) (S (ax 0 ix))) (ZN ix)).
      assert (X : rr' (lift2 cdiv (Ok f1) (Ok rho)) [N; d; K; Q; 1] ZN) by ev.
      destruct X as (zn & -> & Rz). cbn [bind]. fold (rp' zn [N; d; K; Q; 1] ZN) in Rz.
      assert (X : rr' (lift2 cmul (Ok f2) (Ok zn)) [N; d; K; Q; 1] DZ) by ev.
      destruct X as (der & -> & Rd). cbn [bind]. fold (rp' der [N; d; K; Q; 1] DZ) in Rd.
      assert (X : rr' (lift2 cdiv (Ok zn) (Ok rho)) [N; d; K; Q; 1] (fun ix => cdiv (ZN ix) (RHO_ ix))) by ev.
      destruct X as (zr & -> & Rzr). cbn [bind]. fold (rp' zr [N; d; K; Q; 1] (fun ix => cdiv (ZN ix) (RHO_ ix))) in Rzr.
      clear R1 R2 Rr.
      assert (EH : forall ix, HARMP kd ix = vsh_of (at_ th [ax 3 ix]) (at_ ph [ax 3 ix]) (S (ax 0 ix)) (RHO_ ix) (ZN ix) (DZ ix)).
      { intros ix. unfold HARMP, vsh_pena, ZN, DZ, FF, DD, RHO_. destruct kd; reflexivity. }
      Ltac pw EH ZN DZ := let ix := fresh "ix" in let Hix := fresh in intros ix Hix; rewrite EH;
        destruct (ix5 _ _ _ _ _ _ Hix) as (n & p & k & i & c & -> & _ & _ & _ & _ & Hc);
        unfold vsh_of; cbv zeta; cbn [M_o M_e N_o N_e]; 
        repeat match goal with |- context [ZN ?l] => generalize (ZN l); intros end; repeat match goal with |- context [DZ ?l] => generalize (DZ l); intros end;
        cbn [ax nth];
        destruct c as [|[|[|c]]]; [| | |lia]; cbn [Nat.eqb comp v1 v2 v3 fst snd]; rewrite ?q1, ?q0, ?qs0, ?q0s, ?qa0, ?q0a, ?qss, ?qaa; try reflexivity; now rewrite ?qas.
      clearbody ZN DZ FF DD.
      assert (X : exists t, lift2 csub (lift2 cmul (lift2 cmul (lift2 cmul (Ok cp) (Ok PI)) (Ok zn)) (Ok u1)) (lift2 cmul (lift2 cmul (lift2 cmul (Ok sp) (Ok TA)) (Ok zn)) (Ok u2)) = Ok t /\
        rp' t [N; d; K; Q; 3] (fun ix => comp (ax 4 ix) (M_o (HARMP kd ix)))) by (eapply rr_conv; [ev|pw EH ZN DZ]).
      destruct X as (Mo & -> & RMo). cbn [bind].
      match goal with |- context [bind ?x _] => assert (X : exists t, x = Ok t /\ rp' t [N; d; K; Q; 3] (fun ix => comp (ax 4 ix) (N_o (HARMP kd ix)))) by (eapply rr_conv; [ev|pw EH ZN DZ]) end.
      destruct X as (No & -> & RNo). cbn [bind].
      match goal with |- context [bind ?x _] => assert (X : exists t, x = Ok t /\ rp' t [N; d; K; Q; 3] (fun ix => comp (ax 4 ix) (M_e (HARMP kd ix)))) by (eapply rr_conv; [ev|pw EH ZN DZ]) end.
      destruct X as (Me & -> & RMe). cbn [bind].
      match goal with |- context [bind ?x _] => assert (X : exists t, x = Ok t /\ rp' t [N; d; K; Q; 3] (fun ix => comp (ax 4 ix) (N_e (HARMP kd ix)))) by (eapply rr_conv; [ev|pw EH ZN DZ]) end.
      destruct X as (Ne & -> & RNe). cbn [bind].
      eexists. split; [reflexivity|]. cbn [VM_o VM_e VN_o VN_e]. auto.
    Qed.
  End Vsh.
End Views.
