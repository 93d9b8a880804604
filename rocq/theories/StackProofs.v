(** Layer recursion of [_miecoef_pena]: existence and uniqueness of the solution
    of the boundary-value problem (C11) and its consequences (C12-C14). *)
From Coq Require Import Reals ZArith Lra Lia Bool List Arith.
From Coquelicot Require Import Coquelicot.
From Verif Require Import Ops ROps Spec StackSpec CLemmas CTrig ModelSpecial ModelMie PenaProofs QuietSpec.
Import ListNotations.
Open Scope C_scope.

Lemma last_cons {A} (l : A) rest d : last (l :: rest) d = last rest l.
Proof.
  revert l d. induction rest as [|x rest IH]; intros l d; [reflexivity|].
  change (last (l :: x :: rest) d) with (last (x :: rest) d). rewrite (IH x d), (IH x l). reflexivity.
Qed.

(** ** Pure algebra of one interface *)
Section Algebra.
  Variables (u v H D1p D3p D1c D3c pp sp pc sc Q : C).
  Let G1 := u * H - v * D1p.
  Let G2 := u * H - v * D3p.
  Hypothesis HQ : Q * (sp * pc) = pp * sc.
  Hypothesis Hsp : sp <> 0.
  Hypothesis Hden : G2 - Q * G1 <> 0.

  Lemma layer_unique (A B : C) :
    v * (B * (D1p * pp) - A * (D3p * sp)) = u * H * (B * pp - A * sp) ->
    B * (D1c * pc) - A * (D3c * sc) = (G2 * D1c - Q * G1 * D3c) / (G2 - Q * G1) * (B * pc - A * sc).
  Proof.
    intros E.
    assert (E' : B * pp * G1 = A * sp * G2).
    { unfold G1, G2. apply Csub_eq0.
      transitivity (u * H * (B * pp - A * sp) - v * (B * (D1p * pp) - A * (D3p * sp))); [ring|].
      rewrite E. ring. }
    apply (Cmult_eq_reg_l (G2 - Q * G1)); [exact Hden|].
    transitivity ((G2 * D1c - Q * G1 * D3c) * (B * pc - A * sc)).
    2:{ field. exact Hden. }
    apply Csub_eq0. 
    transitivity ((D1c - D3c) * (G2 * A * sc - Q * G1 * B * pc)); [ring|].
    apply (Cmult_eq_reg_l sp); [exact Hsp|].
    transitivity ((D1c - D3c) * ((A * sp * G2) * sc - G1 * B * (Q * (sp * pc)))); [ring|].
    rewrite HQ, <- E'. ring.
  Qed.

  Hypothesis Hw : (D3p - D1p) * (pp * sp) = Ci.
  Hypothesis Hv : v <> 0.
  Hypothesis Hpc : pc <> 0.
  Lemma layer_exists (F : C) :
    F <> 0 -> exists A B : C, B * pp - A * sp = F /\ v * (B * (D1p * pp) - A * (D3p * sp)) = u * H * F /\
      B * pc - A * sc <> 0.
  Proof.
    intros HF. exists (Ci * F / v * pp * G1), (Ci * F / v * sp * G2).
    assert (E1 : forall X : C, Ci * F / v * sp * G2 * (X * pp) - Ci * F / v * pp * G1 * (X * sp) = X * F).
    { intros X. unfold G1, G2.
      transitivity (- (Ci * ((D3p - D1p) * (pp * sp))) * X * F); [field; exact Hv|].
      rewrite Hw, Ci_sqr. ring. }
    split; [|split].
    - rewrite <- (Cmult_1_l pp) at 1. rewrite <- (Cmult_1_l sp) at 2. rewrite E1. ring.
    - unfold G1, G2.
      transitivity (- (Ci * ((D3p - D1p) * (pp * sp))) * u * H * F); [field; exact Hv|].
      rewrite Hw, Ci_sqr. ring.
    - replace (Ci * F / v * sp * G2 * pc - Ci * F / v * pp * G1 * sc)
        with (Ci * F / v * (sp * pc * G2 - (pp * sc) * G1)) by (field; exact Hv).
      rewrite <- HQ.
      replace (Ci * F / v * (sp * pc * G2 - Q * (sp * pc) * G1))
        with (Ci * F / v * (sp * pc) * (G2 - Q * G1)) by (field; exact Hv).
      apply Cmult_neq_0; [|exact Hden]. apply Cmult_neq_0; [|now apply Cmult_neq_0].
      apply Cdiv_neq0; [|exact Hv]. apply Cmult_neq_0; [apply Ci_neq0|exact HF].
  Qed.
End Algebra.

(** ** Scaling of solutions *)
Definition scaleAB (c : C) (AB : C * C) : C * C := (c * fst AB, c * snd AB).
Lemma Fld_scale rf c AB z : Fld rf (scaleAB c AB) z = c * Fld rf AB z.
Proof. unfold Fld, scaleAB. simpl fst. simpl snd. ring. Qed.
Lemma dFld_scale rf c AB z : dFld rf (scaleAB c AB) z = c * dFld rf AB z.
Proof. unfold dFld, scaleAB. simpl fst. simpl snd. ring. Qed.
Lemma interface_scale tm x rf m AB rf' m' AB' c :
  interface_ok tm x rf m AB rf' m' AB' -> interface_ok tm x rf m (scaleAB c AB) rf' m' (scaleAB c AB').
Proof.
  destruct tm; intros [E1 E2]; cbn; rewrite !Fld_scale, !dFld_scale.
  - unfold Cdiv in *. rewrite E1, <- !Cmult_assoc, E2. auto.
  - unfold Cdiv in *. rewrite E2, <- !Cmult_assoc, E1. auto.
Qed.
Lemma interfaces_scale tm rf rfo c : forall rest l AB amps out,
  interfaces_ok tm rf rfo l AB (combine rest amps) out ->
  interfaces_ok tm rf rfo l (scaleAB c AB) (combine rest (map (scaleAB c) amps)) (scaleAB c out).
Proof.
  induction rest as [|l' rest IH]; intros l AB [|AB' amps] out; cbn; intros E; try now apply interface_scale.
  destruct E as [E1 E2]. split; [now apply interface_scale|now apply IH].
Qed.

Section Stack.
  Variables (n_max n_add : nat).
  Notation D1 := (@pD1 R ROps n_max n_add).
  Notation D3 := (@pD3 R ROps n_max n_add).
  Notation psi := (@ppsi R ROps n_max n_add).
  Notation zeta := (@pzeta R ROps n_max n_add).
  Notation Qn := (@pQ R ROps n_max n_add).
  Notation e30 := (@eps30 R ROps).
  Notation N := (n_max + n_add)%nat.
  Lemma e30_pos : (0 < e30)%R. Proof. apply rtenth_pos. Qed.

  Lemma quiet_arg_z z n : (n <= N)%nat -> quiet_arg n_max n_add z n -> quiet_z e30 N z n.
  Proof. intros Hn [H1 H2]. split; [exact Hn|]. split; [exact H1|]. exact H2. Qed.

  Lemma arg_facts (z : C) n : (1 <= n <= N)%nat -> quiet_arg n_max n_add z n ->
    z <> RtoC 0 /\ psi z n <> RtoC 0 /\ zeta z n <> RtoC 0 /\ (D3 z n - D1 z n) * (psi z n * zeta z n) = Ci.
  Proof.
    intros Hn Hq. pose proof (quiet_arg_z z n ltac:(lia) Hq) as Hz. destruct n as [|n]; [lia|].
    pose proof (psi_zeta_neq0 e30 N e30_pos z n Hz (S n) (le_n _)) as [Hp Hs].
    split; [exact (Cmod_pos_neq _ _ e30_pos (proj1 Hq))|]. split; [exact Hp|]. split; [exact Hs|].
    apply (wronskian e30 N e30_pos z (proj1 Hq) n). apply (proj2 Hq (S n)). lia.
  Qed.

  Lemma Q_fact (z1 z2 x1 x2 : C) n : (1 <= n <= N)%nat -> quiet_arg n_max n_add z1 n -> quiet_arg n_max n_add z2 n ->
    quiet_ratio n_max n_add z1 z2 x2 n -> x1 * z2 = x2 * z1 ->
    Qn z1 z2 x1 x2 n * (zeta z1 n * psi z2 n) = psi z1 n * zeta z2 n.
  Proof.
    intros Hn H1 H2 HQ Hx.
    destruct (arg_facts z1 n Hn H1) as (_ & _ & Hs & _). destruct (arg_facts z2 n Hn H2) as (_ & Hp & _ & _).
    pose proof (Q_ratio e30 N e30_pos z1 z2 x1 x2 n ltac:(lia) (quiet_arg_z z1 n ltac:(lia) H1)
                  (quiet_arg_z z2 n ltac:(lia) H2) HQ Hx) as E.
    change (gQ e30 N z1 z2 x1 x2 n) with (Qn z1 z2 x1 x2 n) in E.
    change (gpsi e30 N z1 n) with (psi z1 n) in E. change (gzeta e30 N z1 n) with (zeta z1 n) in E.
    change (gpsi e30 N z2 n) with (psi z2 n) in E. change (gzeta e30 N z2 n) with (zeta z2 n) in E.
    rewrite E. field. split; assumption.
  Qed.

  Definition sel (tm : bool) (H : C * C) : C := if tm then fst H else snd H.
  Definition uu (tm : bool) (lm1 l : C * C) : C := if tm then fst l else fst lm1.
  Definition vv (tm : bool) (lm1 l : C * C) : C := if tm then fst lm1 else fst l.

  Lemma layer_H (tm : bool) (lm1 l H : C * C) n : quiet_layer n_max n_add lm1 l H n ->
    let z_prev := fst l * snd lm1 in let z_curr := fst l * snd l in
    let Q := Qn z_prev z_curr (snd lm1) (snd l) n in
    let G1 := uu tm lm1 l * sel tm H - vv tm lm1 l * D1 z_prev n in
    let G2 := uu tm lm1 l * sel tm H - vv tm lm1 l * D3 z_prev n in
    G2 - Q * G1 <> RtoC 0 /\
    sel tm (@pena_layer R ROps n_max n_add lm1 l H n) = (G2 * D1 z_curr n - Q * G1 * D3 z_curr n) / (G2 - Q * G1).
  Proof.
    intros (_ & _ & _ & Ha & Hb). unfold pena_layer. toC. cbv zeta.
    destruct tm; cbn [sel uu vv fst snd].
    - split; [exact (Cmod_pos_neq _ _ e30_pos Ha)|]. rewrite guard_id by exact Ha. reflexivity.
    - split; [exact (Cmod_pos_neq _ _ e30_pos Hb)|]. rewrite guard_id by exact Hb. reflexivity.
  Qed.

  Lemma Cdiv1 x : x / 1 = x. Proof. field. apply RtoC_neq. lra. Qed.

  (** one interface, in the (u,v) form *)
  Lemma interface_uv (tm : bool) (lm1 l : C * C) AB AB' h n : fst lm1 <> RtoC 0 -> fst l <> RtoC 0 ->
    interface_ok tm (snd lm1) (rf_in n_max n_add n) (fst lm1) AB (rf_in n_max n_add n) (fst l) AB' ->
    dFld (rf_in n_max n_add n) AB (fst lm1 * snd lm1) = h * Fld (rf_in n_max n_add n) AB (fst lm1 * snd lm1) ->
    vv tm lm1 l * dFld (rf_in n_max n_add n) AB' (fst l * snd lm1)
      = uu tm lm1 l * h * Fld (rf_in n_max n_add n) AB' (fst l * snd lm1).
  Proof.
    intros H1 H2. set (rf := rf_in n_max n_add n). destruct tm; cbn [interface_ok uu vv]; intros [E1 E2] E.
    - rewrite <- E1.
      replace (dFld rf AB' (fst l * snd lm1)) with (fst l * (dFld rf AB' (fst l * snd lm1) / fst l)) by (field; exact H2).
      rewrite <- E2.
      transitivity (fst l * dFld rf AB (fst lm1 * snd lm1)); [field; exact H1|]. rewrite E. ring.
    - rewrite <- E2, E.
      replace (Fld rf AB' (fst l * snd lm1)) with (fst l * (Fld rf AB' (fst l * snd lm1) / fst l)) by (field; exact H2).
      rewrite <- E1. field. exact H1.
  Qed.

  Lemma interface_out (tm : bool) (l : C * C) AB out h n : fst l <> RtoC 0 ->
    interface_ok tm (snd l) (rf_in n_max n_add n) (fst l) AB (rf_out n_max n_add n) 1 out ->
    dFld (rf_in n_max n_add n) AB (fst l * snd l) = h * Fld (rf_in n_max n_add n) AB (fst l * snd l) ->
    dFld (rf_out n_max n_add n) out (snd l)
      = (if tm then h / fst l else fst l * h) * Fld (rf_out n_max n_add n) out (snd l).
  Proof.
    intros H1. set (rf := rf_in n_max n_add n). set (ro := rf_out n_max n_add n).
    destruct tm; cbn [interface_ok]; rewrite Cmult_1_l, !Cdiv1; intros [E1 E2] E.
    - rewrite <- E2, <- E1, E. field. exact H1.
    - rewrite <- E2, <- E1, E. field. exact H1.
  Qed.

  Definition ab_sel := sel.

  Lemma final_eq (tm : bool) (lL H : C * C) n : quiet_final n_max n_add lL H n ->
    let t := (if tm then sel tm H / fst lL else fst lL * sel tm H) + Cn n / snd lL in
    t * zeta (snd lL) n - zeta (snd lL) (n - 1) <> RtoC 0 /\
    sel tm (@pena_final R ROps n_max n_add lL H n)
      = (t * psi (snd lL) n - psi (snd lL) (n - 1)) / (t * zeta (snd lL) n - zeta (snd lL) (n - 1)).
  Proof.
    intros ([Hx _] & Ha & Hb). unfold pena_final. toC. cbv zeta. rewrite (guard_id _ (snd lL)) by exact Hx.
    destruct tm; cbn [sel fst snd].
    - split; [exact (Cmod_pos_neq _ _ e30_pos Ha)|]. rewrite guard_id by exact Ha. reflexivity.
    - split; [exact (Cmod_pos_neq _ _ e30_pos Hb)|]. rewrite guard_id by exact Hb. reflexivity.
  Qed.

  Lemma final_unique (tm : bool) (lL H : C * C) n (A B : C) : quiet_final n_max n_add lL H n ->
    dFld (rf_out n_max n_add n) (A, B) (snd lL)
      = (if tm then sel tm H / fst lL else fst lL * sel tm H) * Fld (rf_out n_max n_add n) (A, B) (snd lL) ->
    A = sel tm (@pena_final R ROps n_max n_add lL H n) * B.
  Proof.
    intros Hq E. destruct (final_eq tm lL H n Hq) as [Hne ->].
    set (h := if tm then sel tm H / fst lL else fst lL * sel tm H) in *.
    unfold Fld, dFld, rf_out in E. cbn [rf_psi rf_zeta rf_dpsi rf_dzeta fst snd] in E.
    set (q := Cn n / snd lL) in *.
    set (p := psi (snd lL) n) in *. set (p' := psi (snd lL) (n - 1)) in *.
    set (s := zeta (snd lL) n) in *. set (s' := zeta (snd lL) (n - 1)) in *.
    apply (Cmult_eq_reg_l ((h + q) * s - s')); [exact Hne|].
    transitivity (((h + q) * p - p') * B); [|field; exact Hne].
    apply Csub_eq0. transitivity ((B * (p' - q * p) - A * (s' - q * s)) - h * (B * p - A * s)); [ring|].
    rewrite E. ring.
  Qed.

  Lemma quiet_m (l : C * C) x n : quiet_arg n_max n_add (fst l * x) n -> fst l <> RtoC 0.
  Proof. intros [H _]. exact (Cmult_neq_l _ _ (Cmod_pos_neq _ _ e30_pos H)). Qed.

  (** ** Uniqueness *)
  Lemma layers_unique (tm : bool) n : (1 <= n <= N)%nat -> forall rest lm1 H AB amps A B, fst lm1 <> RtoC 0 ->
    length amps = length rest ->
    quiet_layers n_max n_add lm1 rest H n ->
    quiet_final n_max n_add (last rest lm1) (@pena_layers R ROps n_max n_add lm1 rest H n) n ->
    dFld (rf_in n_max n_add n) AB (fst lm1 * snd lm1) = sel tm H * Fld (rf_in n_max n_add n) AB (fst lm1 * snd lm1) ->
    interfaces_ok tm (rf_in n_max n_add n) (rf_out n_max n_add n) lm1 AB (combine rest amps) (A, B) ->
    A = sel tm (@pena_final R ROps n_max n_add (last rest lm1) (@pena_layers R ROps n_max n_add lm1 rest H n) n) * B.
  Proof.
    intros Hn. induction rest as [|l rest IH]; intros lm1 H AB amps A B Hm Hlen Hq Hf Hcore Hok.
    - destruct amps; [|discriminate]. cbn in *. apply final_unique; [exact Hf|].
      eapply interface_out; eassumption.
    - destruct amps as [|AB' amps]; [discriminate|]. injection Hlen as Hlen.
      rewrite last_cons in *. cbn [combine interfaces_ok] in Hok. destruct Hok as [Hok1 Hok2].
      cbn [quiet_layers] in Hq. destruct Hq as [Hq1 Hq2]. cbn [pena_layers] in *.
      pose proof Hq1 as (Hzp & Hzc & HQr & _ & _).
      assert (Hm' : fst l <> RtoC 0) by (eapply quiet_m; exact Hzp).
      apply (IH l _ AB' amps A B Hm' Hlen Hq2 Hf); [|exact Hok2].
      destruct (layer_H tm lm1 l H n Hq1) as [Hden EH]. rewrite EH.
      destruct (arg_facts _ n Hn Hzp) as (_ & _ & Hs & _).
      apply (layer_unique (uu tm lm1 l) (vv tm lm1 l) (sel tm H) _ _ _ _
               (psi (fst l * snd lm1) n) (zeta (fst l * snd lm1) n)).
      + apply (Q_fact _ _ (snd lm1) (snd l) n Hn Hzp Hzc HQr). ring.
      + exact Hs.
      + exact Hden.
      + apply (interface_uv tm lm1 l AB AB' (sel tm H) n Hm Hm' Hok1 Hcore).
  Qed.

  Lemma core_fact (tm : bool) (l0 AB0 : C * C) n : (1 <= n <= N)%nat -> fst AB0 = RtoC 0 ->
    dFld (rf_in n_max n_add n) AB0 (fst l0 * snd l0)
      = sel tm (@pena_first R ROps n_max n_add l0 n) * Fld (rf_in n_max n_add n) AB0 (fst l0 * snd l0).
  Proof.
    intros Hn HA. unfold dFld, Fld, rf_in. cbn [rf_psi rf_zeta rf_dpsi rf_dzeta]. rewrite HA.
    unfold pena_first. toC. destruct tm; cbn [sel fst snd]; ring.
  Qed.

  Theorem stack_unique (tm : bool) l0 rest n AB0 amps A B : (1 <= n <= N)%nat ->
    quiet_stack n_max n_add l0 rest n ->
    solves tm (rf_in n_max n_add n) (rf_out n_max n_add n) l0 rest AB0 amps A B ->
    A = sel tm (@pena_ab R ROps n_max n_add l0 rest n) * B.
  Proof.
    intros Hn (Hq0 & Hq & Hf) (HA & Hlen & Hok).
    eapply layers_unique; try eassumption.
    - eapply quiet_m; exact Hq0.
    - apply core_fact; assumption.
  Qed.

  (** ** Existence *)
  Lemma interface_mk (tm : bool) (lm1 l : C * C) AB h n : fst lm1 <> RtoC 0 -> fst l <> RtoC 0 ->
    dFld (rf_in n_max n_add n) AB (fst lm1 * snd lm1) = h * Fld (rf_in n_max n_add n) AB (fst lm1 * snd lm1) ->
    forall AB',
    Fld (rf_in n_max n_add n) AB' (fst l * snd lm1) =
      (if tm then Fld (rf_in n_max n_add n) AB (fst lm1 * snd lm1)
       else fst l / fst lm1 * Fld (rf_in n_max n_add n) AB (fst lm1 * snd lm1)) ->
    vv tm lm1 l * dFld (rf_in n_max n_add n) AB' (fst l * snd lm1)
      = uu tm lm1 l * h * Fld (rf_in n_max n_add n) AB' (fst l * snd lm1) ->
    interface_ok tm (snd lm1) (rf_in n_max n_add n) (fst lm1) AB (rf_in n_max n_add n) (fst l) AB'.
  Proof.
    intros H1 H2. set (rf := rf_in n_max n_add n). intros E AB' E1 E2.
    destruct tm; cbn [interface_ok uu vv] in *.
    - split; [now rewrite E1|]. rewrite E, <- E1.
      apply (Cmult_eq_reg_l (fst lm1 * fst l)); [now apply Cmult_neq_0|].
      transitivity (fst l * h * Fld rf AB' (fst l * snd lm1)); [field; exact H1|].
      rewrite <- E2. field. exact H2.
    - split; [rewrite E1; field; auto|].
      apply (Cmult_eq_reg_l (fst l)); [exact H2|]. rewrite E2, E1, E. field. exact H1.
  Qed.

  Lemma layers_exist (tm : bool) n : (1 <= n <= N)%nat -> forall rest lm1 H AB, fst lm1 <> RtoC 0 ->
    quiet_layers n_max n_add lm1 rest H n ->
    quiet_final n_max n_add (last rest lm1) (@pena_layers R ROps n_max n_add lm1 rest H n) n ->
    Fld (rf_in n_max n_add n) AB (fst lm1 * snd lm1) <> RtoC 0 ->
    dFld (rf_in n_max n_add n) AB (fst lm1 * snd lm1) = sel tm H * Fld (rf_in n_max n_add n) AB (fst lm1 * snd lm1) ->
    (psi (snd (last rest lm1)) (n - 1) * zeta (snd (last rest lm1)) n
       - psi (snd (last rest lm1)) n * zeta (snd (last rest lm1)) (n - 1) <> RtoC 0) ->
    fst (last rest lm1) <> RtoC 0 ->
    exists amps s, s <> RtoC 0 /\ length amps = length rest /\
      interfaces_ok tm (rf_in n_max n_add n) (rf_out n_max n_add n) lm1 AB (combine rest amps)
        (sel tm (@pena_final R ROps n_max n_add (last rest lm1) (@pena_layers R ROps n_max n_add lm1 rest H n) n) * s, s).
  Proof.
    intros Hn. induction rest as [|l rest IH]; intros lm1 H AB Hm Hq Hf HF Hcore Hind HmL.
    - cbn in Hf, Hind. cbn [last pena_layers] in *. clear Hq.
      destruct (final_eq tm lm1 H n Hf) as [Hne Ea].
      set (a := sel tm (@pena_final R ROps n_max n_add lm1 H n)) in *.
      cbv zeta in Hne, Ea.
      set (h := if tm then sel tm H / fst lm1 else fst lm1 * sel tm H) in *.
      set (q := Cn n / snd lm1) in *.
      set (p := psi (snd lm1) n) in *. set (p' := psi (snd lm1) (n - 1)) in *.
      set (s := zeta (snd lm1) n) in *. set (s' := zeta (snd lm1) (n - 1)) in *.
      assert (Hpa : p - a * s <> RtoC 0).
      { intros E0. apply Hind.
        transitivity (((h + q) * s - s') * (p - a * s)); [|rewrite E0; ring].
        rewrite Ea. field. exact Hne. }
      set (F := Fld (rf_in n_max n_add n) AB (fst lm1 * snd lm1)) in *.
      exists [], ((if tm then F else F / fst lm1) / (p - a * s)).
      assert (HS : (if tm then F else F / fst lm1) <> RtoC 0).
      { destruct tm; [exact HF|]. now apply Cdiv_neq0. }
      set (t := if tm then F else F / fst lm1) in *.
      split.
      { now apply Cdiv_neq0. }
      split; [reflexivity|]. cbn [combine interfaces_ok].
      assert (HFo : Fld (rf_out n_max n_add n) (a * (t / (p - a * s)), t / (p - a * s)) (snd lm1) = t).
      { unfold Fld, rf_out. cbn [rf_psi rf_zeta fst snd]. fold p s. field. exact Hpa. }
      assert (HGo : dFld (rf_out n_max n_add n) (a * (t / (p - a * s)), t / (p - a * s)) (snd lm1) = h * t).
      { unfold dFld, rf_out. cbn [rf_dpsi rf_dzeta fst snd]. fold p s p' s' q.
        transitivity (((p' - q * p) - a * (s' - q * s)) * t / (p - a * s)); [field; exact Hpa|].
        enough (E0 : (p' - q * p) - a * (s' - q * s) = h * (p - a * s)) by (rewrite E0; field; exact Hpa).
        rewrite Ea. field. exact Hne. }
      destruct tm; cbn [interface_ok]; rewrite Cmult_1_l, !Cdiv1, HFo, HGo, Hcore; unfold t, h; fold F.
      + split; [reflexivity|]. field. exact Hm.
      + split; [reflexivity|]. field. exact Hm.
    - rewrite last_cons in *. cbn [quiet_layers] in Hq. destruct Hq as [Hq1 Hq2]. cbn [pena_layers] in *.
      pose proof Hq1 as (Hzp & Hzc & HQr & _ & _).
      assert (Hm' : fst l <> RtoC 0) by (eapply quiet_m; exact Hzp).
      destruct (layer_H tm lm1 l H n Hq1) as [Hden EH].
      destruct (arg_facts _ n Hn Hzp) as (_ & _ & Hs & Hw).
      destruct (arg_facts _ n Hn Hzc) as (_ & Hpc & _ & _).
      set (F := Fld (rf_in n_max n_add n) AB (fst lm1 * snd lm1)) in *.
      set (F' := if tm then F else fst l / fst lm1 * F).
      assert (HF' : F' <> RtoC 0).
      { unfold F'. destruct tm; [exact HF|]. apply Cmult_neq_0; [now apply Cdiv_neq0|exact HF]. }
      pose proof (Q_fact _ _ (snd lm1) (snd l) n Hn Hzp Hzc HQr ltac:(ring)) as HQ.
      assert (Hv : vv tm lm1 l <> RtoC 0) by (destruct tm; assumption).
      destruct (layer_exists (uu tm lm1 l) (vv tm lm1 l) (sel tm H) (D1 (fst l * snd lm1) n) (D3 (fst l * snd lm1) n)
                  (psi (fst l * snd lm1) n) (zeta (fst l * snd lm1) n) (psi (fst l * snd l) n) (zeta (fst l * snd l) n)
                  _ HQ Hs Hden Hw Hv Hpc F' HF') as (A & B & E1 & E2 & E3).
      destruct (IH l _ (A, B) Hm' Hq2 Hf) as (amps & s & Hs0 & Hlen & Hok); [|..|].
      + exact E3.
      + rewrite EH. apply (layer_unique (uu tm lm1 l) (vv tm lm1 l) (sel tm H) _ _ _ _
               (psi (fst l * snd lm1) n) (zeta (fst l * snd lm1) n)); [exact HQ|exact Hs|exact Hden|].
        cbn [fst snd]; rewrite E2, E1. reflexivity.
      + exact Hind.
      + exact HmL.
      + exists ((A, B) :: amps), s. split; [exact Hs0|]. split; [cbn; now rewrite Hlen|].
        cbn [combine interfaces_ok]. split; [|exact Hok].
        apply (interface_mk tm lm1 l AB (sel tm H) n Hm Hm' Hcore (A, B)).
        * exact E1.
        * transitivity (uu tm lm1 l * sel tm H * F'); [exact E2|].
          f_equal. symmetry. exact E1.
  Qed.

  (* independence of the exterior functions *)
  Lemma exterior_indep (x : C) n : (1 <= n <= N)%nat -> quiet_arg n_max n_add x n ->
    (n = 1%nat -> D1 x 0 <> Ci) ->
    psi x (n - 1) * zeta x n - psi x n * zeta x (n - 1) <> RtoC 0.
  Proof.
    intros Hn Hq H1. pose proof (quiet_arg_z x n ltac:(lia) Hq) as Hz. destruct n as [|n]; [lia|].
    replace (S n - 1)%nat with n by lia.
    pose proof (gpsi_S e30 N x (proj1 Hq) n) as E1. pose proof (gzeta_S e30 N x (proj1 Hq) n) as E2.
    change (gpsi e30 N x) with (psi x) in *. change (gzeta e30 N x) with (zeta x) in *.
    change (gD1 e30 N x) with (D1 x) in *. change (gD3 e30 N x) with (D3 x) in *.
    rewrite E1, E2.
    replace (psi x n * (zeta x n * (Cn (S n) / x - D3 x n)) - psi x n * (Cn (S n) / x - D1 x n) * zeta x n)
      with (- ((D3 x n - D1 x n) * (psi x n * zeta x n))) by ring.
    destruct n as [|n].
    - destruct (psi_zeta_neq0 e30 N e30_pos x 0 Hz 0%nat ltac:(lia)) as [Hp Hs].
      change (gpsi e30 N x) with (psi x) in *. change (gzeta e30 N x) with (zeta x) in *.
      intros E. specialize (H1 eq_refl). change (D3 x 0) with Ci in E.
      assert (E' : (Ci - D1 x 0) * (psi x 0 * zeta x 0) = RtoC 0).
      { replace ((Ci - D1 x 0) * (psi x 0 * zeta x 0)) with (- - ((Ci - D1 x 0) * (psi x 0 * zeta x 0))) by cring. rewrite E. cring. }
      destruct (C_integral _ _ E') as [E0|E0].
      + apply H1. symmetry. apply Csub_eq0. exact E0.
      + destruct (C_integral _ _ E0); contradiction.
    - assert (Hq' : quiet_arg n_max n_add x (S n)).
      { split; [apply Hq|]. intros j Hj. apply (proj2 Hq j). lia. }
      destruct (arg_facts x (S n) ltac:(lia) Hq') as (_ & _ & _ & Hw). rewrite Hw.
      intros E. apply Ci_neq0. replace Ci with (- - Ci) by ring. rewrite E. ring.
  Qed.

  Lemma solves_scale tm rf rfo l0 rest AB0 amps A B c :
    solves tm rf rfo l0 rest AB0 amps A B ->
    solves tm rf rfo l0 rest (scaleAB c AB0) (map (scaleAB c) amps) (c * A) (c * B).
  Proof.
    intros (H1 & H2 & H3). split; [|split].
    - unfold scaleAB. simpl. rewrite H1. ring.
    - now rewrite map_length.
    - apply (interfaces_scale tm rf rfo c _ _ _ _ _ H3).
  Qed.

  Lemma quiet_final_m l0 rest n : quiet_stack n_max n_add l0 rest n -> fst (last rest l0) <> RtoC 0.
  Proof.
    intros (H0 & Hq & _). revert l0 H0 Hq. generalize (@pena_first R ROps n_max n_add) as f.
    intros f l0 H0. assert (Hm : fst l0 <> RtoC 0) by (eapply quiet_m; exact H0). clear H0.
    generalize (f l0 n) as H. revert l0 Hm. induction rest as [|l rest IH]; intros l0 Hm H Hq; [exact Hm|].
    rewrite last_cons. destruct Hq as [(Hz & _) Hq]. eapply IH; [|exact Hq]. eapply quiet_m; exact Hz.
  Qed.

  Theorem stack_exists (tm : bool) l0 rest n : (1 <= n <= N)%nat ->
    quiet_stack n_max n_add l0 rest n ->
    (n = 1%nat -> D1 (snd (last rest l0)) 0 <> Ci) ->
    exists AB0 amps, solves tm (rf_in n_max n_add n) (rf_out n_max n_add n) l0 rest AB0 amps
      (sel tm (@pena_ab R ROps n_max n_add l0 rest n)) 1.
  Proof.
    intros Hn Hs Hi. pose proof Hs as (Hq0 & Hq & Hf).
    assert (Hm : fst l0 <> RtoC 0) by (eapply quiet_m; exact Hq0).
    destruct (arg_facts _ n Hn Hq0) as (_ & Hp & _ & _).
    destruct (layers_exist tm n Hn rest l0 (@pena_first R ROps n_max n_add l0 n) (RtoC 0, RtoC 1) Hm Hq Hf)
      as (amps & s & Hs0 & Hlen & Hok).
    - unfold Fld, rf_in. cbn [rf_psi rf_zeta fst snd].
      replace (1 * psi (fst l0 * snd l0) n - 0 * zeta (fst l0 * snd l0) n) with (psi (fst l0 * snd l0) n) by ring. exact Hp.
    - apply core_fact; [exact Hn|reflexivity].
    - apply exterior_indep; [exact Hn|apply Hf|exact Hi].
    - eapply quiet_final_m; exact Hs.
    - exists (scaleAB (/ s) (RtoC 0, RtoC 1)), (map (scaleAB (/ s)) amps).
      replace (sel tm (@pena_ab R ROps n_max n_add l0 rest n))
        with (/ s * (sel tm (@pena_ab R ROps n_max n_add l0 rest n) * s)) by (field; exact Hs0).
      replace (RtoC 1) with (/ s * s) at 2 by (field; exact Hs0).
      apply solves_scale. split; [reflexivity|]. split; [exact Hlen|]. exact Hok.
  Qed.
End Stack.
