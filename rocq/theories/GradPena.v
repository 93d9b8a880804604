(** Dual numbers carry the derivative through the whole pena algorithm (C83). *)
From Coq Require Import Reals ZArith Lra Lia List Bool Arith.
From Coquelicot Require Import Coquelicot.
From Verif Require Import Ops ROps Spec CTrig CLemmas ModelSpecial ModelMie ModelGrad GradSpec GradOps.
Import ListNotations.
Open Scope R_scope.
Arguments Cmod x%C_scope.
Arguments off z%C_scope.

(* equations of the loops, for any numbers *)
Section Equations.
  Context {T : Type} {RO : RealOps T}.
  Lemma d3_S eps z D1 m : d3_state eps z D1 (S m) =
    let s := d3_state eps z D1 m in
    let pz := cmul (cmul (fst s) (csub (cdiv (cofn (S m)) (guard eps z)) (D1 m))) (csub (cdiv (cofn (S m)) (guard eps z)) (snd s)) in
    (pz, cadd (D1 (S m)) (cdiv ci (guard eps pz))).
  Proof. cbn [d3_state]. destruct (d3_state eps z D1 m) as [u v]. reflexivity. Qed.
  Lemma pz_S eps z D1 D3 m : psi_zeta_at eps z D1 D3 (S m) =
    let s := psi_zeta_at eps z D1 D3 m in
    (cmul (fst s) (csub (cdiv (cofn (S m)) (guard eps z)) (D1 m)), cmul (snd s) (csub (cdiv (cofn (S m)) (guard eps z)) (D3 m))).
  Proof. cbn [psi_zeta_at]. destruct (psi_zeta_at eps z D1 D3 m) as [u v]. reflexivity. Qed.
End Equations.

Section Pena.
  Variable t0 : R.
  Notation car := (carries t0).
  Notation cc := (ccarries t0).
  Notation er := (@eps30 R ROps).
  Notation ed := (@eps30 dual DOps).

  Lemma cc_cofn n : cc (fun _ => @cofn R ROps n) (@cofn dual DOps n).
  Proof. eapply cc_ext; [|apply cc_ofn]. intros t. cbv beta. rewrite ?cofn_C; reflexivity. Qed.
  Lemma cc_gd f d : cc f d -> Cmod (f t0) <> er -> cc (fun t => @guard R ROps er (f t)) (@guard dual DOps ed d).
  Proof. apply (cc_guard t0 30). Qed.
  Lemma gd_neq0 (z : C) : @guard R ROps er z <> RtoC 0.
  Proof. apply (guard_neq0 30). Qed.
  Lemma cc_i : cc (fun _ => Ci) (@ci dual DOps).
  Proof. split; apply car_const. Qed.
  Lemma cc_one : cc (fun _ => RtoC 1) (@cone dual DOps).
  Proof. split; apply car_const. Qed.
  Lemma cc_zero : cc (fun _ => RtoC 0) (@czero dual DOps).
  Proof. split; apply car_const. Qed.

  Section Depth.
    Variables n_max n_add : nat.
    Notation N := (n_max + n_add)%nat.
    Notation D1 := (@pD1 R ROps n_max n_add).
    Notation D1d := (@pD1 dual DOps n_max n_add).
    Notation D3 := (@pD3 R ROps n_max n_add).
    Notation D3d := (@pD3 dual DOps n_max n_add).
    Notation sm := (smooth_arg n_max n_add).

    Lemma cc_num f d j : cc f d -> Cmod (f t0) <> er ->
      cc (fun t => @cofn R ROps j / @guard R ROps er (f t))%C (@cdiv dual DOps (cofn j) (guard ed d)).
    Proof. intros H Hn. apply (cc_div t0 (fun _ => @cofn R ROps j)); [apply cc_cofn|now apply cc_gd|apply gd_neq0]. Qed.
    Lemma cc_iter f d : cc f d -> Cmod (f t0) <> er -> forall k, (k <= N)%nat ->
      (forall j, (N - k < j <= N)%nat -> off (@cadd R ROps (D1 (f t0) j) (@cdiv R ROps (RtoC (INR j)) (@guard R ROps er (f t0))))) ->
      cc (fun t => @d1_iter R ROps er (@guard R ROps er (f t)) N k) (@d1_iter dual DOps ed (guard ed d) N k).
    Proof.
      intros H Hn. induction k as [|k IH]; intros Hk Ho; [apply cc_zero|].
      cbn [d1_iter]. unfold d1_step. set (j := (N - k)%nat).
      specialize (IH ltac:(lia) ltac:(intros i Hi; apply Ho; lia)).
      pose proof (cc_num f d j H Hn) as Cn. toC.
      apply (cc_sub t0 (fun t => RtoC (INR j) / @guard R ROps er (f t))%C).
      - eapply cc_ext; [|exact Cn]. intros t. cbv beta. rewrite ?cofn_C; reflexivity.
      - apply (cc_div t0 (fun _ => RtoC 1)); [apply cc_one| |apply gd_neq0].
        apply (cc_gd (fun t => @d1_iter R ROps er (@guard R ROps er (f t)) N k + RtoC (INR j) / @guard R ROps er (f t))%C).
        + apply cc_add; [exact IH|]. eapply cc_ext; [|exact Cn]. intros t. cbv beta. rewrite ?cofn_C; reflexivity.
        + pose proof (Ho j ltac:(unfold j; lia)) as O. unfold off, pD1, D1_at in O. replace (N - j)%nat with k in O by (unfold j; lia). exact O.
    Qed.
    Lemma cc_D1 f d n m : cc f d -> sm (f t0) m -> cc (fun t => D1 (f t) n) (D1d d n).
    Proof.
      intros H (Hn & Ho & _). unfold pD1, D1_at. apply (cc_iter f d H Hn); [lia|]. intros j Hj. apply Ho. lia.
    Qed.
    Lemma cc_half : cc (fun _ => RtoC (1 / (1 + 1))) (@cofr dual DOps (rdiv rone rtwo)).
    Proof. apply (cc_ofr t0 (fun _ => 1 / (1 + 1))). apply (car_div t0 (fun _ => 1) (fun _ => 1 + 1)); [apply car_const|apply car_two|lra]. Qed.
    Lemma cc_d3 f d m : cc f d -> sm (f t0) m -> forall n, (n <= m)%nat ->
      cc (fun t => fst (@d3_state R ROps er (f t) (D1 (f t)) n)) (fst (@d3_state dual DOps ed d (D1d d) n)) /\
      cc (fun t => snd (@d3_state R ROps er (f t) (D1 (f t)) n)) (snd (@d3_state dual DOps ed d (D1d d) n)).
    Proof.
      intros H Hs. pose proof Hs as (Hn & _ & Hp). induction n as [|n IH]; intros Hm.
      - split; cbn [d3_state fst snd]; [|apply cc_i].
        apply (cc_mul t0 (fun _ => RtoC (1 / (1 + 1)))); [apply cc_half|].
        apply (cc_sub t0 (fun _ => RtoC 1)); [apply cc_one|].
        apply (cc_exp t0 (fun t => @cofn R ROps 2 * Ci * f t)%C). apply cc_mul; [|exact H].
        apply (cc_mul t0 (fun _ => @cofn R ROps 2)); [apply cc_cofn|apply cc_i].
      - destruct (IH ltac:(lia)) as [I1 I2].
        assert (P : cc (fun t => fst (@d3_state R ROps er (f t) (D1 (f t)) (S n))) (fst (@d3_state dual DOps ed d (D1d d) (S n)))).
        { rewrite d3_S. cbv zeta. cbn [fst].
          eapply cc_ext; [intros t; rewrite d3_S; reflexivity|]. cbv zeta. cbn [fst]. toC.
          apply (cc_mul t0 (fun t => fst (@d3_state R ROps er (f t) (D1 (f t)) n) * (RtoC (INR (S n)) / @guard R ROps er (f t) - D1 (f t) n))%C).
          - apply cc_mul; [exact I1|]. apply cc_sub; [|now apply (cc_D1 f d n m)].
            eapply cc_ext; [|apply (cc_num f d (S n) H Hn)]. intros t. cbv beta. rewrite ?cofn_C; reflexivity.
          - apply cc_sub; [|exact I2]. eapply cc_ext; [|apply (cc_num f d (S n) H Hn)]. intros t. cbv beta. rewrite ?cofn_C; reflexivity. }
        split; [exact P|].
        assert (Q : cc (fun t => D1 (f t) (S n) + Ci / @guard R ROps er (fst (@d3_state R ROps er (f t) (D1 (f t)) (S n))))%C
                       (cadd (D1d d (S n)) (cdiv ci (guard ed (fst (@d3_state dual DOps ed d (D1d d) (S n))))))).
        { apply cc_add; [now apply (cc_D1 f d (S n) m)|]. apply (cc_div t0 (fun _ => Ci)); [apply cc_i| |apply gd_neq0].
          apply cc_gd; [exact P|]. apply Hp. lia. }
        rewrite d3_S. cbv zeta. cbn [snd]. rewrite d3_S in Q. cbv zeta in Q. cbn [fst] in Q.
        eapply cc_ext; [|exact Q]. intros t. cbv beta. rewrite !d3_S. reflexivity.
    Qed.
    Lemma cc_D3 f d m n : cc f d -> sm (f t0) m -> (n <= m)%nat -> cc (fun t => D3 (f t) n) (D3d d n).
    Proof. intros H Hs Hn. exact (proj2 (cc_d3 f d m H Hs n Hn)). Qed.
    Lemma cc_pz f d m : cc f d -> sm (f t0) m -> forall n, (n <= S m)%nat ->
      cc (fun t => @ppsi R ROps n_max n_add (f t) n) (@ppsi dual DOps n_max n_add d n) /\
      cc (fun t => @pzeta R ROps n_max n_add (f t) n) (@pzeta dual DOps n_max n_add d n).
    Proof.
      intros H Hs. pose proof Hs as (Hn & _ & Hp). unfold ppsi, pzeta, pPZ. induction n as [|n IH]; intros Hm.
      - split; cbn [psi_zeta_at fst snd]; [now apply cc_sin|].
        apply (cc_sub t0 (fun t => @csin R ROps (f t))); [now apply cc_sin|].
        apply (cc_mul t0 (fun _ => Ci)); [apply cc_i|now apply cc_cos].
      - destruct (IH ltac:(lia)) as [I1 I2].
        assert (Cn : cc (fun t => RtoC (INR (S n)) / @guard R ROps er (f t))%C (@cdiv dual DOps (cofn (S n)) (guard ed d))).
        { eapply cc_ext; [|apply (cc_num f d (S n) H Hn)]. intros t. cbv beta. rewrite ?cofn_C; reflexivity. }
        rewrite pz_S. cbv zeta. cbn [fst snd].
        split; (eapply cc_ext; [intros t; rewrite pz_S; reflexivity|]); cbv zeta; cbn [fst snd]; toC.
        + apply (cc_mul t0 (fun t => fst (@psi_zeta_at R ROps er (f t) (D1 (f t)) (D3 (f t)) n))); [exact I1|].
          apply (cc_sub t0 (fun t => RtoC (INR (S n)) / @guard R ROps er (f t))%C); [exact Cn|]. now apply (cc_D1 f d n m).
        + apply (cc_mul t0 (fun t => snd (@psi_zeta_at R ROps er (f t) (D1 (f t)) (D3 (f t)) n))); [exact I2|].
          apply (cc_sub t0 (fun t => RtoC (INR (S n)) / @guard R ROps er (f t))%C); [exact Cn|]. apply (cc_D3 f d m n); [exact H|exact Hs|lia].
    Qed.
  End Depth.
End Pena.
