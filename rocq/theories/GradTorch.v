(** Dual numbers carry the derivative through the torch backend (C106). *)
From Coq Require Import Reals ZArith Lra Lia List Bool Arith.
From Coquelicot Require Import Coquelicot.
From Verif Require Import Ops ROps Spec CTrig CLemmas ModelSpecial ModelMie ModelBatch ModelGrad GradSpec GradOps GradPena GradStack GradObs TorchSpec TorchProofs ModelGradTorch GradTorchSpec.
Import ListNotations.
Open Scope R_scope.
Arguments Cmod x%C_scope.

Section Torch.
  Variable t0 : R.
  Notation car := (carries t0).
  Notation cc := (ccarries t0).

  (* the operations as the model writes them *)
  Lemma kadd f g d e : cc f d -> cc g e -> cc (fun t => @cadd R ROps (f t) (g t)) (@cadd dual DOps d e). Proof. exact (cc_add t0 f g d e). Qed.
  Lemma ksub f g d e : cc f d -> cc g e -> cc (fun t => @csub R ROps (f t) (g t)) (@csub dual DOps d e). Proof. exact (cc_sub t0 f g d e). Qed.
  Lemma kmul f g d e : cc f d -> cc g e -> cc (fun t => @cmul R ROps (f t) (g t)) (@cmul dual DOps d e). Proof. exact (cc_mul t0 f g d e). Qed.
  Lemma kopp f d : cc f d -> cc (fun t => @copp R ROps (f t)) (@copp dual DOps d). Proof. exact (cc_opp t0 f d). Qed.
  Lemma ksqr f d : cc f d -> cc (fun t => @csqr R ROps (f t)) (@csqr dual DOps d). Proof. exact (cc_csqr t0 f d). Qed.
  Lemma kone : cc (fun _ => @cone R ROps) (@cone dual DOps). Proof. exact (cc_one t0). Qed.
  Lemma ki : cc (fun _ => @ci R ROps) (@ci dual DOps). Proof. exact (cc_i t0). Qed.
  Lemma kdiv f g d e : cc f d -> cc g e -> g t0 <> RtoC 0 -> cc (fun t => @cdiv R ROps (f t) (g t)) (@cdiv dual DOps d e). Proof. exact (cc_div t0 f g d e). Qed.

  Lemma cc_jrec f d N : cc f d -> f t0 <> RtoC 0 -> forall k,
    cc (fun t => fst (@jrec R ROps (f t) N k)) (fst (@jrec dual DOps d N k)) /\ cc (fun t => snd (@jrec R ROps (f t) N k)) (snd (@jrec dual DOps d N k)).
  Proof.
    intros H Hn. induction k as [|k [I1 I2]].
    - split; cbn [jrec fst snd]; [exact (cc_zero t0)|]. apply (cc_ofr t0 (fun _ => @rtenth R ROps 25)). apply car_tenth.
    - assert (ER : forall t, @jrec R ROps (f t) N (S k) =
        (csub (cmul (cdiv (cofn (2 * (N - k) + 1)) (f t)) (fst (@jrec R ROps (f t) N k))) (snd (@jrec R ROps (f t) N k)), fst (@jrec R ROps (f t) N k)))
        by (intros t; cbn [jrec]; destruct (@jrec R ROps (f t) N k); reflexivity).
      assert (ED : @jrec dual DOps d N (S k) =
        (csub (cmul (cdiv (cofn (2 * (N - k) + 1)) d) (fst (@jrec dual DOps d N k))) (snd (@jrec dual DOps d N k)), fst (@jrec dual DOps d N k)))
        by (cbn [jrec]; destruct (@jrec dual DOps d N k); reflexivity).
      rewrite ED. cbn [fst snd]. split.
      + eapply cc_ext; [intros t; rewrite (ER t); cbn [fst]; reflexivity|].
        apply ksub; [|exact I2]. apply kmul; [|exact I1]. apply (kdiv (fun _ => @cofn R ROps (2 * (N - k) + 1))); [apply cc_cofn|exact H|exact Hn].
      + eapply cc_ext; [intros t; rewrite (ER t); cbn [snd]; reflexivity|]. exact I1.
  Qed.
  Lemma cc_replace f d : cc f d -> @rtenth R ROps 10 < Cmod (f t0) ->
    cc (fun t => @replace_small R ROps (rtenth 10) (f t)) (@replace_small dual DOps (rtenth 10) d).
  Proof.
    intros H L. pose proof (cc_abs_cont t0 f d H) as Hc.
    assert (ED : @replace_small dual DOps (rtenth 10) d = d).
    { unfold replace_small. replace (rltb (cabs d) (@rtenth dual DOps 10)) with (Rltb (Cmod (f t0)) (@rtenth R ROps 10))
        by (cbn [rltb DOps]; rewrite (cc_abs_val t0 f d H); reflexivity).
      rewrite (proj2 (Rltb_false _ _)) by lra. reflexivity. }
    rewrite ED. apply (cc_loc t0 f); [|exact H]. pose proof (Hc _ (open_gt (@rtenth R ROps 10) _ L)) as HL. eapply filter_imp; [|exact HL].
    intros t Ht. cbv beta in Ht. unfold replace_small. cbn [rltb ROps]. rewrite cabs_C. rewrite (proj2 (Rltb_false _ _)); [reflexivity|]. apply Rlt_le. exact Ht.
  Qed.
  Lemma big_neq0 (z : C) : @rtenth R ROps 10 < Cmod z -> z <> RtoC 0.
  Proof. intros H E. rewrite E, Cmod_0 in H. pose proof (rtenth_pos 10). lra. Qed.
  Lemma replace_id (z : C) : @rtenth R ROps 10 < Cmod z -> @replace_small R ROps (rtenth 10) z = z.
  Proof. intros H. unfold replace_small. cbn [rltb ROps]. rewrite cabs_C, (proj2 (Rltb_false _ _)) by lra. reflexivity. Qed.

  Lemma cc_jn n_max dp f d n : cc f d -> smooth_bessel n_max dp (f t0) ->
    cc (fun t => @sph_jn_via_rec R ROps n_max dp (f t) n) (@sph_jn_via_rec dual DOps n_max dp d n).
  Proof.
    intros H [L J]. pose proof (cc_replace f d H L) as HZ.
    assert (Z0 : @replace_small R ROps (rtenth 10) (f t0) <> RtoC 0) by (rewrite replace_id by assumption; now apply big_neq0).
    unfold sph_jn_via_rec. cbv zeta. unfold jrec_at.
    assert (HJ : forall k, cc (fun t => fst (@jrec R ROps (replace_small (rtenth 10) (f t)) (n_max + dp) k)) (fst (@jrec dual DOps (replace_small (rtenth 10) d) (n_max + dp) k)))
      by (intros k; exact (proj1 (cc_jrec (fun t => @replace_small R ROps (rtenth 10) (f t)) _ _ HZ Z0 k))).
    apply kmul; [apply HJ|]. apply kdiv; [|apply HJ|].
    - apply kdiv; [exact (cc_sin t0 _ _ HZ)|exact HZ|exact Z0].
    - cbv beta. rewrite replace_id by assumption. exact J.
  Qed.
  Lemma cc_yn f d : cc f d -> @rtenth R ROps 10 < Cmod (f t0) -> forall n, cc (fun t => @sph_yn R ROps (f t) n) (@sph_yn dual DOps d n).
  Proof.
    intros H L. pose proof (cc_replace f d H L) as HZ.
    assert (Z0 : @replace_small R ROps (rtenth 10) (f t0) <> RtoC 0) by (rewrite replace_id by assumption; now apply big_neq0).
    set (g := fun t => @replace_small R ROps (rtenth 10) (f t)) in *. set (e := @replace_small dual DOps (rtenth 10) d) in *.
    assert (P : forall n, cc (fun t => fst (@yn_pair R ROps (g t) n)) (fst (@yn_pair dual DOps e n)) /\ cc (fun t => snd (@yn_pair R ROps (g t) n)) (snd (@yn_pair dual DOps e n))).
    { induction n as [|n [I1 I2]].
      - cbn [yn_pair fst snd]. split; apply kopp.
        + apply kdiv; [exact (cc_cos t0 _ _ HZ)|exact HZ|exact Z0].
        + apply kadd; apply kdiv; [exact (cc_cos t0 _ _ HZ)|apply ksqr; exact HZ| |exact (cc_sin t0 _ _ HZ)|exact HZ|exact Z0].
          unfold csqr. rewrite cmul_C. now apply Cmult_neq_0.
      - assert (ER : forall t, @yn_pair R ROps (g t) (S n) = (snd (@yn_pair R ROps (g t) n),
          csub (cmul (cdiv (cofn (2 * S (S n) - 1)) (g t)) (snd (@yn_pair R ROps (g t) n))) (fst (@yn_pair R ROps (g t) n))))
          by (intros t; cbn [yn_pair]; destruct (@yn_pair R ROps (g t) n); reflexivity).
        assert (ED : @yn_pair dual DOps e (S n) = (snd (@yn_pair dual DOps e n),
          csub (cmul (cdiv (cofn (2 * S (S n) - 1)) e) (snd (@yn_pair dual DOps e n))) (fst (@yn_pair dual DOps e n))))
          by (cbn [yn_pair]; destruct (@yn_pair dual DOps e n); reflexivity).
        rewrite ED. cbn [fst snd]. split; (eapply cc_ext; [intros t; rewrite (ER t); cbn [fst snd]; reflexivity|]); [exact I2|].
        apply ksub; [|exact I1]. apply kmul; [|exact I2]. apply (kdiv (fun _ => @cofn R ROps (2 * S (S n) - 1))); [apply cc_cofn|exact HZ|exact Z0]. }
    intros n. exact (proj1 (P n)).
  Qed.
  Lemma cc_fder f d (s : R -> nat -> C) (e : nat -> cplx dual) n : cc f d -> f t0 <> RtoC 0 -> (forall i, cc (fun t => s t i) (e i)) ->
    cc (fun t => @f_der_at R ROps (f t) (s t) n) (@f_der_at dual DOps d e n).
  Proof.
    intros H Hn Hs. destruct n as [|n]; cbn [f_der_at]; [now apply kopp|].
    apply ksub; [apply Hs|]. apply kmul; [|apply Hs]. apply (kdiv (fun _ => @cofn R ROps (S n + 1))); [apply cc_cofn|exact H|exact Hn].
  Qed.

  (** ** the record of radial functions, from any seven sequences *)
  Section Radial.
    Variables (x y mc ms : R -> C) (dx dy dmc dms : cplx dual).
    Variables (jy j1 j2 j3 yy y2 y3 : R -> nat -> C) (ejy ej1 ej2 ej3 eyy ey2 ey3 : nat -> cplx dual).
    Hypothesis Hx : cc x dx. Hypothesis Hy : cc y dy. Hypothesis Hc : cc mc dmc. Hypothesis Hs : cc ms dms.
    Hypothesis Ny : y t0 <> RtoC 0.
    Hypothesis N1 : (mc t0 * x t0)%C <> RtoC 0. Hypothesis N2 : (ms t0 * x t0)%C <> RtoC 0. Hypothesis N3 : (ms t0 * y t0)%C <> RtoC 0.
    Hypothesis Jy : forall i, cc (fun t => jy t i) (ejy i). Hypothesis J1 : forall i, cc (fun t => j1 t i) (ej1 i).
    Hypothesis J2 : forall i, cc (fun t => j2 t i) (ej2 i). Hypothesis J3 : forall i, cc (fun t => j3 t i) (ej3 i).
    Hypothesis Yy : forall i, cc (fun t => yy t i) (eyy i). Hypothesis Y2 : forall i, cc (fun t => y2 t i) (ey2 i). Hypothesis Y3 : forall i, cc (fun t => y3 t i) (ey3 i).
    Lemma radial_carried n : carries_radial t0 (fun t => @radial_of7 R ROps (x t) (y t) (mc t) (ms t) (jy t) (j1 t) (j2 t) (j3 t) (yy t) (y2 t) (y3 t) n)
      (@radial_of7 dual DOps dx dy dmc dms ejy ej1 ej2 ej3 eyy ey2 ey3 n).
    Proof.
      pose proof (kmul _ _ _ _ Hc Hx) as Z1. pose proof (kmul _ _ _ _ Hs Hx) as Z2. pose proof (kmul _ _ _ _ Hs Hy) as Z3.
      pose proof (cc_fder _ _ _ _ n Hy Ny Jy) as Fy. pose proof (cc_fder _ _ _ _ n Hy Ny Yy) as Gy.
      pose proof (cc_fder _ _ _ _ n Z1 N1 J1) as F1. pose proof (cc_fder _ _ _ _ n Z2 N2 J2) as F2. pose proof (cc_fder _ _ _ _ n Z3 N3 J3) as F3.
      pose proof (cc_fder _ _ _ _ n Z2 N2 Y2) as G2. pose proof (cc_fder _ _ _ _ n Z3 N3 Y3) as G3.
      unfold carries_radial, radial_of7, h1_of. cbn [m1 m2 psi_y dpsi_y xi_y dxi_y psi_m1x dpsi_m1x psi_m2x dpsi_m2x chi_m2x dchi_m2x psi_m2y dpsi_m2y chi_m2y dchi_m2y]. cbv zeta beta.
      repeat match goal with |- _ /\ _ => split end;
        repeat first [exact Hc | exact Hs | exact Hy | exact Z1 | exact Z2 | exact Z3 | exact Fy | exact Gy | exact F1 | exact F2 | exact F3 | exact G2 | exact G3
          | apply Jy | apply J1 | apply J2 | apply J3 | apply Yy | apply Y2 | apply Y3 | exact ki | apply kadd | apply ksub | apply kmul | apply kopp].
    Qed.
  End Radial.

  (** ** the quotients *)
  Ltac kstep :=
    match goal with
    | H : ccarries _ ?a ?b |- ccarries _ ?a ?b => exact H
    | |- ccarries _ _ (cdiv _ _) => apply kdiv
    | |- ccarries _ _ (cmul _ _) => apply kmul
    | |- ccarries _ _ (cadd _ _) => apply kadd
    | |- ccarries _ _ (csub _ _) => apply ksub
    | |- ccarries _ _ (copp _) => apply kopp
    | |- ccarries _ _ (csqr _) => apply ksqr
    | |- ccarries _ _ cone => exact kone
    end.
  Lemma core_carried (f : R -> @radial R) (d : @radial dual) : carries_radial t0 f d -> det_a (f t0) <> RtoC 0 -> det_b (f t0) <> RtoC 0 ->
    carries_coeffs t0 (fun t => @miecoef_core R ROps (f t)) (@miecoef_core dual DOps d).
  Proof.
    intros ((A1 & A2) & (B1 & B2 & B3 & B4) & (D1 & D2) & (E1 & E2 & E3 & E4) & (F1 & F2 & F3 & F4)) Na Nb.
    unfold carries_coeffs, miecoef_core. cbn [an bn cn dn fn gn vn wn]. cbv zeta beta.
    repeat match goal with |- _ /\ _ => split end; repeat kstep.
    all: cbv beta; revert Na Nb; clear; generalize (f t0); intros r Na Nb E;
      first [apply Na; rewrite <- E; destruct r; unr; flds; unfold csqr; toR; ring | apply Nb; rewrite <- E; destruct r; unr; flds; unfold csqr; toR; ring].
  Qed.
End Torch.
