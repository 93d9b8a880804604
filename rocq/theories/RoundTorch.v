(** The torch backend in rounded arithmetic (C107). *)
From Coq Require Import Reals ZArith Lra Lia List Bool Arith.
From Coquelicot Require Import Coquelicot.
From Verif Require Import Ops ROps Spec CTrig CLemmas ModelSpecial ModelMie ModelBatch ModelRound RoundSpec GradSpec GradOps GradPena GradStack GradObs StackConsequences RoundOps RoundPena RoundObs RoundBinary RoundEnd
  TruncProofs TorchSpec TorchProofs TorchBatch ModelGradTorch GradTorchSpec GradTorch ModelRoundTorch RoundTorchSpec.
Import ListNotations.
Open Scope R_scope.
Arguments Cmod x%C_scope.

Lemma cst_jrec p x N : cst p x -> x <> RtoC 0 -> forall k,
  cst (fun A => fst (@jrec R (op A) (p A) N k)) (fst (@jrec R ROps x N k)) /\ cst (fun A => snd (@jrec R (op A) (p A) N k)) (snd (@jrec R ROps x N k)).
Proof.
  intros H Hn. induction k as [|k [I1 I2]].
  - split; cbn [jrec fst snd]; [exact cst_zero|]. apply cst_ofr, st_tenth.
  - assert (EA : forall O (z : C), @jrec R O z N (S k) =
      (@csub R O (@cmul R O (@cdiv R O (@cofn R O (2 * (N - k) + 1)) z) (fst (@jrec R O z N k))) (snd (@jrec R O z N k)), fst (@jrec R O z N k)))
      by (intros O z; cbn [jrec]; destruct (@jrec R O z N k); reflexivity).
    rewrite (EA ROps x). cbn [fst snd]. split; (eapply cst_ext; [intros A; rewrite (EA (op A) (p A)); cbn [fst snd]; reflexivity|]); [|exact I1].
    apply cst_sub; [|exact I2]. apply cst_mul; [|exact I1]. apply cst_div; [apply cst_ofn|exact H|exact Hn].
Qed.
Lemma cst_replace p x : cst p x -> @rtenth R ROps 10 < Cmod x -> cst (fun A => @replace_small R (op A) (@rtenth R (op A) 10) (p A)) x.
Proof.
  intros H L. pose proof (st_abs p x H) as Ha. pose proof (st_tenth 10) as Ht. apply (cst_ev p); [|exact H].
  eapply ev_imp; [|exact (ev_and _ _ ev_prec (st_lt _ _ _ _ Ht Ha L))]. intros A [P K]. cbv beta in K. unfold replace_small.
  rewrite (pr_ltb _ _ P), (proj2 (Rltb_false _ _)); [reflexivity|]. apply Rlt_le. exact K.
Qed.
Lemma cst_jn n_max dp p x n : cst p x -> smooth_bessel n_max dp x ->
  cst (fun A => @sph_jn_via_rec R (op A) n_max dp (p A) n) (@sph_jn_via_rec R ROps n_max dp x n).
Proof.
  intros H [L J]. pose proof (cst_replace p x H L) as HZ. pose proof (big_neq0 _ L) as Z0.
  unfold sph_jn_via_rec. cbv zeta. unfold jrec_at in *. rewrite (replace_id x L).
  assert (HJ : forall k, cst (fun A => fst (@jrec R (op A) (@replace_small R (op A) (@rtenth R (op A) 10) (p A)) (n_max + dp) k)) (fst (@jrec R ROps x (n_max + dp) k)))
    by (intros k; exact (proj1 (cst_jrec (fun A => @replace_small R (op A) (@rtenth R (op A) 10) (p A)) x _ HZ Z0 k))).
  apply cst_mul; [apply HJ|]. apply cst_div; [|apply HJ|exact J].
  apply cst_div; [exact (cst_sin _ _ HZ)|exact HZ|exact Z0].
Qed.
Lemma cst_yn p x : cst p x -> @rtenth R ROps 10 < Cmod x -> forall n, cst (fun A => @sph_yn R (op A) (p A) n) (@sph_yn R ROps x n).
Proof.
  intros H L. pose proof (cst_replace p x H L) as HZ. pose proof (big_neq0 _ L) as Z0.
  unfold sph_yn. rewrite (replace_id x L). set (g := fun A => @replace_small R (op A) (@rtenth R (op A) 10) (p A)) in *.
  assert (P : forall n, cst (fun A => fst (@yn_pair R (op A) (g A) n)) (fst (@yn_pair R ROps x n)) /\ cst (fun A => snd (@yn_pair R (op A) (g A) n)) (snd (@yn_pair R ROps x n))).
  { induction n as [|n [I1 I2]].
    - cbn [yn_pair fst snd]. split; apply cst_opp.
      + apply cst_div; [exact (cst_cos _ _ HZ)|exact HZ|exact Z0].
      + apply cst_add; apply cst_div; [exact (cst_cos _ _ HZ)|apply cst_csqr; exact HZ| |exact (cst_sin _ _ HZ)|exact HZ|exact Z0].
        unfold csqr. rewrite cmul_C. now apply Cmult_neq_0.
    - assert (EA : forall O (z : C), @yn_pair R O z (S n) = (snd (@yn_pair R O z n),
        @csub R O (@cmul R O (@cdiv R O (@cofn R O (2 * S (S n) - 1)) z) (snd (@yn_pair R O z n))) (fst (@yn_pair R O z n))))
        by (intros O z; cbn [yn_pair]; destruct (@yn_pair R O z n); reflexivity).
      rewrite (EA ROps x). cbn [fst snd]. split; (eapply cst_ext; [intros A; rewrite (EA (op A) (g A)); cbn [fst snd]; reflexivity|]); [exact I2|].
      apply cst_sub; [|exact I1]. apply cst_mul; [|exact I2]. apply cst_div; [apply cst_ofn|exact HZ|exact Z0]. }
  intros n. exact (proj1 (P n)).
Qed.
Lemma cst_fder p x (s : arithmetic -> nat -> C) (e : nat -> C) n : cst p x -> x <> RtoC 0 -> (forall i, cst (fun A => s A i) (e i)) ->
  cst (fun A => @f_der_at R (op A) (p A) (s A) n) (@f_der_at R ROps x e n).
Proof.
  intros H Hn Hs. destruct n as [|n]; cbn [f_der_at]; [apply cst_opp; apply Hs|].
  apply cst_sub; [apply Hs|]. apply cst_mul; [|apply Hs]. apply cst_div; [apply cst_ofn|exact H|exact Hn].
Qed.

Definition cst_radial (q : arithmetic -> @radial R) (d : @radial R) : Prop :=
  let cc (g : @radial R -> C) := cst (fun A => g (q A)) (g d) in
  (cc m1 /\ cc m2) /\ (cc psi_y /\ cc dpsi_y /\ cc xi_y /\ cc dxi_y) /\ (cc psi_m1x /\ cc dpsi_m1x) /\
  (cc psi_m2x /\ cc dpsi_m2x /\ cc chi_m2x /\ cc dchi_m2x) /\ (cc psi_m2y /\ cc dpsi_m2y /\ cc chi_m2y /\ cc dchi_m2y).
Ltac cstep :=
  match goal with
  | H : cst ?a ?b |- cst ?a ?b => exact H
  | |- cst _ (cdiv _ _) => apply cst_div
  | |- cst _ (cmul _ _) => apply cst_mul
  | |- cst _ (cadd _ _) => apply cst_add
  | |- cst _ (csub _ _) => apply cst_sub
  | |- cst _ (copp _) => apply cst_opp
  | |- cst _ (csqr _) => apply cst_csqr
  | |- cst _ cone => exact cst_one
  | |- cst _ ci => exact cst_i
  end.
Section Radial.
  Variables (x y mc ms : arithmetic -> C) (zx zy zmc zms : C).
  Variables (jy j1 j2 j3 yy y2 y3 : arithmetic -> nat -> C) (ejy ej1 ej2 ej3 eyy ey2 ey3 : nat -> C).
  Hypothesis Hx : cst x zx. Hypothesis Hy : cst y zy. Hypothesis Hc : cst mc zmc. Hypothesis Hs : cst ms zms.
  Hypothesis Ny : zy <> RtoC 0.
  Hypothesis N1 : (zmc * zx)%C <> RtoC 0. Hypothesis N2 : (zms * zx)%C <> RtoC 0. Hypothesis N3 : (zms * zy)%C <> RtoC 0.
  Hypothesis Jy : forall i, cst (fun t => jy t i) (ejy i). Hypothesis J1 : forall i, cst (fun t => j1 t i) (ej1 i).
  Hypothesis J2 : forall i, cst (fun t => j2 t i) (ej2 i). Hypothesis J3 : forall i, cst (fun t => j3 t i) (ej3 i).
  Hypothesis Yy : forall i, cst (fun t => yy t i) (eyy i). Hypothesis Y2 : forall i, cst (fun t => y2 t i) (ey2 i). Hypothesis Y3 : forall i, cst (fun t => y3 t i) (ey3 i).
  Lemma radial_settles n : cst_radial (fun A => @radial_of7 R (op A) (x A) (y A) (mc A) (ms A) (jy A) (j1 A) (j2 A) (j3 A) (yy A) (y2 A) (y3 A) n)
    (@radial_of7 R ROps zx zy zmc zms ejy ej1 ej2 ej3 eyy ey2 ey3 n).
  Proof.
    pose proof (cst_mul _ _ _ _ Hc Hx) as Z1. pose proof (cst_mul _ _ _ _ Hs Hx) as Z2. pose proof (cst_mul _ _ _ _ Hs Hy) as Z3.
    pose proof (cst_fder _ _ _ _ n Hy Ny Jy) as Fy. pose proof (cst_fder _ _ _ _ n Hy Ny Yy) as Gy.
    pose proof (cst_fder _ _ _ _ n Z1 N1 J1) as F1. pose proof (cst_fder _ _ _ _ n Z2 N2 J2) as F2. pose proof (cst_fder _ _ _ _ n Z3 N3 J3) as F3.
    pose proof (cst_fder _ _ _ _ n Z2 N2 Y2) as G2. pose proof (cst_fder _ _ _ _ n Z3 N3 Y3) as G3.
    pose proof (Jy n) as Jyn. pose proof (J1 n) as J1n. pose proof (J2 n) as J2n. pose proof (J3 n) as J3n. pose proof (Yy n) as Yyn. pose proof (Y2 n) as Y2n. pose proof (Y3 n) as Y3n.
    unfold cst_radial, radial_of7, h1_of. cbn [m1 m2 psi_y dpsi_y xi_y dxi_y psi_m1x dpsi_m1x psi_m2x dpsi_m2x chi_m2x dchi_m2x psi_m2y dpsi_m2y chi_m2y dchi_m2y]. cbv zeta beta.
    repeat match goal with |- _ /\ _ => split end;
      repeat first [exact Hc | exact Hs | exact Hy | exact Z1 | exact Z2 | exact Z3 | exact Fy | exact Gy | exact F1 | exact F2 | exact F3 | exact G2 | exact G3
        | apply Jy | apply J1 | apply J2 | apply J3 | apply Yy | apply Y2 | apply Y3 | exact cst_i | apply cst_add | apply cst_sub | apply cst_mul | apply cst_opp].
  Qed.
End Radial.
Definition cst_coeffs (q : arithmetic -> @coeffs R) (d : @coeffs R) : Prop :=
  let cc (g : @coeffs R -> C) := cst (fun A => g (q A)) (g d) in
  (cc an /\ cc bn) /\ (cc cn /\ cc dn /\ cc fn /\ cc gn /\ cc vn /\ cc wn).
Lemma core_settles q r : cst_radial q r -> det_a r <> RtoC 0 -> det_b r <> RtoC 0 ->
  cst_coeffs (fun A => @miecoef_core R (op A) (q A)) (@miecoef_core R ROps r).
Proof.
  intros ((A1 & A2) & (B1 & B2 & B3 & B4) & (D1 & D2) & (E1 & E2 & E3 & E4) & (F1 & F2 & F3 & F4)) Na Nb.
  unfold cst_coeffs, miecoef_core. cbn [an bn cn dn fn gn vn wn]. cbv zeta beta.
  repeat match goal with |- _ /\ _ => split end; repeat cstep.
  all: revert Na Nb; clear; intros Na Nb E;
    first [apply Na; rewrite <- E; destruct r; unr; flds; unfold csqr; toR; ring | apply Nb; rewrite <- E; destruct r; unr; flds; unfold csqr; toR; ring].
Qed.
