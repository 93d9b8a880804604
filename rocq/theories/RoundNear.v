(** The near fields in rounded arithmetic approach the exact ones (C108). *)
From Coq Require Import Reals ZArith Lra Lia List Bool Arith.
From Coquelicot Require Import Coquelicot.
From Verif Require Import Ops ROps Spec CTrig CLemmas ModelSpecial ModelMie ModelNear ModelRound ModelRoundNear RoundSpec RoundNearSpec GradSpec GradNearSpec GradOps GradPena GradStack GradObs StackConsequences RoundOps RoundPena RoundObs.
From Verif Require GradNear.
Import ListNotations.
Open Scope R_scope.
Arguments Cmod x%C_scope.
Arguments off z%C_scope.

Lemma kadd p q x y : cst p x -> cst q y -> cst (fun A => @cadd R (op A) (p A) (q A)) (@cadd R ROps x y). Proof. apply cst_add. Qed.
Lemma kofr p x : settles p x -> cst (fun A => @cofr R (op A) (p A)) (@cofr R ROps x). Proof. apply cst_ofr. Qed.
Lemma rmulk p q x y : settles p x -> settles q y -> settles (fun A => @rmul R (op A) (p A) (q A)) (@rmul R ROps x y). Proof. apply st_mul. Qed.
Lemma roppk p x : settles p x -> settles (fun A => @ropp R (op A) (p A)) (@ropp R ROps x). Proof. apply st_opp. Qed.
Lemma rsink p x : settles p x -> settles (fun A => @rsin R (op A) (p A)) (@rsin R ROps x). Proof. apply st_sin. Qed.
Lemma rcosk p x : settles p x -> settles (fun A => @rcos R (op A) (p A)) (@rcos R ROps x). Proof. apply st_cos. Qed.
Lemma rzerok : settles (fun A => @rzero R (op A)) (@rzero R ROps). Proof. exact st_zero. Qed.
Lemma kzero : cst (fun A => @czero R (op A)) (@czero R ROps). Proof. exact cst_zero. Qed.
Lemma kone : cst (fun A => @cone R (op A)) (@cone R ROps). Proof. exact cst_one. Qed.
Lemma ki : cst (fun A => @ci R (op A)) (@ci R ROps). Proof. exact cst_i. Qed.
Ltac kk := repeat match goal with
  | H : ?P |- ?P => exact H
  | |- cst (fun A => cadd _ _) _ => apply kadd
  | |- cst (fun A => csub _ _) _ => apply cst_sub
  | |- cst (fun A => cmul _ _) _ => apply cst_mul
  | |- cst (fun A => copp _) _ => apply cst_opp
  | |- cst (fun A => cofn _) _ => apply cst_ofn
  | |- cst (fun A => czero) _ => apply kzero
  | |- cst (fun A => cone) _ => apply kone
  | |- cst (fun A => ci) _ => apply ki
  | |- cst (fun A => cofr _) _ => apply kofr
  | |- settles (fun A => rmul _ _) _ => apply rmulk
  | |- settles (fun A => ropp _) _ => apply roppk
  | |- settles (fun A => rsin _) _ => apply rsink
  | |- settles (fun A => rcos _) _ => apply rcosk
  | |- settles (fun A => rzero) _ => apply rzerok
  end.

(** ** vectors *)
Definition cv (q : arithmetic -> @vec3 R) (v : @vec3 R) : Prop := cst (fun A => v1 (q A)) (v1 v) /\ cst (fun A => v2 (q A)) (v2 v) /\ cst (fun A => v3 (q A)) (v3 v).
Lemma cv_iff q v : cv q v -> settles_vec q v.
Proof. intros (H1 & H2 & H3). split; [|split]; apply cst_iff; assumption. Qed.
Lemma cv_ev F G d : eventually (fun A => F A = G A) -> cv F d -> cv G d.
Proof. intros E (H1 & H2 & H3). split; [|split]; (eapply cst_ev; [|eassumption]); (eapply ev_imp; [|exact E]); intros A HA; cbv beta in HA |- *; rewrite HA; reflexivity. Qed.
Lemma cv_ext F G d : (forall A, F A = G A) -> cv F d -> cv G d.
Proof. intros E. apply cv_ev. exists 1. split; [lra|]. intros A _. apply E. Qed.
Lemma cv_mk (a b c : arithmetic -> C) (da db dc : C) : cst a da -> cst b db -> cst c dc -> cv (fun A => (a A, b A, c A)) (da, db, dc).
Proof. intros H1 H2 H3. exact (conj H1 (conj H2 H3)). Qed.
Lemma cv_zero : cv (fun A => @vzero R (op A)) (@vzero R ROps).
Proof. unfold vzero. apply cv_mk; apply kzero. Qed.
Lemma cv_add F G d e : cv F d -> cv G e -> cv (fun A => @vadd R (op A) (F A) (G A)) (@vadd R ROps d e).
Proof. intros (A & B & C) (A' & B' & C'). unfold vadd. apply cv_mk; apply kadd; assumption. Qed.
Lemma cv_sub F G d e : cv F d -> cv G e -> cv (fun A => @vsub R (op A) (F A) (G A)) (@vsub R ROps d e).
Proof. intros (A & B & C) (A' & B' & C'). unfold vsub. apply cv_mk; apply cst_sub; assumption. Qed.
Lemma cv_scale c F dc d : cst c dc -> cv F d -> cv (fun A => @vscale R (op A) (c A) (F A)) (@vscale R ROps dc d).
Proof. intros Hc (A & B & C). unfold vscale. apply cv_mk; apply cst_mul; assumption. Qed.
Lemma cv_sum (l : list nat) (F : arithmetic -> nat -> @vec3 R) (G : nat -> @vec3 R) : (forall n, In n l -> cv (fun A => F A n) (G n)) ->
  cv (fun A => @vsum R (op A) (map (F A) l)) (@vsum R ROps (map G l)).
Proof.
  intros H. unfold vsum. assert (Q : forall acc dacc, cv acc dacc -> cv (fun A => fold_left (@vadd R (op A)) (map (F A) l) (acc A)) (fold_left (@vadd R ROps) (map G l) dacc)).
  { induction l as [|n l IH]; intros acc dacc Ha; [exact Ha|]. cbn [map fold_left].
    apply (IH (fun m Hm => H m (or_intror Hm)) (fun A => @vadd R (op A) (acc A) (F A n))). apply cv_add; [exact Ha|]. apply H. now left. }
  apply (Q (fun A => @vzero R (op A))). apply cv_zero.
Qed.
Lemma cv_xyz th ph F dth dph d : settles th dth -> settles ph dph -> cv F d -> cv (fun A => @field_to_xyz R (op A) (th A) (ph A) (F A)) (@field_to_xyz R ROps dth dph d).
Proof. intros Ht Hp (A & B & C). unfold field_to_xyz. apply cv_mk; kk. Qed.

(** ** harmonics *)
Definition st_vsh (V : arithmetic -> @vsh_t R) (d : @vsh_t R) : Prop :=
  cv (fun A => M_o (V A)) (M_o d) /\ cv (fun A => M_e (V A)) (M_e d) /\ cv (fun A => N_o (V A)) (N_o d) /\ cv (fun A => N_e (V A)) (N_e d).
Lemma st_pi_n x zx n : settles x zx -> settles (fun A => @pi_n R (op A) (x A) n) (@pi_n R ROps zx n).
Proof. intros Hx. exact (proj1 (st_pi_pair x zx n Hx)). Qed.
Lemma st_vsh_of th ph n rho zn dz dth dph drho dzn ddz : settles th dth -> settles ph dph -> cst rho drho -> cst zn dzn -> cst dz ddz -> drho <> RtoC 0 ->
  st_vsh (fun A => @vsh_of R (op A) (th A) (ph A) n (rho A) (zn A) (dz A)) (@vsh_of R ROps dth dph n drho dzn ddz).
Proof.
  intros Ht Hp Hr Hz Hd Hn.
  pose proof (st_pi_n _ _ n (rcosk _ _ Ht)) as Pn. pose proof (st_tau _ _ n (rcosk _ _ Ht)) as Tn.
  pose proof (cst_div _ _ _ _ Hz Hr Hn) as Zr.
  cbv beta in Pn, Tn. unfold st_vsh, vsh_of. cbn [M_o M_e N_o N_e]. split; [|split; [|split]]; apply cv_mk; kk.
Qed.
Section Depth.
  Variables n_max n_add : nat.
  Notation sm := (smooth_arg n_max n_add).
  Lemma st_vsh_pena k0 nm r th ph dk dnm dr dth dph kd n : settles k0 dk -> cst nm dnm -> settles r dr -> settles th dth -> settles ph dph ->
    @rho_at R ROps dk dnm dr <> RtoC 0 -> sm (@rho_at R ROps dk dnm dr) n ->
    st_vsh (fun A => @vsh_pena R (op A) n_max n_add (k0 A) (nm A) (r A) (th A) (ph A) kd n) (@vsh_pena R ROps n_max n_add dk dnm dr dth dph kd n).
  Proof.
    intros Hk Hm Hr Ht Hp Hn Hs. unfold vsh_pena. cbv zeta.
    assert (Hrho : cst (fun A => @rho_at R (op A) (k0 A) (nm A) (r A)) (@rho_at R ROps dk dnm dr)).
    { unfold rho_at. apply kadd; [kk|]. apply kofr. apply st_tenth. }
    destruct (cst_pz n_max n_add _ _ n Hrho Hs n ltac:(lia)) as [Pn Zn].
    pose proof (cst_D1 n_max n_add _ _ n n Hrho Hs) as D1n. pose proof (cst_D3 n_max n_add _ _ n n Hrho Hs (le_n n)) as D3n.
    destruct kd; (apply st_vsh_of; [exact Ht|exact Hp|exact Hrho| | |exact Hn]); [|apply cst_mul; [exact D3n|]| |apply cst_mul; [exact D1n|]]; (apply cst_div; [assumption|exact Hrho|exact Hn]).
  Qed.

  (** ** amplitudes *)
  Definition ca (V : arithmetic -> @amps R) (d : @amps R) : Prop :=
    cst (fun A => na (V A)) (na d) /\ cst (fun A => nb (V A)) (nb d) /\ cst (fun A => nc (V A)) (nc d) /\ cst (fun A => nd (V A)) (nd d).
  Lemma ca_step ml mp xl nxt dml dmp dxl dn n : cst ml dml -> cst mp dmp -> cst xl dxl -> ca nxt dn -> smooth_step n_max n_add dml dmp dxl n ->
    ca (fun A => @near_step R (op A) n_max n_add (ml A) (mp A) (xl A) (nxt A) n) (@near_step R ROps n_max n_add dml dmp dxl dn n).
  Proof.
    intros Hl Hp Hx (A & B & C & D) (Hm & Sl & Sp & Oz & Op).
    pose proof (cst_mul _ _ _ _ Hl Hx) as Zl. pose proof (cst_mul _ _ _ _ Hp Hx) as Zp.
    destruct (cst_pz n_max n_add _ _ n Zl Sl n ltac:(lia)) as [Pl El]. destruct (cst_pz n_max n_add _ _ n Zp Sp n ltac:(lia)) as [Pp Ep].
    pose proof (cst_D1 n_max n_add _ _ n n Zl Sl) as D1l. pose proof (cst_D3 n_max n_add _ _ n n Zl Sl (le_n n)) as D3l.
    pose proof (cst_D1 n_max n_add _ _ n n Zp Sp) as D1p. pose proof (cst_D3 n_max n_add _ _ n n Zp Sp (le_n n)) as D3p.
    pose proof (cst_div _ _ _ _ Hl Hp Hm) as Mr.
    pose proof (cst_gd _ _ (cst_mul _ _ _ _ El (cst_sub _ _ _ _ D1l D3l)) Oz) as Ga.
    pose proof (cst_gd _ _ (cst_mul _ _ _ _ Pl (cst_sub _ _ _ _ D1l D3l)) Op) as Gc.
    unfold ca, near_step. cbv zeta. cbn [na nb nc nd].
    split; [|split; [|split]]; (apply cst_div; [kk|first [exact Ga|exact Gc]|apply gd_neq0]).
  Qed.
  Lemma ca_zero : ca (fun A => @amp0 R (op A)) (@amp0 R ROps). Proof. split; [|split; [|split]]; apply kzero. Qed.
  Lemma ca_raw qrest rest : Forall2 lst qrest rest -> forall q l qe e n, lst q l -> ca qe e ->
    smooth_steps n_max n_add l rest n -> forall i,
    ca (fun A => nth i (@near_raw R (op A) n_max n_add (q A) (map (fun q => q A) qrest) (qe A) n) (@amp0 R (op A))) (nth i (@near_raw R ROps n_max n_add l rest e n) (@amp0 R ROps)).
  Proof.
    induction 1 as [|q' l' qrest rest Hl' _ IH]; intros q l qe e n [L1 L2] He Hs i; cbn [map smooth_steps near_raw] in *.
    - destruct i as [|[|[|i]]]; cbn [nth]; [|exact He|exact ca_zero|exact ca_zero]. apply (ca_step _ (fun A => @cone R (op A))); [exact L1|apply kone|exact L2|exact He|exact Hs].
    - destruct Hs as [S1 S2]. specialize (IH q' l' qe e n Hl' He S2).
      destruct i as [|i]; cbn [nth]; [|apply IH]. rewrite (@GradNear.raw_hd n_max n_add R ROps l' rest e n (@amp0 R ROps)).
      pose proof (ca_step _ _ _ _ _ _ _ _ n L1 (proj1 Hl') L2 (IH 0%nat) S1) as Q.
      destruct Q as (Q1 & Q2 & Q3 & Q4). split; [|split; [|split]]; (eapply cst_ext; [|eassumption]); intros A; cbv beta; rewrite (@GradNear.raw_hd n_max n_add R (op A) (q' A) _ (qe A) n (@amp0 R (op A))); reflexivity.
  Qed.
  Lemma ca_amps q0 qrest l0 rest n : (1 <= n)%nat -> lst q0 l0 -> Forall2 lst qrest rest ->
    smooth_stack n_max n_add l0 rest n -> smooth_steps n_max n_add l0 rest n -> forall i,
    ca (fun A => nth i (@near_amps R (op A) n_max n_add (q0 A) (map (fun q => q A) qrest) n) (@amp0 R (op A))) (nth i (@near_amps R ROps n_max n_add l0 rest n) (@amp0 R ROps)).
  Proof.
    intros Hn H0 HF Hst Hs i. destruct (lst_ab n_max n_add q0 qrest l0 rest n Hn H0 HF Hst) as [Ha Hb].
    assert (He : ca (fun A => let ab := @pena_ab R (op A) n_max n_add (q0 A) (map (fun q => q A) qrest) n in @exterior R (op A) (fst ab) (snd ab))
                    (let ab := @pena_ab R ROps n_max n_add l0 rest n in @exterior R ROps (fst ab) (snd ab))).
    { split; [exact Ha|split; [exact Hb|split; apply kone]]. }
    pose proof (ca_raw qrest rest HF q0 l0 _ _ n H0 He Hs) as HR. unfold near_amps. cbv zeta. rewrite (@GradNear.nth_on_head R ROps).
    destruct i as [|i].
    - destruct (HR 0%nat) as (_ & _ & R3 & R4). split; [|split; [|split]]; (eapply cst_ext; [intros A; rewrite (@GradNear.nth_on_head R (op A)); reflexivity|]); cbn [zero_core na nb nc nd]; [apply kzero|apply kzero|exact R3|exact R4].
    - destruct (HR (S i)) as (R1 & R2 & R3 & R4). split; [|split; [|split]]; (eapply cst_ext; [intros A; rewrite (@GradNear.nth_on_head R (op A)); reflexivity|]); [exact R1|exact R2|exact R3|exact R4].
  Qed.
End Depth.

(** ** fields of one region *)
Lemma cst_cpow n : cst (fun A => @cpow R (op A) (@ci R (op A)) n) (@cpow R ROps (@ci R ROps) n).
Proof. induction n as [|n IH]; cbn [cpow]; [apply kone|]. apply cst_mul; [apply ki|exact IH]. Qed.
Lemma cst_pw n E0 dE : (1 <= n)%nat -> cst E0 dE -> cst (fun A => @pw_factor R (op A) n (E0 A)) (@pw_factor R ROps n dE).
Proof.
  intros Hn HE. unfold pw_factor. apply cst_div.
  - apply cst_mul; [|apply cst_ofn]. apply cst_mul; [apply cst_cpow|exact HE].
  - apply cst_ofn.
  - rewrite cofn_C. apply RtoC_neq. apply not_0_INR. nia.
Qed.
Lemma cv_region E0 dE nm dnm out V dA V1 dV1 V3 dV3 n : (1 <= n)%nat -> cst E0 dE -> cst nm dnm -> ca V dA -> st_vsh V1 dV1 -> st_vsh V3 dV3 ->
  cv (fun A => @E_region R (op A) (E0 A) out (V A) (V1 A) (V3 A) n) (@E_region R ROps dE out dA dV1 dV3 n) /\
  cv (fun A => @H_region R (op A) (E0 A) (nm A) out (V A) (V1 A) (V3 A) n) (@H_region R ROps dE dnm out dA dV1 dV3 n).
Proof.
  intros Hn HE Hm (A1 & A2 & A3 & A4) (B1 & B2 & B3 & B4) (C1 & C2 & C3 & C4). pose proof (cst_pw n E0 dE Hn HE) as Pw.
  unfold E_region, H_region. cbv zeta. destruct out; split; repeat first [apply cv_scale | apply cv_add | apply cv_sub | eassumption | apply cst_mul | apply cst_opp | apply ki].
Qed.
