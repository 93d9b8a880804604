(** Dual numbers carry the derivative through the near-field evaluation (C87). *)
From Coq Require Import Reals ZArith Lra Lia List Bool Arith.
From Coquelicot Require Import Coquelicot.
From Verif Require Import Ops ROps Spec CTrig CLemmas ModelSpecial ModelMie ModelNear ModelGrad ModelGradNear GradSpec GradNearSpec GradOps GradPena GradStack GradObs StackConsequences.
Import ListNotations.
Open Scope R_scope.
Arguments Cmod x%C_scope.
Arguments off z%C_scope.

Section Near.
  Variable t0 : R.
  Notation car := (carries t0).
  Notation cc := (ccarries t0).
  Notation cv := (carries_vec t0).

  Lemma kadd f g d e : cc f d -> cc g e -> cc (fun t => @cadd R ROps (f t) (g t)) (@cadd dual DOps d e). Proof. exact (cc_add t0 f g d e). Qed.
  Lemma ksub f g d e : cc f d -> cc g e -> cc (fun t => @csub R ROps (f t) (g t)) (@csub dual DOps d e). Proof. exact (cc_sub t0 f g d e). Qed.
  Lemma kmul f g d e : cc f d -> cc g e -> cc (fun t => @cmul R ROps (f t) (g t)) (@cmul dual DOps d e). Proof. exact (cc_mul t0 f g d e). Qed.
  Lemma kdiv f g d e : cc f d -> cc g e -> g t0 <> RtoC 0 -> cc (fun t => @cdiv R ROps (f t) (g t)) (@cdiv dual DOps d e). Proof. exact (cc_div t0 f g d e). Qed.
  Lemma kopp f d : cc f d -> cc (fun t => @copp R ROps (f t)) (@copp dual DOps d). Proof. exact (cc_opp t0 f d). Qed.
  Lemma kofr f d : car f d -> cc (fun t => @cofr R ROps (f t)) (@cofr dual DOps d). Proof. exact (cc_ofr t0 f d). Qed.
  Lemma rmulk f g d e : car f d -> car g e -> car (fun t => @rmul R ROps (f t) (g t)) (@rmul dual DOps d e). Proof. exact (car_mul t0 f g d e). Qed.
  Lemma roppk f d : car f d -> car (fun t => @ropp R ROps (f t)) (@ropp dual DOps d). Proof. exact (car_opp t0 f d). Qed.
  Lemma rsink f d : car f d -> car (fun t => @rsin R ROps (f t)) (@rsin dual DOps d). Proof. exact (car_sin t0 f d). Qed.
  Lemma rcosk f d : car f d -> car (fun t => @rcos R ROps (f t)) (@rcos dual DOps d). Proof. exact (car_cos t0 f d). Qed.
  Lemma kzero : cc (fun _ => @czero R ROps) (@czero dual DOps). Proof. exact (cc_zero t0). Qed.
  Lemma kone : cc (fun _ => @cone R ROps) (@cone dual DOps). Proof. exact (cc_one t0). Qed.
  Lemma ki : cc (fun _ => @ci R ROps) (@ci dual DOps). Proof. exact (cc_i t0). Qed.
  Lemma rzerok : car (fun _ => @rzero R ROps) (@rzero dual DOps). Proof. exact (car_const t0 0). Qed.
  Ltac kk := repeat match goal with
    | H : ?P |- ?P => exact H
    | |- ccarries _ (fun t => cadd _ _) _ => apply kadd
    | |- ccarries _ (fun t => csub _ _) _ => apply ksub
    | |- ccarries _ (fun t => cmul _ _) _ => apply kmul
    | |- ccarries _ (fun t => copp _) _ => apply kopp
    | |- ccarries _ (fun t => cofn _) _ => apply (cc_cofn t0)
    | |- ccarries _ (fun t => czero) _ => apply kzero
    | |- ccarries _ (fun t => cone) _ => apply kone
    | |- ccarries _ (fun t => ci) _ => apply ki
    | |- ccarries _ (fun t => cofr _) _ => apply kofr
    | |- carries _ (fun t => rmul _ _) _ => apply rmulk
    | |- carries _ (fun t => ropp _) _ => apply roppk
    | |- carries _ (fun t => rsin _) _ => apply rsink
    | |- carries _ (fun t => rcos _) _ => apply rcosk
    | |- carries _ (fun t => rzero) _ => apply rzerok
    end.

  (** ** vectors *)
  Lemma cv_loc F G d : locally t0 (fun t => F t = G t) -> cv F d -> cv G d.
  Proof.
    intros E (H1 & H2 & H3). split; [|split]; (eapply cc_loc; [|eassumption]); (eapply filter_imp; [|exact E]); intros t Ht; cbv beta in Ht |- *; rewrite Ht; reflexivity.
  Qed.
  Lemma cv_ext F G d : (forall t, F t = G t) -> cv F d -> cv G d.
  Proof. intros E. apply cv_loc. now apply filter_forall. Qed.
  Lemma cv_mk a b c da db dc : cc a da -> cc b db -> cc c dc -> cv (fun t => (a t, b t, c t)) (da, db, dc).
  Proof. intros H1 H2 H3. exact (conj H1 (conj H2 H3)). Qed.
  Lemma cv_zero : cv (fun _ => vzero) vzero. Proof. apply (cv_mk (fun _ => czero) (fun _ => czero) (fun _ => czero)); apply kzero. Qed.
  Lemma cv_add F G d e : cv F d -> cv G e -> cv (fun t => vadd (F t) (G t)) (vadd d e).
  Proof. intros (A & B & C) (A' & B' & C'). apply cv_mk; apply kadd; assumption. Qed.
  Lemma cv_sub F G d e : cv F d -> cv G e -> cv (fun t => vsub (F t) (G t)) (vsub d e).
  Proof. intros (A & B & C) (A' & B' & C'). apply cv_mk; apply ksub; assumption. Qed.
  Lemma cv_scale c F dc d : cc c dc -> cv F d -> cv (fun t => vscale (c t) (F t)) (vscale dc d).
  Proof. intros Hc (A & B & C). apply cv_mk; apply kmul; assumption. Qed.
  Lemma cv_sum (l : list nat) (F : R -> nat -> @vec3 R) (G : nat -> @vec3 dual) : (forall n, In n l -> cv (fun t => F t n) (G n)) ->
    cv (fun t => vsum (map (F t) l)) (vsum (map G l)).
  Proof.
    intros H. unfold vsum. assert (A : forall acc dacc, cv acc dacc -> cv (fun t => fold_left vadd (map (F t) l) (acc t)) (fold_left vadd (map G l) dacc)).
    { induction l as [|n l IH]; intros acc dacc Ha; [exact Ha|]. cbn [map fold_left].
      apply (IH (fun m Hm => H m (or_intror Hm)) (fun t => vadd (acc t) (F t n))). apply cv_add; [exact Ha|]. apply H. now left. }
    apply (A (fun _ => vzero)). apply cv_zero.
  Qed.
  Lemma cv_xyz th ph F dth dph d : car th dth -> car ph dph -> cv F d -> cv (fun t => field_to_xyz (th t) (ph t) (F t)) (field_to_xyz dth dph d).
  Proof. intros Ht Hp (A & B & C). unfold field_to_xyz. apply cv_mk; kk. Qed.

  (** ** harmonics *)
  Definition carries_vsh (V : R -> @vsh_t R) (d : @vsh_t dual) : Prop :=
    cv (fun t => M_o (V t)) (M_o d) /\ cv (fun t => M_e (V t)) (M_e d) /\ cv (fun t => N_o (V t)) (N_o d) /\ cv (fun t => N_e (V t)) (N_e d).
  Lemma car_pi_n x dx n : car x dx -> car (fun t => @pi_n R ROps (x t) n) (@pi_n dual DOps dx n).
  Proof. intros Hx. exact (proj1 (car_pi t0 x dx n Hx)). Qed.
  Lemma cvsh_of th ph n rho zn dz dth dph drho dzn ddz : car th dth -> car ph dph -> cc rho drho -> cc zn dzn -> cc dz ddz -> rho t0 <> RtoC 0 ->
    carries_vsh (fun t => vsh_of (th t) (ph t) n (rho t) (zn t) (dz t)) (vsh_of dth dph n drho dzn ddz).
  Proof.
    intros Ht Hp Hr Hz Hd Hn.
    pose proof (car_pi_n _ _ n (rcosk _ _ Ht)) as Pn. pose proof (car_tau t0 _ _ n (rcosk _ _ Ht)) as Tn.
    pose proof (kdiv _ _ _ _ Hz Hr Hn) as Zr.
    cbv beta in Pn, Tn. unfold carries_vsh, vsh_of. cbn [M_o M_e N_o N_e]. split; [|split; [|split]]; apply cv_mk; kk.
  Qed.
  Section Depth.
    Variables n_max n_add : nat.
    Notation sm := (smooth_arg n_max n_add).
    Lemma cvsh_pena k0 nm r th ph dk dnm dr dth dph kd n : car k0 dk -> cc nm dnm -> car r dr -> car th dth -> car ph dph ->
      rho_at (k0 t0) (nm t0) (r t0) <> RtoC 0 -> sm (rho_at (k0 t0) (nm t0) (r t0)) n ->
      carries_vsh (fun t => vsh_pena n_max n_add (k0 t) (nm t) (r t) (th t) (ph t) kd n) (vsh_pena n_max n_add dk dnm dr dth dph kd n).
    Proof.
      intros Hk Hm Hr Ht Hp Hn Hs. unfold vsh_pena. cbv zeta.
      assert (Hrho : cc (fun t => rho_at (k0 t) (nm t) (r t)) (rho_at dk dnm dr)).
      { unfold rho_at. apply kadd; [kk|]. apply (kofr (fun _ => rtenth 8)). apply car_tenth. }
      destruct (cc_pz t0 n_max n_add _ _ n Hrho Hs n ltac:(lia)) as [Pn Zn].
      pose proof (cc_D1 t0 n_max n_add _ _ n n Hrho Hs) as D1n. pose proof (cc_D3 t0 n_max n_add _ _ n n Hrho Hs (le_n n)) as D3n.
      destruct kd; (apply cvsh_of; [exact Ht|exact Hp|exact Hrho| | |exact Hn]); [|apply kmul; [exact D3n|]| |apply kmul; [exact D1n|]]; (apply kdiv; [assumption|exact Hrho|exact Hn]).
    Qed.

    (** ** amplitudes *)
    Definition carries_amps (A : R -> @amps R) (d : @amps dual) : Prop :=
      cc (fun t => na (A t)) (na d) /\ cc (fun t => nb (A t)) (nb d) /\ cc (fun t => nc (A t)) (nc d) /\ cc (fun t => nd (A t)) (nd d).
    Notation ca := carries_amps.
    Lemma ca_step ml mp xl nxt dml dmp dxl dn n : cc ml dml -> cc mp dmp -> cc xl dxl -> ca nxt dn -> smooth_step n_max n_add (ml t0) (mp t0) (xl t0) n ->
      ca (fun t => near_step n_max n_add (ml t) (mp t) (xl t) (nxt t) n) (near_step n_max n_add dml dmp dxl dn n).
    Proof.
      intros Hl Hp Hx (A & B & C & D) (Hm & Sl & Sp & Oz & Op).
      pose proof (kmul _ _ _ _ Hl Hx) as Zl. pose proof (kmul _ _ _ _ Hp Hx) as Zp.
      destruct (cc_pz t0 n_max n_add _ _ n Zl Sl n ltac:(lia)) as [Pl El]. destruct (cc_pz t0 n_max n_add _ _ n Zp Sp n ltac:(lia)) as [Pp Ep].
      pose proof (cc_D1 t0 n_max n_add _ _ n n Zl Sl) as D1l. pose proof (cc_D3 t0 n_max n_add _ _ n n Zl Sl (le_n n)) as D3l.
      pose proof (cc_D1 t0 n_max n_add _ _ n n Zp Sp) as D1p. pose proof (cc_D3 t0 n_max n_add _ _ n n Zp Sp (le_n n)) as D3p.
      pose proof (kdiv _ _ _ _ Hl Hp Hm) as Mr.
      pose proof (cc_gd t0 _ _ (kmul _ _ _ _ El (ksub _ _ _ _ D1l D3l)) Oz) as Ga.
      pose proof (cc_gd t0 _ _ (kmul _ _ _ _ Pl (ksub _ _ _ _ D1l D3l)) Op) as Gc.
      unfold carries_amps, near_step. cbv zeta. cbn [na nb nc nd].
      split; [|split; [|split]]; (apply kdiv; [kk|first [exact Ga|exact Gc]|apply gd_neq0]).
    Qed.
    Lemma raw_hd {T} {RO : RealOps T} (l : @layer T) rest ext n d : hd ext (near_raw n_max n_add l rest ext n) = nth 0 (near_raw n_max n_add l rest ext n) d.
    Proof. destruct rest; reflexivity. Qed.
    Lemma ca_zero : ca (fun _ => amp0) amp0. Proof. repeat split; apply kzero. Qed.
    Notation cl := (carries_layer t0).
    Lemma ca_raw rest drest : Forall2 cl rest drest -> forall l dl ext dext n, cl l dl -> ca ext dext ->
      smooth_steps n_max n_add (l t0) (map (fun l => l t0) rest) n -> forall i,
      ca (fun t => nth i (near_raw n_max n_add (l t) (map (fun l => l t) rest) (ext t) n) amp0) (nth i (near_raw n_max n_add dl drest dext n) amp0).
    Proof.
      induction 1 as [|l' dl' rest drest Hl' _ IH]; intros l dl ext dext n [L1 L2] He Hs i; cbn [map smooth_steps near_raw] in *.
      - destruct i as [|[|[|i]]]; cbn [nth]; [|exact He|exact ca_zero|exact ca_zero]. apply (ca_step _ (fun _ => cone)); [exact L1|apply kone|exact L2|exact He|exact Hs].
      - destruct Hs as [S1 S2]. specialize (IH l' dl' ext dext n Hl' He S2).
        destruct i as [|i]; cbn [nth]; [|apply IH]. rewrite (raw_hd dl' drest dext n amp0).
        pose proof (ca_step _ _ _ _ _ _ _ _ n L1 (proj1 Hl') L2 (IH 0%nat) S1) as Q.
        destruct Q as (Q1 & Q2 & Q3 & Q4). split; [|split; [|split]]; (eapply cc_ext; [|eassumption]); intros t; cbv beta; rewrite (raw_hd (l' t) _ (ext t) n amp0); reflexivity.
    Qed.
    Lemma nth_on_head {T} {RO : RealOps T} (l : list (@amps T)) i : nth i (on_head zero_core l) amp0 = match i with O => zero_core (nth 0 l amp0) | S _ => nth i l amp0 end.
    Proof. destruct l as [|a l], i as [|i]; reflexivity. Qed.
    Lemma ca_amps l0 rest d0 drest n : (1 <= n)%nat -> cl l0 d0 -> Forall2 cl rest drest ->
      smooth_stack n_max n_add (l0 t0) (map (fun l => l t0) rest) n -> smooth_steps n_max n_add (l0 t0) (map (fun l => l t0) rest) n -> forall i,
      ca (fun t => nth i (near_amps n_max n_add (l0 t) (map (fun l => l t) rest) n) amp0) (nth i (near_amps n_max n_add d0 drest n) amp0).
    Proof.
      intros Hn H0 HF Hst Hs i. destruct (cl_ab t0 n_max n_add l0 rest d0 drest n Hn H0 HF Hst) as [Ha Hb].
      assert (He : ca (fun t => let ab := pena_ab n_max n_add (l0 t) (map (fun l => l t) rest) n in exterior (fst ab) (snd ab))
                      (let ab := pena_ab n_max n_add d0 drest n in exterior (fst ab) (snd ab))).
      { split; [exact Ha|split; [exact Hb|split; apply kone]]. }
      pose proof (ca_raw rest drest HF l0 d0 _ _ n H0 He Hs) as HR. unfold near_amps. cbv zeta. rewrite nth_on_head.
      assert (E : forall t, nth i (on_head zero_core (near_raw n_max n_add (l0 t) (map (fun l => l t) rest) (exterior (fst (pena_ab n_max n_add (l0 t) (map (fun l => l t) rest) n)) (snd (pena_ab n_max n_add (l0 t) (map (fun l => l t) rest) n))) n)) amp0 = _) by (intros t; apply nth_on_head).
      destruct i as [|i].
      - destruct (HR 0%nat) as (_ & _ & R3 & R4). split; [|split; [|split]]; (eapply cc_ext; [intros t; rewrite E; reflexivity|]); cbn [zero_core na nb nc nd]; [apply kzero|apply kzero|exact R3|exact R4].
      - destruct (HR (S i)) as (R1 & R2 & R3 & R4). split; [|split; [|split]]; (eapply cc_ext; [intros t; rewrite E; reflexivity|]); [exact R1|exact R2|exact R3|exact R4].
    Qed.
  End Depth.

  (** ** fields of one region *)
  Lemma cc_cpow n : cc (fun _ => @cpow R ROps ci n) (@cpow dual DOps ci n).
  Proof. induction n as [|n IH]; cbn [cpow]; [apply kone|]. apply (kmul (fun _ => ci)); [apply ki|exact IH]. Qed.
  Lemma cc_pw n E0 dE : (1 <= n)%nat -> cc E0 dE -> cc (fun t => @pw_factor R ROps n (E0 t)) (@pw_factor dual DOps n dE).
  Proof.
    intros Hn HE. unfold pw_factor. apply kdiv.
    - apply kmul; [|apply (cc_cofn t0)]. apply kmul; [apply cc_cpow|exact HE].
    - apply (cc_cofn t0).
    - cbv beta. rewrite cofn_C. apply RtoC_neq. apply not_0_INR. nia.
  Qed.
  Lemma cv_region E0 dE nm dnm out A dA V1 dV1 V3 dV3 n : (1 <= n)%nat -> cc E0 dE -> cc nm dnm -> carries_amps A dA -> carries_vsh V1 dV1 -> carries_vsh V3 dV3 ->
    cv (fun t => E_region (E0 t) out (A t) (V1 t) (V3 t) n) (E_region dE out dA dV1 dV3 n) /\
    cv (fun t => H_region (E0 t) (nm t) out (A t) (V1 t) (V3 t) n) (H_region dE dnm out dA dV1 dV3 n).
  Proof.
    intros Hn HE Hm (A1 & A2 & A3 & A4) (B1 & B2 & B3 & B4) (C1 & C2 & C3 & C4). pose proof (cc_pw n E0 dE Hn HE) as Pw.
    unfold E_region, H_region. cbv zeta. destruct out; split; repeat first [apply cv_scale | apply cv_add | apply cv_sub | eassumption | apply kmul | apply kopp | apply ki].
  Qed.
End Near.
