(** Layers, interface ratio and final formulas on dual numbers (C83). *)
From Coq Require Import Reals ZArith Lra Lia List Bool Arith.
From Coquelicot Require Import Coquelicot.
From Verif Require Import Ops ROps Spec CTrig CLemmas ModelSpecial ModelMie ModelGrad GradSpec GradOps GradPena.
Import ListNotations.
Open Scope R_scope.
Arguments Cmod x%C_scope.
Arguments off z%C_scope.

Section Stack.
  Variable t0 : R.
  Notation car := (carries t0).
  Notation cc := (ccarries t0).
  Notation er := (@eps30 R ROps).
  Notation ed := (@eps30 dual DOps).
  Variables n_max n_add : nat.
  Notation D1 := (@pD1 R ROps n_max n_add).
  Notation D1d := (@pD1 dual DOps n_max n_add).
  Notation D3 := (@pD3 R ROps n_max n_add).
  Notation D3d := (@pD3 dual DOps n_max n_add).
  Notation Qr := (@pQ R ROps n_max n_add).
  Notation Qd := (@pQ dual DOps n_max n_add).
  Notation sm := (smooth_arg n_max n_add).
  Notation cl := (carries_layer t0).

  Lemma cc_re f d : cc f d -> car (fun t => fst (f t)) (@cre dual d). Proof. intros H. exact (proj1 H). Qed.
  Lemma cc_im f d : cc f d -> car (fun t => snd (f t)) (@cim dual d). Proof. intros H. exact (proj2 H). Qed.
  Lemma car_m2 : car (fun _ => - (1 + 1)) (@ropp dual DOps rtwo).
  Proof. apply (car_opp t0 (fun _ => 1 + 1)). apply car_two. Qed.
  Lemma cc_q0n f d : cc f d ->
    cc (fun t => @csub R ROps (cexp (cmul (cmul (cofr (ropp rtwo)) ci) (cofr (fst (f t))))) (cofr (rexp (rmul (ropp rtwo) (snd (f t))))))
       (@csub dual DOps (cexp (cmul (cmul (cofr (ropp rtwo)) ci) (cofr (cre d)))) (cofr (rexp (rmul (ropp rtwo) (cim d))))).
  Proof.
    intros H. apply cc_sub.
    - apply cc_exp. apply cc_mul; [|apply cc_ofr, (cc_re f d H)]. apply (cc_mul t0 (fun _ => @cofr R ROps (ropp rtwo))); [|apply cc_i].
      apply (cc_ofr t0 (fun _ => - (1 + 1))). apply car_m2.
    - apply (cc_ofr t0 (fun t => exp (- (1 + 1) * snd (f t)))). apply car_exp. apply (car_mul t0 (fun _ => - (1 + 1))); [apply car_m2|apply (cc_im f d H)].
  Qed.
  Lemma cexp_C (z : C) : @cexp R ROps z = Cexp z. Proof. reflexivity. Qed.
  Lemma den0_eq (z : C) : @csub R ROps (cexp (cmul (cmul (cofr (ropp rtwo)) ci) (cofr (fst z)))) (cofr (rexp (rmul (ropp rtwo) (snd z))))
    = (Cexp (- RtoC 2 * Ci * RtoC (fst z)) - RtoC (exp (- 2 * snd z)))%C.
  Proof.
    change (@cexp R ROps) with Cexp. toC. unfold rtwo. cbn [rexp rmul ropp radd rone ROps].
    replace (- (1 + 1)) with (- (2)) by ring. rewrite RtoC_opp. reflexivity.
  Qed.
  Lemma cc_Q f1 f2 g1 g2 d1 d2 e1 e2 m : cc f1 d1 -> cc f2 d2 -> cc g1 e1 -> cc g2 e2 -> sm (f1 t0) m -> sm (f2 t0) m ->
    smooth_ratio n_max n_add (f1 t0) (f2 t0) (g2 t0) m -> forall n, (n <= m)%nat ->
    cc (fun t => Qr (f1 t) (f2 t) (g1 t) (g2 t) n) (Qd d1 d2 e1 e2 n).
  Proof.
    intros H1 H2 G1 G2 S1 S2 (Hx & H0 & Hd). unfold pQ. induction n as [|n IH]; intros Hm.
    - cbn [Q_at]. unfold Q0. cbv zeta.
      apply cc_mul.
      + apply cc_div; [apply (cc_q0n f1 d1 H1)| |apply gd_neq0]. apply (cc_gd t0); [apply (cc_q0n f2 d2 H2)|]. intros E. apply H0. rewrite <- (den0_eq (f2 t0)). exact E.
      + apply (cc_ofr t0 (fun t => exp (- (1 + 1) * (snd (f2 t) - snd (f1 t))))). apply car_exp.
        apply (car_mul t0 (fun _ => - (1 + 1))); [apply car_m2|]. apply car_sub; [apply (cc_im f2 d2 H2)|apply (cc_im f1 d1 H1)].
    - cbn [Q_at]. cbv zeta.
      assert (N1 : forall f d D3f D3x, cc f d -> cc (fun t => D1 (f t) (S n)) (D1d d (S n)) -> cc D3f D3x ->
        cc (fun t => @cmul R ROps (cadd (cmul (f t) (D1 (f t) (S n))) (cofn (S n))) (csub (cofn (S n)) (cmul (f t) (D3f t))))
           (@cmul dual DOps (cadd (cmul d (D1d d (S n))) (cofn (S n))) (csub (cofn (S n)) (cmul d D3x)))).
      { intros f d D3f D3x Hf HD HD3. apply cc_mul.
        - apply cc_add; [now apply cc_mul|apply cc_cofn].
        - apply (cc_sub t0 (fun _ => @cofn R ROps (S n))); [apply cc_cofn|now apply cc_mul]. }
      apply cc_mul; [apply cc_mul; [apply IH; lia|]|].
      + apply cc_csqr. apply cc_div; [exact G1|apply (cc_gd t0); [exact G2|exact Hx]|apply gd_neq0].
      + apply cc_div; [|apply (cc_gd t0)|apply gd_neq0].
        * apply N1; [exact H2|now apply (cc_D1 t0 n_max n_add f2 d2 (S n) m)|apply (cc_D3 t0 n_max n_add f2 d2 m n H2 S2); lia].
        * apply N1; [exact H1|now apply (cc_D1 t0 n_max n_add f1 d1 (S n) m)|apply (cc_D3 t0 n_max n_add f1 d1 m n H1 S1); lia].
        * specialize (Hd (S n) ltac:(lia)). unfold off in Hd. rewrite Nat.sub_succ, Nat.sub_0_r in Hd. rewrite !cofn_C. exact Hd.
  Qed.
  Lemma cl_first l d n m : cl l d -> sm (fst (l t0) * snd (l t0))%C m ->
    cl (fun t => @pena_first R ROps n_max n_add (l t) n) (@pena_first dual DOps n_max n_add d n).
  Proof.
    intros [H1 H2] Hs. assert (Hd := cc_D1 t0 n_max n_add (fun t => fst (l t) * snd (l t))%C _ n m (cc_mul t0 _ _ _ _ H1 H2) Hs).
    split; exact Hd.
  Qed.
  Lemma cl_layer lm1 l H dm dl dH n : cl lm1 dm -> cl l dl -> cl H dH -> smooth_layer n_max n_add (lm1 t0) (l t0) (H t0) n ->
    cl (fun t => @pena_layer R ROps n_max n_add (lm1 t) (l t) (H t) n) (@pena_layer dual DOps n_max n_add dm dl dH n).
  Proof.
    intros [M1 M2] [L1 L2] [H1 H2] (Sp & Sc & Sr & Oa & Ob).
    pose proof (cc_mul t0 _ _ _ _ L1 L2) as Zc. pose proof (cc_mul t0 _ _ _ _ L1 M2) as Zp.
    pose proof (cc_D1 t0 n_max n_add _ _ n n Zc Sc) as D1c. pose proof (cc_D3 t0 n_max n_add _ _ n n Zc Sc (le_n n)) as D3c.
    pose proof (cc_D1 t0 n_max n_add _ _ n n Zp Sp) as D1p. pose proof (cc_D3 t0 n_max n_add _ _ n n Zp Sp (le_n n)) as D3p.
    pose proof (cc_Q _ _ _ _ _ _ _ _ n Zp Zc M2 L2 Sp Sc Sr n (le_n n)) as Q.
    pose proof (cc_sub t0 _ _ _ _ (cc_mul t0 _ _ _ _ L1 H1) (cc_mul t0 _ _ _ _ M1 D1p)) as G1.
    pose proof (cc_sub t0 _ _ _ _ (cc_mul t0 _ _ _ _ L1 H1) (cc_mul t0 _ _ _ _ M1 D3p)) as G2.
    pose proof (cc_sub t0 _ _ _ _ (cc_mul t0 _ _ _ _ M1 H2) (cc_mul t0 _ _ _ _ L1 D1p)) as K1.
    pose proof (cc_sub t0 _ _ _ _ (cc_mul t0 _ _ _ _ M1 H2) (cc_mul t0 _ _ _ _ L1 D3p)) as K2.
    split; cbn [pena_layer fst snd].
    - exact (cc_div t0 _ _ _ _ (cc_sub t0 _ _ _ _ (cc_mul t0 _ _ _ _ G2 D1c) (cc_mul t0 _ _ _ _ (cc_mul t0 _ _ _ _ Q G1) D3c))
        (cc_gd t0 _ _ (cc_sub t0 _ _ _ _ G2 (cc_mul t0 _ _ _ _ Q G1)) Oa) (gd_neq0 _)).
    - exact (cc_div t0 _ _ _ _ (cc_sub t0 _ _ _ _ (cc_mul t0 _ _ _ _ K2 D1c) (cc_mul t0 _ _ _ _ (cc_mul t0 _ _ _ _ Q K1) D3c))
        (cc_gd t0 _ _ (cc_sub t0 _ _ _ _ K2 (cc_mul t0 _ _ _ _ Q K1)) Ob) (gd_neq0 _)).
  Qed.
  Lemma cl_layers rest drest : Forall2 cl rest drest -> forall lm1 dm H dH n, cl lm1 dm -> cl H dH ->
    smooth_layers n_max n_add (lm1 t0) (map (fun l => l t0) rest) (H t0) n ->
    cl (fun t => @pena_layers R ROps n_max n_add (lm1 t) (map (fun l => l t) rest) (H t) n) (@pena_layers dual DOps n_max n_add dm drest dH n).
  Proof.
    induction 1 as [|l dl rest drest Hl _ IH]; intros lm1 dm H dH n Hm HH Hs; [exact HH|].
    cbn [map smooth_layers pena_layers] in *. destruct Hs as [Sl Ss].
    apply (IH l dl (fun t => @pena_layer R ROps n_max n_add (lm1 t) (l t) (H t) n)); [exact Hl|now apply cl_layer|exact Ss].
  Qed.
  Lemma last_map {A B} (g : A -> B) l x : last (map g l) (g x) = g (last l x).
  Proof. induction l as [|a [|b l] IH]; [reflexivity|reflexivity|]. cbn [map last] in *. exact IH. Qed.
  Lemma cl_last rest drest : Forall2 cl rest drest -> forall l d, cl l d -> cl (last rest l) (last drest d).
  Proof. induction 1 as [|x y r s Hx HF IH]; intros l d H; [exact H|]. destruct HF as [|a b r s Ha HF]; [exact Hx|]. exact (IH l d H). Qed.
  Lemma cl_final l H dl dH n : (1 <= n)%nat -> cl l dl -> cl H dH -> smooth_final n_max n_add (l t0) (H t0) n ->
    cl (fun t => @pena_final R ROps n_max n_add (l t) (H t) n) (@pena_final dual DOps n_max n_add dl dH n).
  Proof.
    intros Hn [L1 L2] [H1 H2] (Hm & Sx & Oa & Ob).
    destruct (cc_pz t0 n_max n_add _ _ n L2 Sx n ltac:(lia)) as [Pn Zn].
    destruct (cc_pz t0 n_max n_add _ _ n L2 Sx (n - 1) ltac:(lia)) as [Pp Zp].
    pose proof (cc_num t0 _ _ n L2 (proj1 Sx)) as Nx.
    pose proof (cc_add t0 _ _ _ _ (cc_div t0 _ _ _ _ H1 L1 Hm) Nx) as Ta. pose proof (cc_add t0 _ _ _ _ (cc_mul t0 _ _ _ _ L1 H2) Nx) as Tb.
    assert (Oa' : Cmod ((fst (H t0) / fst (l t0) + @cofn R ROps n / @guard R ROps er (snd (l t0))) * @pzeta R ROps n_max n_add (snd (l t0)) n - @pzeta R ROps n_max n_add (snd (l t0)) (n - 1)%nat)%C <> er) by (rewrite cofn_C; exact Oa).
    assert (Ob' : Cmod ((fst (l t0) * snd (H t0) + @cofn R ROps n / @guard R ROps er (snd (l t0))) * @pzeta R ROps n_max n_add (snd (l t0)) n - @pzeta R ROps n_max n_add (snd (l t0)) (n - 1)%nat)%C <> er) by (rewrite cofn_C; exact Ob).
    split; cbn [pena_final fst snd].
    - exact (cc_div t0 _ _ _ _ (cc_sub t0 _ _ _ _ (cc_mul t0 _ _ _ _ Ta Pn) Pp) (cc_gd t0 _ _ (cc_sub t0 _ _ _ _ (cc_mul t0 _ _ _ _ Ta Zn) Zp) Oa') (gd_neq0 _)).
    - exact (cc_div t0 _ _ _ _ (cc_sub t0 _ _ _ _ (cc_mul t0 _ _ _ _ Tb Pn) Pp) (cc_gd t0 _ _ (cc_sub t0 _ _ _ _ (cc_mul t0 _ _ _ _ Tb Zn) Zp) Ob') (gd_neq0 _)).
  Qed.
  Lemma cl_ab l0 rest d0 drest n : (1 <= n)%nat -> cl l0 d0 -> Forall2 cl rest drest ->
    smooth_stack n_max n_add (l0 t0) (map (fun l => l t0) rest) n ->
    cl (fun t => @pena_ab R ROps n_max n_add (l0 t) (map (fun l => l t) rest) n) (@pena_ab dual DOps n_max n_add d0 drest n).
  Proof.
    intros Hn H0 HF (Sa & Sl & Sf). unfold pena_ab, pena_H.
    pose proof (cl_first l0 d0 n n H0 Sa) as HFst.
    pose proof (cl_layers rest drest HF l0 d0 _ _ n H0 HFst Sl) as HL.
    pose proof (cl_last rest drest HF l0 d0 H0) as Hlast.
    rewrite (last_map (fun l => l t0) rest l0) in Sf.
    destruct (cl_final (last rest l0) _ _ _ n Hn Hlast HL Sf) as [A B].
    split; (eapply cc_ext; [|eassumption]); intros t; cbv beta;
      apply f_equal; refine (f_equal (fun X => @pena_final R ROps n_max n_add X _ n) _); symmetry; exact (last_map (fun l => l t) rest l0).
  Qed.
End Stack.
