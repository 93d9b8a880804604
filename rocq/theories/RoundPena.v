(** The pena algorithm in rounded arithmetic approaches the exact one (C97). *)
From Coq Require Import Reals ZArith Lra Lia List Bool Arith.
From Coquelicot Require Import Coquelicot.
From Verif Require Import Ops ROps Spec CTrig CLemmas ModelSpecial ModelMie ModelRound RoundSpec GradSpec GradOps GradPena GradStack RoundOps.
Import ListNotations.
Open Scope R_scope.
Arguments Cmod x%C_scope.
Arguments off z%C_scope.
Notation er := (@eps30 R ROps).
Notation ea A := (@eps30 R (op A)).
Lemma cst_gd p x : cst p x -> Cmod x <> er -> cst (fun A => @guard R (op A) (ea A) (p A)) (@guard R ROps er x).
Proof. apply (cst_guard 30). Qed.

Section Depth.
  Variables n_max n_add : nat.
  Notation N := (n_max + n_add)%nat.
  Notation D1 := (@pD1 R ROps n_max n_add). Notation D1a A := (@pD1 R (op A) n_max n_add).
  Notation D3 := (@pD3 R ROps n_max n_add). Notation D3a A := (@pD3 R (op A) n_max n_add).
  Notation Qr := (@pQ R ROps n_max n_add). Notation Qa A := (@pQ R (op A) n_max n_add).
  Notation sm := (smooth_arg n_max n_add).
  Lemma cst_num p x j : cst p x -> Cmod x <> er -> cst (fun A => @cdiv R (op A) (@cofn R (op A) j) (@guard R (op A) (ea A) (p A))) (@cdiv R ROps (@cofn R ROps j) (@guard R ROps er x)).
  Proof. intros H Hn. apply cst_div; [apply cst_ofn|now apply cst_gd|apply gd_neq0]. Qed.
  Lemma cst_iter p x : cst p x -> Cmod x <> er -> forall k, (k <= N)%nat ->
    (forall j, (N - k < j <= N)%nat -> off (@cadd R ROps (D1 x j) (@cdiv R ROps (RtoC (INR j)) (@guard R ROps er x)))) ->
    cst (fun A => @d1_iter R (op A) (ea A) (@guard R (op A) (ea A) (p A)) N k) (@d1_iter R ROps er (@guard R ROps er x) N k).
  Proof.
    intros H Hn. induction k as [|k IH]; intros Hk Ho; [apply cst_zero|].
    cbn [d1_iter]. unfold d1_step. set (j := (N - k)%nat). specialize (IH ltac:(lia) ltac:(intros i Hi; apply Ho; lia)).
    pose proof (cst_num p x j H Hn) as Cn. apply cst_sub; [exact Cn|]. apply cst_div; [apply cst_one| |apply gd_neq0]. apply cst_gd; [apply cst_add; [exact IH|exact Cn]|].
    pose proof (Ho j ltac:(unfold j; lia)) as O. unfold off, pD1, D1_at in O. replace (N - j)%nat with k in O by (unfold j; lia). rewrite cofn_C. exact O.
  Qed.
  Lemma cst_D1 p x n m : cst p x -> sm x m -> cst (fun A => D1a A (p A) n) (D1 x n).
  Proof. intros H (Hn & Ho & _). unfold pD1, D1_at. apply (cst_iter p x H Hn); [lia|]. intros j Hj. apply Ho. lia. Qed.
  Lemma cst_half : cst (fun A => @cofr R (op A) (@rdiv R (op A) (@rone R (op A)) (@rtwo R (op A)))) (@cofr R ROps (@rdiv R ROps (@rone R ROps) (@rtwo R ROps))).
  Proof. apply cst_ofr. apply (st_div _ _ 1 (@rtwo R ROps)); [apply st_one|apply st_two|unfold rtwo; cbn; lra]. Qed.
  Lemma cst_d3 p x m : cst p x -> sm x m -> forall n, (n <= m)%nat ->
    cst (fun A => fst (@d3_state R (op A) (ea A) (p A) (D1a A (p A)) n)) (fst (@d3_state R ROps er x (D1 x) n)) /\
    cst (fun A => snd (@d3_state R (op A) (ea A) (p A) (D1a A (p A)) n)) (snd (@d3_state R ROps er x (D1 x) n)).
  Proof.
    intros H Hs. pose proof Hs as (Hn & _ & Hp). induction n as [|n IH]; intros Hm.
    - split; cbn [d3_state fst snd]; [|apply cst_i]. apply cst_mul; [apply cst_half|]. apply cst_sub; [apply cst_one|]. apply cst_exp. apply cst_mul; [|exact H]. apply cst_mul; [apply cst_ofn|apply cst_i].
    - destruct (IH ltac:(lia)) as [I1 I2].
      assert (P : cst (fun A => fst (@d3_state R (op A) (ea A) (p A) (D1a A (p A)) (S n))) (fst (@d3_state R ROps er x (D1 x) (S n)))).
      { rewrite d3_S. cbv zeta. cbn [fst]. eapply cst_ext; [intros A; rewrite d3_S; reflexivity|]. cbv zeta. cbn [fst].
        apply cst_mul; [apply cst_mul; [exact I1|]|]; (apply cst_sub; [now apply cst_num|]); [now apply (cst_D1 p x n m)|exact I2]. }
      split; [exact P|].
      assert (Q : cst (fun A => @cadd R (op A) (D1a A (p A) (S n)) (@cdiv R (op A) (@ci R (op A)) (@guard R (op A) (ea A) (fst (@d3_state R (op A) (ea A) (p A) (D1a A (p A)) (S n))))))
        (@cadd R ROps (D1 x (S n)) (@cdiv R ROps (@ci R ROps) (@guard R ROps er (fst (@d3_state R ROps er x (D1 x) (S n))))))).
      { apply cst_add; [now apply (cst_D1 p x (S n) m)|]. apply cst_div; [apply cst_i| |apply gd_neq0]. apply cst_gd; [exact P|]. apply Hp. lia. }
      rewrite d3_S. cbv zeta. cbn [snd]. rewrite d3_S in Q. cbv zeta in Q. cbn [fst] in Q. eapply cst_ext; [|exact Q]. intros A. cbv beta. rewrite !d3_S. reflexivity.
  Qed.
  Lemma cst_D3 p x m n : cst p x -> sm x m -> (n <= m)%nat -> cst (fun A => D3a A (p A) n) (D3 x n).
  Proof. intros H Hs Hn. exact (proj2 (cst_d3 p x m H Hs n Hn)). Qed.
  Lemma cst_pz p x m : cst p x -> sm x m -> forall n, (n <= S m)%nat ->
    cst (fun A => @ppsi R (op A) n_max n_add (p A) n) (@ppsi R ROps n_max n_add x n) /\ cst (fun A => @pzeta R (op A) n_max n_add (p A) n) (@pzeta R ROps n_max n_add x n).
  Proof.
    intros H Hs. pose proof Hs as (Hn & _ & Hp). unfold ppsi, pzeta, pPZ. induction n as [|n IH]; intros Hm.
    - split; cbn [psi_zeta_at fst snd]; [now apply cst_sin|]. apply cst_sub; [now apply cst_sin|]. apply cst_mul; [apply cst_i|now apply cst_cos].
    - destruct (IH ltac:(lia)) as [I1 I2]. rewrite pz_S. cbv zeta. cbn [fst snd].
      split; (eapply cst_ext; [intros A; rewrite pz_S; reflexivity|]); cbv zeta; cbn [fst snd]; (apply cst_mul; [first [exact I1|exact I2]|]); (apply cst_sub; [now apply cst_num|]);
        [now apply (cst_D1 p x n m)|apply (cst_D3 p x m n); [exact H|exact Hs|lia]].
  Qed.
  Lemma cst_q0n p x : cst p x ->
    cst (fun A => @csub R (op A) (@cexp R (op A) (@cmul R (op A) (@cmul R (op A) (@cofr R (op A) (@ropp R (op A) (@rtwo R (op A)))) (@ci R (op A))) (@cofr R (op A) (fst (p A))))) (@cofr R (op A) (@rexp R (op A) (@rmul R (op A) (@ropp R (op A) (@rtwo R (op A))) (snd (p A))))))
       (@csub R ROps (@cexp R ROps (@cmul R ROps (@cmul R ROps (@cofr R ROps (@ropp R ROps (@rtwo R ROps))) (@ci R ROps)) (@cofr R ROps (fst x)))) (@cofr R ROps (@rexp R ROps (@rmul R ROps (@ropp R ROps (@rtwo R ROps)) (snd x))))).
  Proof.
    intros [H1 H2]. apply cst_sub.
    - apply cst_exp. apply cst_mul; [|now apply cst_ofr]. apply cst_mul; [|apply cst_i]. apply cst_ofr. apply (st_opp _ (@rtwo R ROps)), st_two.
    - apply cst_ofr. apply (st_exp _ (- (@rtwo R ROps) * snd x)). apply st_mul; [apply (st_opp _ (@rtwo R ROps)), st_two|exact H2].
  Qed.
  Lemma cst_Q p1 p2 q1 q2 x1 x2 y1 y2 m : cst p1 x1 -> cst p2 x2 -> cst q1 y1 -> cst q2 y2 -> sm x1 m -> sm x2 m -> smooth_ratio n_max n_add x1 x2 y2 m -> forall n, (n <= m)%nat ->
    cst (fun A => Qa A (p1 A) (p2 A) (q1 A) (q2 A) n) (Qr x1 x2 y1 y2 n).
  Proof.
    intros H1 H2 G1 G2 S1 S2 (Hx & H0 & Hd). unfold pQ. induction n as [|n IH]; intros Hm.
    - cbn [Q_at]. unfold Q0. cbv zeta. apply cst_mul.
      + apply cst_div; [exact (cst_q0n p1 x1 H1)| |apply gd_neq0]. apply cst_gd; [exact (cst_q0n p2 x2 H2)|]. intros E. apply H0. rewrite <- (den0_eq x2). exact E.
      + apply cst_ofr. apply (st_exp _ (- (@rtwo R ROps) * (snd x2 - snd x1))). apply st_mul; [apply (st_opp _ (@rtwo R ROps)), st_two|]. apply st_sub; [exact (proj2 H2)|exact (proj2 H1)].
    - cbn [Q_at]. cbv zeta.
      assert (N1 : forall p x D3p D3x, cst p x -> cst (fun A => D1a A (p A) (S n)) (D1 x (S n)) -> cst D3p D3x ->
        cst (fun A => @cmul R (op A) (@cadd R (op A) (@cmul R (op A) (p A) (D1a A (p A) (S n))) (@cofn R (op A) (S n))) (@csub R (op A) (@cofn R (op A) (S n)) (@cmul R (op A) (p A) (D3p A))))
           (@cmul R ROps (@cadd R ROps (@cmul R ROps x (D1 x (S n))) (@cofn R ROps (S n))) (@csub R ROps (@cofn R ROps (S n)) (@cmul R ROps x D3x)))).
      { intros p x D3p D3x Hf HD HD3. apply cst_mul; [apply cst_add; [now apply cst_mul|apply cst_ofn]|apply cst_sub; [apply cst_ofn|now apply cst_mul]]. }
      apply cst_mul; [apply cst_mul; [apply IH; lia|]|].
      + apply cst_csqr. apply cst_div; [exact G1|apply cst_gd; [exact G2|exact Hx]|apply gd_neq0].
      + apply cst_div; [|apply cst_gd|apply gd_neq0].
        * apply N1; [exact H2|now apply (cst_D1 p2 x2 (S n) m)|apply (cst_D3 p2 x2 m n H2 S2); lia].
        * apply N1; [exact H1|now apply (cst_D1 p1 x1 (S n) m)|apply (cst_D3 p1 x1 m n H1 S1); lia].
        * specialize (Hd (S n) ltac:(lia)). unfold off in Hd. rewrite Nat.sub_succ, Nat.sub_0_r in Hd. rewrite !cofn_C. exact Hd.
  Qed.
  Definition lst (q : arithmetic -> C * C) (l : C * C) : Prop := cst (fun A => fst (q A)) (fst l) /\ cst (fun A => snd (q A)) (snd l).
  Lemma lst_first q l n m : lst q l -> sm (fst l * snd l)%C m -> lst (fun A => @pena_first R (op A) n_max n_add (q A) n) (@pena_first R ROps n_max n_add l n).
  Proof. intros [H1 H2] Hs. assert (Hd := cst_D1 _ (fst l * snd l)%C n m (cst_mul _ _ _ _ H1 H2) Hs). split; exact Hd. Qed.
  Lemma lst_layer qm q qH lm l H n : lst qm lm -> lst q l -> lst qH H -> smooth_layer n_max n_add lm l H n ->
    lst (fun A => @pena_layer R (op A) n_max n_add (qm A) (q A) (qH A) n) (@pena_layer R ROps n_max n_add lm l H n).
  Proof.
    intros [M1 M2] [L1 L2] [H1 H2] (Sp & Sc & Sr & Oa & Ob).
    pose proof (cst_mul _ _ _ _ L1 L2) as Zc. pose proof (cst_mul _ _ _ _ L1 M2) as Zp.
    pose proof (cst_D1 _ _ n n Zc Sc) as D1c. pose proof (cst_D3 _ _ n n Zc Sc (le_n n)) as D3c.
    pose proof (cst_D1 _ _ n n Zp Sp) as D1p. pose proof (cst_D3 _ _ n n Zp Sp (le_n n)) as D3p.
    pose proof (cst_Q _ _ _ _ _ _ _ _ n Zp Zc M2 L2 Sp Sc Sr n (le_n n)) as Q.
    pose proof (cst_sub _ _ _ _ (cst_mul _ _ _ _ L1 H1) (cst_mul _ _ _ _ M1 D1p)) as G1.
    pose proof (cst_sub _ _ _ _ (cst_mul _ _ _ _ L1 H1) (cst_mul _ _ _ _ M1 D3p)) as G2.
    pose proof (cst_sub _ _ _ _ (cst_mul _ _ _ _ M1 H2) (cst_mul _ _ _ _ L1 D1p)) as K1.
    pose proof (cst_sub _ _ _ _ (cst_mul _ _ _ _ M1 H2) (cst_mul _ _ _ _ L1 D3p)) as K2.
    split; cbn [pena_layer fst snd].
    - exact (cst_div _ _ _ _ (cst_sub _ _ _ _ (cst_mul _ _ _ _ G2 D1c) (cst_mul _ _ _ _ (cst_mul _ _ _ _ Q G1) D3c)) (cst_gd _ _ (cst_sub _ _ _ _ G2 (cst_mul _ _ _ _ Q G1)) Oa) (gd_neq0 _)).
    - exact (cst_div _ _ _ _ (cst_sub _ _ _ _ (cst_mul _ _ _ _ K2 D1c) (cst_mul _ _ _ _ (cst_mul _ _ _ _ Q K1) D3c)) (cst_gd _ _ (cst_sub _ _ _ _ K2 (cst_mul _ _ _ _ Q K1)) Ob) (gd_neq0 _)).
  Qed.
  Lemma lst_layers qrest rest : Forall2 lst qrest rest -> forall qm lm qH H n, lst qm lm -> lst qH H -> smooth_layers n_max n_add lm rest H n ->
    lst (fun A => @pena_layers R (op A) n_max n_add (qm A) (map (fun q => q A) qrest) (qH A) n) (@pena_layers R ROps n_max n_add lm rest H n).
  Proof.
    induction 1 as [|q l qrest rest Hl _ IH]; intros qm lm qH H n Hm HH Hs; [exact HH|]. cbn [map smooth_layers pena_layers] in *. destruct Hs as [Sl Ss].
    apply (IH q l (fun A => @pena_layer R (op A) n_max n_add (qm A) (q A) (qH A) n)); [exact Hl|now apply lst_layer|exact Ss].
  Qed.
  Lemma lst_last qrest rest : Forall2 lst qrest rest -> forall q l, lst q l -> lst (last qrest q) (last rest l).
  Proof. induction 1 as [|x y r s Hx HF IH]; intros l d H; [exact H|]. destruct HF as [|a b r s Ha HF]; [exact Hx|]. exact (IH l d H). Qed.
  Lemma lst_final q qH l H n : (1 <= n)%nat -> lst q l -> lst qH H -> smooth_final n_max n_add l H n ->
    lst (fun A => @pena_final R (op A) n_max n_add (q A) (qH A) n) (@pena_final R ROps n_max n_add l H n).
  Proof.
    intros Hn [L1 L2] [H1 H2] (Hm & Sx & Oa & Ob).
    destruct (cst_pz _ _ n L2 Sx n ltac:(lia)) as [Pn Zn]. destruct (cst_pz _ _ n L2 Sx (n - 1) ltac:(lia)) as [Pp Zp].
    pose proof (cst_num _ _ n L2 (proj1 Sx)) as Nx.
    pose proof (cst_add _ _ _ _ (cst_div _ _ _ _ H1 L1 Hm) Nx) as Ta. pose proof (cst_add _ _ _ _ (cst_mul _ _ _ _ L1 H2) Nx) as Tb.
    assert (Oa' : Cmod ((fst H / fst l + @cofn R ROps n / @guard R ROps er (snd l)) * @pzeta R ROps n_max n_add (snd l) n - @pzeta R ROps n_max n_add (snd l) (n - 1)%nat)%C <> er) by (rewrite cofn_C; exact Oa).
    assert (Ob' : Cmod ((fst l * snd H + @cofn R ROps n / @guard R ROps er (snd l)) * @pzeta R ROps n_max n_add (snd l) n - @pzeta R ROps n_max n_add (snd l) (n - 1)%nat)%C <> er) by (rewrite cofn_C; exact Ob).
    split; cbn [pena_final fst snd].
    - exact (cst_div _ _ _ _ (cst_sub _ _ _ _ (cst_mul _ _ _ _ Ta Pn) Pp) (cst_gd _ _ (cst_sub _ _ _ _ (cst_mul _ _ _ _ Ta Zn) Zp) Oa') (gd_neq0 _)).
    - exact (cst_div _ _ _ _ (cst_sub _ _ _ _ (cst_mul _ _ _ _ Tb Pn) Pp) (cst_gd _ _ (cst_sub _ _ _ _ (cst_mul _ _ _ _ Tb Zn) Zp) Ob') (gd_neq0 _)).
  Qed.
  Lemma lst_ab q0 qrest l0 rest n : (1 <= n)%nat -> lst q0 l0 -> Forall2 lst qrest rest -> smooth_stack n_max n_add l0 rest n ->
    lst (fun A => @pena_ab R (op A) n_max n_add (q0 A) (map (fun q => q A) qrest) n) (@pena_ab R ROps n_max n_add l0 rest n).
  Proof.
    intros Hn H0 HF (Sa & Sl & Sf). unfold pena_ab, pena_H.
    pose proof (lst_first q0 l0 n n H0 Sa) as HFst. pose proof (lst_layers qrest rest HF q0 l0 _ _ n H0 HFst Sl) as HL. pose proof (lst_last qrest rest HF q0 l0 H0) as Hlast.
    destruct (lst_final (last qrest q0) _ _ _ n Hn Hlast HL Sf) as [B1 B2].
    split; (eapply cst_ext; [|eassumption]); intros A; cbv beta; apply f_equal; refine (f_equal (fun X => @pena_final R (op A) n_max n_add X _ n) _); symmetry; exact (last_map (fun q => q A) qrest q0).
  Qed.
End Depth.
