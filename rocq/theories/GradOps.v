(** Each operation on dual numbers carries the derivative (C83). *)
From Coq Require Import Reals ZArith Lra Lia List Bool Arith.
From Coquelicot Require Import Coquelicot.
From Verif Require Import Ops ROps Spec CTrig CLemmas ModelSpecial ModelMie ModelGrad GradSpec StackConsequences.
Import ListNotations.
Open Scope R_scope.
Arguments Cmod x%C_scope.

Section Ops.
  Variable t0 : R.
  Notation car := (carries t0).
  Notation cc := (ccarries t0).

  Lemma car_ext f g d : (forall t, f t = g t) -> car f d -> car g d.
  Proof. intros E [H1 H2]. split; [rewrite <- E; exact H1|]. eapply is_derive_ext; [exact E|exact H2]. Qed.
  Lemma car_loc f g d : locally t0 (fun t => f t = g t) -> car f d -> car g d.
  Proof.
    intros E [H1 H2]. split; [rewrite <- (locally_singleton _ _ E); exact H1|]. eapply is_derive_ext_loc; [exact E|exact H2].
  Qed.
  Lemma car_const c : car (fun _ => c) (c, 0).
  Proof. split; [reflexivity|]. cbn. apply (is_derive_const (K := R_AbsRing) (V := R_NormedModule)). Qed.
  Lemma car_id_eq f d d' : car f d -> d = d' -> car f d'. Proof. intros H <-. exact H. Qed.
  Lemma car_add f g d e : car f d -> car g e -> car (fun t => f t + g t) (@radd dual DOps d e).
  Proof.
    intros [H1 H2] [H3 H4]. split; cbn; [congruence|]. apply (is_derive_plus (V := R_NormedModule) f g); assumption.
  Qed.
  Lemma car_opp f d : car f d -> car (fun t => - f t) (@ropp dual DOps d).
  Proof. intros [H1 H2]. split; cbn; [congruence|]. apply (is_derive_opp (V := R_NormedModule) f); assumption. Qed.
  Lemma car_sub f g d e : car f d -> car g e -> car (fun t => f t - g t) (@rsub dual DOps d e).
  Proof. intros H1 H2. apply (car_add f (fun t => - g t)); [exact H1|now apply car_opp]. Qed.
  Lemma car_mul f g d e : car f d -> car g e -> car (fun t => f t * g t) (@rmul dual DOps d e).
  Proof.
    intros [H1 H2] [H3 H4]. split; cbn; [congruence|]. rewrite <- H1, <- H3.
    apply (is_derive_mult f g); [exact H2|exact H4|intros; apply Rmult_comm].
  Qed.
  Lemma car_div f g d e : car f d -> car g e -> g t0 <> 0 -> car (fun t => f t / g t) (@rdiv dual DOps d e).
  Proof.
    intros [H1 H2] [H3 H4] Hn. split; cbn; [congruence|]. rewrite <- H1, <- H3.
    pose proof (is_derive_div f g t0 _ _ H2 H4 Hn) as D. replace (g t0 * g t0) with (g t0 ^ 2) by ring. exact D.
  Qed.
  Lemma car_comp (h : R -> R) (h' : R) f d : car f d -> is_derive h (f t0) h' -> car (fun t => h (f t)) (h (fst d), snd d * h').
  Proof.
    intros [H1 H2] Hh. split; cbn; [congruence|]. exact (is_derive_comp h f t0 h' (snd d) Hh H2).
  Qed.
  Lemma car_sqrt f d : car f d -> 0 < f t0 -> car (fun t => sqrt (f t)) (@rsqrt dual DOps d).
  Proof.
    intros H Hp. pose proof (proj1 H) as E. eapply car_id_eq; [apply (car_comp sqrt (/ (2 * sqrt (f t0))) f d H)|].
    - auto_derive; [exact Hp|ring].
    - cbn. rewrite E. reflexivity.
  Qed.
  Lemma car_sin f d : car f d -> car (fun t => sin (f t)) (@rsin dual DOps d).
  Proof.
    intros H. pose proof (proj1 H) as E. eapply car_id_eq; [apply (car_comp sin (cos (f t0)) f d H)|].
    - auto_derive; [exact I|ring].
    - cbn. rewrite E. reflexivity.
  Qed.
  Lemma car_cos f d : car f d -> car (fun t => cos (f t)) (@rcos dual DOps d).
  Proof.
    intros H. pose proof (proj1 H) as E. eapply car_id_eq; [apply (car_comp cos (- sin (f t0)) f d H)|].
    - auto_derive; [exact I|ring].
    - cbn. rewrite E. reflexivity.
  Qed.
  Lemma car_exp f d : car f d -> car (fun t => exp (f t)) (@rexp dual DOps d).
  Proof.
    intros H. pose proof (proj1 H) as E. eapply car_id_eq; [apply (car_comp exp (exp (f t0)) f d H)|].
    - auto_derive; [exact I|ring].
    - cbn. rewrite E. reflexivity.
  Qed.
  Lemma car_cont f d : car f d -> continuous f t0.
  Proof. intros [_ H]. apply (ex_derive_continuous (K := R_AbsRing) (V := R_NormedModule)). eexists. exact H. Qed.

  (** ** complex *)
  Lemma cc_ext f g d : (forall t, f t = g t) -> cc f d -> cc g d.
  Proof. intros E [H1 H2]. split; (eapply car_ext; [|eassumption]); intros t; cbv beta; now rewrite E. Qed.
  Lemma cc_loc f g d : locally t0 (fun t => f t = g t) -> cc f d -> cc g d.
  Proof.
    intros E [H1 H2]. split; (eapply car_loc; [|eassumption]); (eapply filter_imp; [|exact E]); intros t Ht; cbv beta in *; now rewrite Ht.
  Qed.
  Lemma cc_val f d : cc f d -> f t0 = dval d.
  Proof. intros [[H1 _] [H2 _]]. unfold dval. rewrite <- H1, <- H2. now destruct (f t0). Qed.
  Lemma cc_const c : cc (fun _ => c) ((fst c, 0), (snd c, 0)).
  Proof. split; apply car_const. Qed.
  Lemma cc_ofr f d : car f d -> cc (fun t => RtoC (f t)) (@cofr dual DOps d).
  Proof. intros H. split; cbn; [exact H|apply car_const]. Qed.
  Lemma cc_ofn n : cc (fun _ => RtoC (INR n)) (@cofn dual DOps n).
  Proof. apply (cc_ofr (fun _ => INR n)). unfold rofn. cbn. rewrite <- INR_IZR_INZ. apply car_const. Qed.
  Lemma cc_add f g d e : cc f d -> cc g e -> cc (fun t => f t + g t)%C (@cadd dual DOps d e).
  Proof. intros [H1 H2] [H3 H4]. split; cbn [fst snd cadd]; [apply (car_add (fun t => fst (f t)) (fun t => fst (g t)))|apply (car_add (fun t => snd (f t)) (fun t => snd (g t)))]; assumption. Qed.
  Lemma cc_opp f d : cc f d -> cc (fun t => - f t)%C (@copp dual DOps d).
  Proof. intros [H1 H2]. split; [apply (car_opp (fun t => fst (f t)))|apply (car_opp (fun t => snd (f t)))]; assumption. Qed.
  Lemma cc_sub f g d e : cc f d -> cc g e -> cc (fun t => f t - g t)%C (@csub dual DOps d e).
  Proof. intros H1 H2. apply (cc_add f (fun t => - g t)%C); [exact H1|now apply cc_opp]. Qed.
  Lemma cc_mul f g d e : cc f d -> cc g e -> cc (fun t => f t * g t)%C (@cmul dual DOps d e).
  Proof.
    intros [H1 H2] [H3 H4]. split; cbn [fst snd cmul].
    - apply (car_sub (fun t => fst (f t) * fst (g t)) (fun t => snd (f t) * snd (g t))); apply car_mul; assumption.
    - apply (car_add (fun t => fst (f t) * snd (g t)) (fun t => snd (f t) * fst (g t))); apply car_mul; assumption.
  Qed.
  Lemma car_sqr f d : car f d -> car (fun t => f t ^ 2) (@rsqr dual DOps d).
  Proof. intros H. unfold rsqr. apply (car_mul f (fun t => f t * 1)); [exact H|]. apply (car_mul f (fun _ => 1)); [exact H|apply car_const]. Qed.
  Lemma norm2_neq (z : C) : z <> RtoC 0 -> fst z ^ 2 + snd z ^ 2 <> 0.
  Proof.
    intros H E. apply H. assert (fst z = 0 /\ snd z = 0) as [E1 E2] by (split; nra). destruct z; cbn in *; subst. reflexivity.
  Qed.
  Lemma cc_inv f d : cc f d -> f t0 <> RtoC 0 -> cc (fun t => / f t)%C (@cinv dual DOps d).
  Proof.
    intros [H1 H2] Hn. pose proof (norm2_neq _ Hn) as Hq. split; cbn [fst snd cinv Cinv].
    - apply (car_div (fun t => fst (f t)) (fun t => fst (f t) ^ 2 + snd (f t) ^ 2)); [exact H1| |exact Hq].
      apply (car_add (fun t => fst (f t) ^ 2) (fun t => snd (f t) ^ 2)); now apply car_sqr.
    - apply (car_div (fun t => - snd (f t)) (fun t => fst (f t) ^ 2 + snd (f t) ^ 2)); [now apply car_opp| |exact Hq].
      apply (car_add (fun t => fst (f t) ^ 2) (fun t => snd (f t) ^ 2)); now apply car_sqr.
  Qed.
  Lemma cc_div f g d e : cc f d -> cc g e -> g t0 <> RtoC 0 -> cc (fun t => f t / g t)%C (@cdiv dual DOps d e).
  Proof. intros H1 H2 Hn. apply (cc_mul f (fun t => / g t)%C); [exact H1|now apply cc_inv]. Qed.
  Lemma cc_csqr f d : cc f d -> cc (fun t => f t * f t)%C (@csqr dual DOps d).
  Proof. intros H. now apply cc_mul. Qed.
  Lemma cc_exp f d : cc f d -> cc (fun t => @cexp R ROps (f t)) (@cexp dual DOps d).
  Proof.
    intros [H1 H2]. split; cbn [fst snd cexp].
    - apply (car_mul (fun t => exp (fst (f t))) (fun t => cos (snd (f t)))); [now apply car_exp|now apply car_cos].
    - apply (car_mul (fun t => exp (fst (f t))) (fun t => sin (snd (f t)))); [now apply car_exp|now apply car_sin].
  Qed.
  Lemma car_two : car (fun _ => 1 + 1) (@rtwo dual DOps).
  Proof. apply (car_add (fun _ => 1) (fun _ => 1)); apply car_const. Qed.
  Lemma car_cosh f d : car f d -> car (fun t => @rcosh R ROps (f t)) (@rcosh dual DOps d).
  Proof.
    intros H. unfold rcosh. apply (car_div (fun t => exp (f t) + exp (- f t)) (fun _ => 1 + 1)); [|apply car_two|lra].
    apply (car_add (fun t => exp (f t)) (fun t => exp (- f t))); [now apply car_exp|]. apply (car_exp (fun t => - f t)). now apply car_opp.
  Qed.
  Lemma car_sinh f d : car f d -> car (fun t => @rsinh R ROps (f t)) (@rsinh dual DOps d).
  Proof.
    intros H. unfold rsinh. apply (car_div (fun t => exp (f t) - exp (- f t)) (fun _ => 1 + 1)); [|apply car_two|lra].
    apply (car_sub (fun t => exp (f t)) (fun t => exp (- f t))); [now apply car_exp|]. apply (car_exp (fun t => - f t)). now apply car_opp.
  Qed.
  Lemma cc_sin f d : cc f d -> cc (fun t => @csin R ROps (f t)) (@csin dual DOps d).
  Proof.
    intros [H1 H2]. split; cbn [fst snd csin].
    - apply (car_mul (fun t => sin (fst (f t))) (fun t => rcosh (snd (f t)))); [now apply car_sin|now apply (car_cosh (fun t => snd (f t)))].
    - apply (car_mul (fun t => cos (fst (f t))) (fun t => rsinh (snd (f t)))); [now apply car_cos|now apply (car_sinh (fun t => snd (f t)))].
  Qed.
  Lemma cc_cos f d : cc f d -> cc (fun t => @ccos R ROps (f t)) (@ccos dual DOps d).
  Proof.
    intros [H1 H2]. split; cbn [fst snd ccos].
    - apply (car_mul (fun t => cos (fst (f t))) (fun t => rcosh (snd (f t)))); [now apply car_cos|now apply (car_cosh (fun t => snd (f t)))].
    - apply (car_opp (fun t => sin (fst (f t)) * rsinh (snd (f t)))).
      apply (car_mul (fun t => sin (fst (f t))) (fun t => rsinh (snd (f t)))); [now apply car_sin|now apply (car_sinh (fun t => snd (f t)))].
  Qed.

  (** ** the guard *)
  Lemma car_tenth k : car (fun _ => @rtenth R ROps k) (@rtenth dual DOps k).
  Proof.
    unfold rtenth. apply (car_div (fun _ => 1) (fun _ => IZR (10 ^ Z.of_nat k))); try apply car_const.
    apply not_0_IZR. apply Z.pow_nonzero; lia.
  Qed.
  Lemma cc_abs_val f d : cc f d -> fst (@cabs dual DOps d) = Cmod (f t0).
  Proof.
    intros [[H1 _] [H2 _]]. unfold cabs, Cmod, rsqr. cbn. rewrite <- H1, <- H2. f_equal; ring.
  Qed.
  Lemma cc_abs_cont f d : cc f d -> continuous (fun t => Cmod (f t)) t0.
  Proof.
    intros [H1 H2]. unfold Cmod. apply (continuous_comp (fun t => fst (f t) ^ 2 + snd (f t) ^ 2) sqrt); [|apply continuous_sqrt].
    eapply car_cont. apply (car_add (fun t => fst (f t) ^ 2) (fun t => snd (f t) ^ 2)); apply car_sqr; eassumption.
  Qed.
  Lemma cc_guard k f d : cc f d -> Cmod (f t0) <> @rtenth R ROps k ->
    cc (fun t => @guard R ROps (rtenth k) (f t)) (@guard dual DOps (rtenth k) d).
  Proof.
    intros H Hn. set (e := @rtenth R ROps k) in *. pose proof (cc_abs_cont f d H) as Hc.
    unfold guard at 2. replace (rltb (cabs d) (@rtenth dual DOps k)) with (Rltb (Cmod (f t0)) e)
      by (cbn [rltb DOps]; rewrite (cc_abs_val f d H); reflexivity).
    unfold Rltb. destruct (Rlt_dec (Cmod (f t0)) e) as [L|L].
    - apply (cc_loc (fun t => f t + RtoC e)%C).
      + pose proof (Hc _ (open_lt e _ L)) as HL. eapply filter_imp; [|exact HL]. intros t Ht. cbv beta in Ht. unfold guard. cbn [rltb ROps]. toC.
        rewrite (proj2 (Rltb_true _ _) Ht). reflexivity.
      + apply cc_add; [exact H|]. apply (cc_ofr (fun _ => e)). apply car_tenth.
    - apply (cc_loc f); [|exact H]. assert (L' : e < Cmod (f t0)) by lra.
      pose proof (Hc _ (open_gt e _ L')) as HL. eapply filter_imp; [|exact HL]. intros t Ht. cbv beta in Ht. unfold guard. cbn [rltb ROps]. toC.
      rewrite (proj2 (Rltb_false _ _)); [reflexivity|]. apply Rlt_le. exact Ht.
  Qed.
  Lemma guard_neq0 k (z : C) : @guard R ROps (rtenth k) z <> RtoC 0.
  Proof.
    unfold guard. cbn [rltb ROps]. toC. pose proof (rtenth_pos k) as Hp. unfold Rltb. destruct (Rlt_dec (Cmod z) (rtenth k)) as [L|L].
    - intros E. assert (Ez : z = RtoC (- rtenth k)) by (rewrite RtoC_opp; replace z with (z + RtoC (rtenth k) - RtoC (rtenth k))%C by ring; rewrite E; ring).
      rewrite Ez, Cmod_R, Rabs_Ropp, Rabs_pos_eq in L; lra.
    - intros E. rewrite E, Cmod_0 in L. lra.
  Qed.
End Ops.
