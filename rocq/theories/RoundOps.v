(** Each operation in rounded arithmetic approaches the exact one (C97). *)
From Coq Require Import Reals ZArith Lra Lia List Bool Arith.
From Coquelicot Require Import Coquelicot.
From Verif Require Import Ops ROps Spec CTrig CLemmas ModelSpecial ModelMie ModelRound RoundSpec GradSpec GradOps.
Import ListNotations.
Open Scope R_scope.
Arguments Cmod x%C_scope.
Notation op A := (ar_ops A).

Lemma rel_mono u v x y : u <= v -> rel u x y -> rel v x y.
Proof. unfold rel. intros H1 H2. pose proof (Rabs_pos y). eapply Rle_trans; [exact H2|]. apply Rmult_le_compat_r; assumption. Qed.
Lemma precise_mono u v A : u <= v -> precise u A -> precise v A.
Proof.
  intros H P. destruct P. split; try assumption; try (intros; eapply rel_mono; [exact H|]; auto). intros z. eapply Rle_trans; [apply pr_root|]. apply Rmult_le_compat_r; [apply Cmod_ge_0|exact H].
Qed.
Lemma ev_imp (P Q : arithmetic -> Prop) : (forall A, P A -> Q A) -> eventually P -> eventually Q.
Proof. intros H (u & Hu & K). exists u. split; [exact Hu|]. intros A HA. apply H, K, HA. Qed.
Lemma ev_and P Q : eventually P -> eventually Q -> eventually (fun A => P A /\ Q A).
Proof.
  intros (u & Hu & K) (v & Hv & M). exists (Rmin u v). split; [now apply Rmin_glb_lt|]. intros A HA. split; [apply K|apply M]; (eapply precise_mono; [|exact HA]); [apply Rmin_l|apply Rmin_r].
Qed.
Lemma ev_true : eventually (fun _ => True). Proof. exists 1. split; [lra|auto]. Qed.
(* as a filter *)
Definition prec : (arithmetic -> Prop) -> Prop := eventually.
Global Instance prec_filter : Filter prec.
Proof. split; [exact ev_true|intros; now apply ev_and|intros P Q H K; now apply (ev_imp P Q)]. Qed.
Lemma st_lim q x : settles q x <-> filterlim q prec (locally x).
Proof.
  split.
  - intros H P [e He]. destruct (H e (cond_pos e)) as (u & Hu & K). exists u. split; [exact Hu|]. intros A HA. apply He. exact (K A HA).
  - intros H e He. apply (H (fun y => Rabs (y - x) < e)). exists (mkposreal e He). intros y Hy. exact Hy.
Qed.

Lemma st_ext p q x : (forall A, p A = q A) -> settles p x -> settles q x.
Proof. intros E H e He. eapply ev_imp; [|exact (H e He)]. intros A. cbv beta. now rewrite E. Qed.
Lemma st_ev p q x : eventually (fun A => p A = q A) -> settles p x -> settles q x.
Proof. intros E H e He. eapply ev_imp; [|exact (ev_and _ _ E (H e He))]. intros A [E1 H1]. cbv beta in *. now rewrite <- E1. Qed.
Lemma st_val p x y : settles p x -> x = y -> settles p y. Proof. now intros H <-. Qed.
Lemma st_const c : settles (fun _ => c) c.
Proof. intros e He. eapply ev_imp; [|exact ev_true]. intros _ _. rewrite Rminus_eq_0, Rabs_R0. exact He. Qed.
Lemma st_cont (f : R -> R) q x : settles q x -> continuous f x -> settles (fun A => f (q A)) (f x).
Proof. intros H Hf. apply st_lim. apply st_lim in H. exact (filterlim_comp _ _ _ _ _ _ _ _ H Hf). Qed.
(* a rounded operation on top of an exact quantity *)
Lemma st_round (r s : arithmetic -> R) l (D : arithmetic -> Prop) : settles s l -> eventually D -> (forall u A, precise u A -> D A -> rel u (r A) (s A)) -> settles r l.
Proof.
  intros Hs HD Hr e He. pose proof (Rabs_pos l) as L0. set (m := Rmin (e / 2) 1). assert (Hm : 0 < m) by (apply Rmin_glb_lt; lra). pose proof (Rmin_l (e / 2) 1) as M1. pose proof (Rmin_r (e / 2) 1) as M2. fold m in M1, M2.
  destruct (ev_and _ _ (Hs m Hm) HD) as (u & Hu & K). set (v := e / (2 * (Rabs l + 2))). assert (Hv : 0 < v) by (unfold v; apply Rdiv_lt_0_compat; lra).
  exists (Rmin u v). split; [now apply Rmin_glb_lt|]. intros A HA. destruct (K A (precise_mono _ _ _ (Rmin_l u v) HA)) as [K1 K2]. pose proof (Hr v A (precise_mono _ _ _ (Rmin_r u v) HA) K2) as Q. unfold rel in Q.
  assert (S1 : Rabs (s A) < Rabs l + 2). { replace (s A) with (l + (s A - l)) by ring. pose proof (Rabs_triang l (s A - l)). lra. }
  assert (S2 : v * Rabs (s A) < e / 2). { replace (e / 2) with (v * (Rabs l + 2)) by (unfold v; field; lra). apply Rmult_lt_compat_l; lra. }
  replace (r A - l) with ((r A - s A) + (s A - l)) by ring. pose proof (Rabs_triang (r A - s A) (s A - l)). lra.
Qed.
Lemma st_lt p q x y : settles p x -> settles q y -> x < y -> eventually (fun A => p A < q A).
Proof.
  intros Hp Hq L. set (e := (y - x) / 2). assert (He : 0 < e) by (unfold e; lra). eapply ev_imp; [|exact (ev_and _ _ (Hp e He) (Hq e He))]. intros A [H1 H2]. cbv beta in *.
  apply Rabs_def2 in H1. apply Rabs_def2 in H2. unfold e in *. lra.
Qed.
Lemma st_neq p x : settles p x -> x <> 0 -> eventually (fun A => p A <> 0).
Proof.
  intros H Hn. assert (He : 0 < Rabs x) by now apply Rabs_pos_lt. eapply ev_imp; [|exact (H _ He)]. intros A K E. cbv beta in K. rewrite E in K. replace (0 - x) with (- x) in K by ring. rewrite Rabs_Ropp in K. lra.
Qed.
Lemma ev_prec : eventually (fun A => precise 1 A). Proof. exists 1. split; [lra|auto]. Qed.

Lemma st_plus p q x y : settles p x -> settles q y -> settles (fun A => p A + q A) (x + y).
Proof. intros H1 H2. apply st_lim. apply st_lim in H1, H2. eapply filterlim_comp_2; [exact H1|exact H2|apply (filterlim_plus (K := R_AbsRing) (V := R_NormedModule) x y)]. Qed.
Lemma st_mult p q x y : settles p x -> settles q y -> settles (fun A => p A * q A) (x * y).
Proof. intros H1 H2. apply st_lim. apply st_lim in H1, H2. eapply filterlim_comp_2; [exact H1|exact H2|apply (filterlim_mult (K := R_AbsRing) x y)]. Qed.
Lemma st_inv p x : settles p x -> x <> 0 -> settles (fun A => / p A) (/ x).
Proof. intros H Hn. apply (st_cont Rinv); [exact H|]. now apply continuous_Rinv. Qed.

Lemma st_zero : settles (fun A => @rzero R (op A)) 0. Proof. apply (st_ev (fun _ => 0)); [|apply st_const]. eapply ev_imp; [|exact ev_prec]. intros A H. symmetry. apply (pr_zero _ _ H). Qed.
Lemma st_one : settles (fun A => @rone R (op A)) 1. Proof. apply (st_ev (fun _ => 1)); [|apply st_const]. eapply ev_imp; [|exact ev_prec]. intros A H. symmetry. apply (pr_one _ _ H). Qed.
Lemma st_pi : settles (fun A => @rpi R (op A)) PI. Proof. apply (st_round _ (fun _ => PI) PI (fun _ => True)); [apply st_const|exact ev_true|]. intros u A H _. apply (pr_pi _ _ H). Qed.
Lemma st_ofZ z : settles (fun A => @rofZ R (op A) z) (IZR z). Proof. apply (st_round _ (fun _ => IZR z) _ (fun _ => True)); [apply st_const|exact ev_true|]. intros u A H _. apply (pr_ofZ _ _ H). Qed.
Lemma st_opp p x : settles p x -> settles (fun A => @ropp R (op A) (p A)) (- x).
Proof. intros H. apply (st_ev (fun A => - p A)); [eapply ev_imp; [|exact ev_prec]; intros A K; symmetry; apply (pr_opp _ _ K)|]. apply (st_cont Ropp); [exact H|]. apply (continuous_opp (K := R_AbsRing) (V := R_NormedModule) (fun y : R => y) x). apply continuous_id. Qed.
Lemma st_add p q x y : settles p x -> settles q y -> settles (fun A => @radd R (op A) (p A) (q A)) (x + y).
Proof. intros H1 H2. apply (st_round _ (fun A => p A + q A) _ (fun _ => True)); [now apply st_plus|exact ev_true|]. intros u A H _. apply (pr_add _ _ H). Qed.
Lemma st_mul p q x y : settles p x -> settles q y -> settles (fun A => @rmul R (op A) (p A) (q A)) (x * y).
Proof. intros H1 H2. apply (st_round _ (fun A => p A * q A) _ (fun _ => True)); [now apply st_mult|exact ev_true|]. intros u A H _. apply (pr_mul _ _ H). Qed.
Lemma st_div p q x y : settles p x -> settles q y -> y <> 0 -> settles (fun A => @rdiv R (op A) (p A) (q A)) (x / y).
Proof.
  intros H1 H2 Hn. apply (st_round _ (fun A => p A / q A) _ (fun A => q A <> 0)); [apply st_mult; [exact H1|now apply st_inv]|exact (st_neq _ _ H2 Hn)|]. intros u A H Hd. now apply (pr_div _ _ H).
Qed.
Lemma st_sub p q x y : settles p x -> settles q y -> settles (fun A => @rsub R (op A) (p A) (q A)) (x - y).
Proof. intros H1 H2. apply st_add; [exact H1|now apply st_opp]. Qed.
Lemma st_fun (g : arithmetic -> R -> R) (f : R -> R) p x : (forall u A y, precise u A -> rel u (g A y) (f y)) -> continuous f x -> settles p x -> settles (fun A => g A (p A)) (f x).
Proof. intros Hg Hf H. apply (st_round _ (fun A => f (p A)) _ (fun _ => True)); [now apply st_cont|exact ev_true|]. intros u A HA _. now apply Hg. Qed.
Lemma st_sin p x : settles p x -> settles (fun A => @rsin R (op A) (p A)) (sin x).
Proof. apply (st_fun (fun A => @rsin R (op A)) sin); [intros u A y H; apply (pr_sin _ _ H)|apply continuous_sin]. Qed.
Lemma st_cos p x : settles p x -> settles (fun A => @rcos R (op A) (p A)) (cos x).
Proof. apply (st_fun (fun A => @rcos R (op A)) cos); [intros u A y H; apply (pr_cos _ _ H)|apply continuous_cos]. Qed.
Lemma st_exp p x : settles p x -> settles (fun A => @rexp R (op A) (p A)) (exp x).
Proof. apply (st_fun (fun A => @rexp R (op A)) exp); [intros u A y H; apply (pr_exp _ _ H)|apply continuous_exp]. Qed.
Lemma st_sqrt p x : eventually (fun A => 0 <= p A) -> settles p x -> settles (fun A => @rsqrt R (op A) (p A)) (sqrt x).
Proof. intros Hp H. apply (st_round _ (fun A => sqrt (p A)) _ (fun A => 0 <= p A)); [apply (st_cont sqrt); [exact H|apply continuous_sqrt]|exact Hp|]. intros u A HA Hd. now apply (pr_sqrt _ _ HA). Qed.
Lemma st_sqr p x : settles p x -> settles (fun A => @rsqr R (op A) (p A)) (@rsqr R ROps x).
Proof. intros H. unfold rsqr. apply (st_mul p (fun A => @rmul R (op A) (p A) (@rone R (op A))) x (x * 1)); [exact H|]. apply st_mul; [exact H|apply st_one]. Qed.
Lemma st_two : settles (fun A => @rtwo R (op A)) (@rtwo R ROps). Proof. unfold rtwo. apply (st_add _ _ 1 1); apply st_one. Qed.
Lemma st_ofn n : settles (fun A => @rofn R (op A) n) (@rofn R ROps n). Proof. apply st_ofZ. Qed.
Lemma st_tenth k : settles (fun A => @rtenth R (op A) k) (@rtenth R ROps k).
Proof. unfold rtenth. apply (st_div _ _ 1 (IZR (10 ^ Z.of_nat k))); [apply st_one|apply st_ofZ|]. apply not_0_IZR. apply Z.pow_nonzero; lia. Qed.
Lemma st_cosh p x : settles p x -> settles (fun A => @rcosh R (op A) (p A)) (@rcosh R ROps x).
Proof. intros H. unfold rcosh. apply (st_div _ _ (exp x + exp (- x)) (1 + 1)); [|exact st_two|lra]. apply st_add; [now apply st_exp|]. apply (st_exp (fun A => @ropp R (op A) (p A))). now apply st_opp. Qed.
Lemma st_sinh p x : settles p x -> settles (fun A => @rsinh R (op A) (p A)) (@rsinh R ROps x).
Proof. intros H. unfold rsinh. apply (st_div _ _ (exp x - exp (- x)) (1 + 1)); [|exact st_two|lra]. apply st_sub; [now apply st_exp|]. apply (st_exp (fun A => @ropp R (op A) (p A))). now apply st_opp. Qed.

(** ** complex *)
Definition cst (q : arithmetic -> C) (z : C) : Prop := settles (fun A => fst (q A)) (fst z) /\ settles (fun A => snd (q A)) (snd z).
Lemma cst_iff q z : cst q z <-> csettles q z.
Proof.
  split.
  - intros [H1 H2] e He. eapply ev_imp; [|exact (ev_and _ _ (H1 (e / 2) ltac:(lra)) (H2 (e / 2) ltac:(lra)))]. intros A [K1 K2]. cbv beta in *.
    assert (T : Cmod (q A - z)%C <= Rabs (fst (q A - z)%C) + Rabs (snd (q A - z)%C)).
    { set (w := (q A - z)%C). replace w with (RtoC (fst w) + Ci * RtoC (snd w))%C at 1 by (destruct w; unfold RtoC, Ci, Cmult, Cplus; cbn; f_equal; ring). eapply Rle_trans; [apply Cmod_triangle|]. rewrite Cmod_mult, !Cmod_R. replace (Cmod Ci) with 1; [lra|]. unfold Ci, Cmod. cbn. replace (0 * (0 * 1) + 1 * (1 * 1)) with 1 by ring. now rewrite sqrt_1. }
    assert (T1 : Rabs (fst (q A - z)%C) < e / 2) by exact K1. assert (T2 : Rabs (snd (q A - z)%C) < e / 2) by exact K2. lra.
  - intros H. assert (X : forall w : C, Rabs (fst w) <= Cmod w /\ Rabs (snd w) <= Cmod w).
    { intros w. pose proof (Rmax_Cmod w) as M. pose proof (Rmax_l (Rabs (fst w)) (Rabs (snd w))). pose proof (Rmax_r (Rabs (fst w)) (Rabs (snd w))). lra. }
    split; intros e He; (eapply ev_imp; [|exact (H e He)]); intros A K; cbv beta in *; destruct (X (q A - z)%C) as [X1 X2]; eapply Rle_lt_trans; [exact X1|exact K|exact X2|exact K].
Qed.
Lemma cst_ext p q z : (forall A, p A = q A) -> cst p z -> cst q z.
Proof. intros E [H1 H2]. split; (eapply st_ext; [|eassumption]); intros A; cbv beta; now rewrite E. Qed.
Lemma cst_ev p q z : eventually (fun A => p A = q A) -> cst p z -> cst q z.
Proof. intros E [H1 H2]. split; (eapply st_ev; [|eassumption]); (eapply ev_imp; [|exact E]); intros A K; cbv beta in *; now rewrite K. Qed.
Lemma cst_const c : cst (fun _ => c) c. Proof. split; apply st_const. Qed.
Lemma cst_ofr p x : settles p x -> cst (fun A => @cofr R (op A) (p A)) (@cofr R ROps x). Proof. intros H. split; cbn; [exact H|apply st_zero]. Qed.
Lemma cst_zero : cst (fun A => @czero R (op A)) (@czero R ROps). Proof. apply cst_ofr, st_zero. Qed.
Lemma cst_one : cst (fun A => @cone R (op A)) (@cone R ROps). Proof. apply cst_ofr, st_one. Qed.
Lemma cst_i : cst (fun A => @ci R (op A)) (@ci R ROps). Proof. split; [apply st_zero|apply st_one]. Qed.
Lemma cst_ofn n : cst (fun A => @cofn R (op A) n) (@cofn R ROps n). Proof. apply cst_ofr, st_ofn. Qed.
Lemma cst_add p q x y : cst p x -> cst q y -> cst (fun A => @cadd R (op A) (p A) (q A)) (@cadd R ROps x y).
Proof. intros [H1 H2] [H3 H4]. split; cbn [cadd fst snd]; now apply st_add. Qed.
Lemma cst_opp p x : cst p x -> cst (fun A => @copp R (op A) (p A)) (@copp R ROps x).
Proof. intros [H1 H2]. split; cbn [copp fst snd]; now apply st_opp. Qed.
Lemma cst_sub p q x y : cst p x -> cst q y -> cst (fun A => @csub R (op A) (p A) (q A)) (@csub R ROps x y).
Proof. intros H1 H2. apply cst_add; [exact H1|now apply cst_opp]. Qed.
Lemma cst_mul p q x y : cst p x -> cst q y -> cst (fun A => @cmul R (op A) (p A) (q A)) (@cmul R ROps x y).
Proof. intros [H1 H2] [H3 H4]. split; cbn [cmul fst snd]; [apply st_sub|apply st_add]; now apply st_mul. Qed.
Lemma cst_inv p x : cst p x -> x <> RtoC 0 -> cst (fun A => @cinv R (op A) (p A)) (@cinv R ROps x).
Proof.
  intros [H1 H2] Hn. pose proof (norm2_neq _ Hn) as Hq. assert (Q : settles (fun A => @radd R (op A) (@rsqr R (op A) (fst (p A))) (@rsqr R (op A) (snd (p A)))) (fst x ^ 2 + snd x ^ 2)) by (eapply st_val; [exact (st_add _ _ _ _ (st_sqr _ _ H1) (st_sqr _ _ H2))|unfold rsqr; cbn; ring]).
  split; cbn [cinv fst snd]; apply (st_div _ _ _ (fst x ^ 2 + snd x ^ 2)); try assumption.
  now apply st_opp.
Qed.
Lemma cst_div p q x y : cst p x -> cst q y -> y <> RtoC 0 -> cst (fun A => @cdiv R (op A) (p A) (q A)) (@cdiv R ROps x y).
Proof. intros H1 H2 Hn. apply cst_mul; [exact H1|now apply cst_inv]. Qed.
Lemma cst_csqr p x : cst p x -> cst (fun A => @csqr R (op A) (p A)) (@csqr R ROps x). Proof. intros H. now apply cst_mul. Qed.
Lemma cst_exp p x : cst p x -> cst (fun A => @cexp R (op A) (p A)) (@cexp R ROps x).
Proof. intros [H1 H2]. split; cbn [cexp fst snd]; apply st_mul; [now apply st_exp|now apply st_cos|now apply st_exp|now apply st_sin]. Qed.
Lemma cst_sin p x : cst p x -> cst (fun A => @csin R (op A) (p A)) (@csin R ROps x).
Proof. intros [H1 H2]. split; cbn [csin fst snd]; apply st_mul; [now apply st_sin|now apply st_cosh|now apply st_cos|now apply st_sinh]. Qed.
Lemma cst_cos p x : cst p x -> cst (fun A => @ccos R (op A) (p A)) (@ccos R ROps x).
Proof. intros [H1 H2]. split; cbn [ccos fst snd]; [apply st_mul; [now apply st_cos|now apply st_cosh]|]. apply (st_opp (fun A => @rmul R (op A) (@rsin R (op A) (fst (p A))) (@rsinh R (op A) (snd (p A))))). apply st_mul; [now apply st_sin|now apply st_sinh]. Qed.
(* a sum of rounded squares is not negative *)
Lemma rel_pos u x y : u <= 1 -> rel u x y -> 0 <= y -> 0 <= x.
Proof. unfold rel. intros Hu H Hy. rewrite (Rabs_pos_eq y Hy) in H. assert (u * y <= 1 * y) by (apply Rmult_le_compat_r; lra). assert (K : Rabs (x - y) <= y) by lra. apply Rabs_le_between in K. lra. Qed.
Lemma norm_pos A (z : C) : precise 1 A -> 0 <= @radd R (op A) (@rsqr R (op A) (fst z)) (@rsqr R (op A) (snd z)).
Proof.
  intros P. assert (S : forall x, 0 <= @rsqr R (op A) x).
  { intros x. unfold rsqr. pose proof (pr_mul _ _ P x (@rone R (op A))) as M. rewrite (pr_one _ _ P), Rmult_1_r in M.
    destruct (Rle_lt_dec 0 x) as [L|L].
    - pose proof (rel_pos 1 _ _ (Rle_refl 1) M L) as M1. rewrite (pr_one _ _ P). eapply rel_pos; [apply Rle_refl|apply (pr_mul _ _ P)|]. now apply Rmult_le_pos.
    - assert (M1 : @rmul R (op A) x 1 <= 0). { unfold rel in M. rewrite (Rabs_left x L) in M. apply Rabs_le_between in M. lra. }
      rewrite (pr_one _ _ P). eapply rel_pos; [apply Rle_refl|apply (pr_mul _ _ P)|]. nra. }
  eapply rel_pos; [apply Rle_refl|apply (pr_add _ _ P)|]. pose proof (S (fst z)). pose proof (S (snd z)). lra.
Qed.
Lemma st_abs p x : cst p x -> settles (fun A => @cabs R (op A) (p A)) (Cmod x).
Proof.
  intros [H1 H2]. unfold cabs. change (Cmod x) with (sqrt (fst x ^ 2 + snd x ^ 2)). apply (st_sqrt (fun A => @radd R (op A) (@rsqr R (op A) (fst (p A))) (@rsqr R (op A) (snd (p A))))).
  - eapply ev_imp; [|exact ev_prec]. intros A P. now apply norm_pos.
  - eapply st_val; [exact (st_add _ _ _ _ (st_sqr _ _ H1) (st_sqr _ _ H2))|unfold rsqr; cbn; ring].
Qed.
Lemma cst_guard k p x : cst p x -> Cmod x <> @rtenth R ROps k -> cst (fun A => @guard R (op A) (@rtenth R (op A) k) (p A)) (@guard R ROps (@rtenth R ROps k) x).
Proof.
  intros H Hn. pose proof (st_abs p x H) as Ha. pose proof (st_tenth k) as Ht. unfold guard at 2. cbn [rltb ROps]. change (@cabs R ROps x) with (Cmod x). unfold Rltb. destruct (Rlt_dec (Cmod x) (@rtenth R ROps k)) as [L|L].
  - apply (cst_ev (fun A => @cadd R (op A) (p A) (@cofr R (op A) (@rtenth R (op A) k)))); [|apply cst_add; [exact H|now apply cst_ofr]].
    eapply ev_imp; [|exact (ev_and _ _ ev_prec (st_lt _ _ _ _ Ha Ht L))]. intros A [P K]. cbv beta in K. unfold guard. rewrite (pr_ltb _ _ P), (proj2 (Rltb_true _ _) K). reflexivity.
  - apply (cst_ev p); [|exact H]. assert (L' : @rtenth R ROps k < Cmod x) by lra.
    eapply ev_imp; [|exact (ev_and _ _ ev_prec (st_lt _ _ _ _ Ht Ha L'))]. intros A [P K]. cbv beta in K. unfold guard. rewrite (pr_ltb _ _ P), (proj2 (Rltb_false _ _)); [reflexivity|]. apply Rlt_le. exact K.
Qed.
