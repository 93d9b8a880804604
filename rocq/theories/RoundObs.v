(** Square roots, cross sections and angular intensities in rounded arithmetic (C97). *)
From Coq Require Import Reals ZArith Lra Lia List Bool Arith.
From Coquelicot Require Import Coquelicot.
From Verif Require Import Ops ROps Spec CTrig CLemmas ModelSpecial ModelMie ModelRound RoundSpec GradSpec GradOps GradPena GradStack GradObs StackConsequences RoundOps RoundPena.
Import ListNotations.
Open Scope R_scope.
Arguments Cmod x%C_scope.

Lemma off_cut_neq z : off_cut z -> z <> RtoC 0.
Proof. intros Ho E. rewrite E in Ho. destruct Ho as [Ho|Ho]; cbn in Ho; lra. Qed.
Lemma st_mod p x : cst p x -> settles (fun A => Cmod (p A)) (Cmod x).
Proof.
  intros [H1 H2]. apply (st_cont sqrt (fun A => fst (p A) ^ 2 + snd (p A) ^ 2)); [|apply continuous_sqrt].
  apply st_plus; [apply (st_cont (fun y => y ^ 2) _ _ H1)|apply (st_cont (fun y => y ^ 2) _ _ H2)]; apply (ex_derive_continuous (fun y : R => y ^ 2)); auto_derive; auto.
Qed.
(* the exact square root of a quantity that settles *)
Lemma cst_csqrt p x : cst p x -> off_cut x -> cst (fun A => @csqrt R ROps (p A)) (@csqrt R ROps x).
Proof.
  intros H Ho. pose proof (off_cut_pos _ Ho) as Hp. pose proof H as [H1 H2]. pose proof (st_plus _ _ _ _ (st_mod p x H) H1) as Hs.
  assert (Ha : settles (fun A => sqrt ((Cmod (p A) + fst (p A)) / (1 + 1))) (sqrt ((Cmod x + fst x) / (1 + 1)))).
  { apply (st_cont sqrt); [|apply continuous_sqrt]. apply st_mult; [exact Hs|apply st_const]. }
  assert (Ha0 : 0 < sqrt ((Cmod x + fst x) / (1 + 1))) by (apply sqrt_lt_R0; lra).
  rewrite (csqrt_alt x Hp).
  apply (cst_ev (fun A => (sqrt ((Cmod (p A) + fst (p A)) / (1 + 1)), snd (p A) / ((1 + 1) * sqrt ((Cmod (p A) + fst (p A)) / (1 + 1)))))).
  - eapply ev_imp; [|exact (st_lt _ _ _ _ (st_const 0) Hs Hp)]. intros A K. cbv beta in K. symmetry. now apply csqrt_alt.
  - split; cbn [fst snd]; [exact Ha|]. apply st_mult; [exact H2|]. apply st_inv; [|nra]. apply st_mult; [apply st_const|exact Ha].
Qed.
(* ... and the rounded one *)
Lemma cst_root p x : cst p x -> off_cut x -> cst (fun A => ar_root A (p A)) (@csqrt R ROps x).
Proof.
  intros H Ho. pose proof (proj1 (cst_iff _ _) (cst_csqrt p x H Ho)) as Hq. apply cst_iff. intros e He.
  set (l := Cmod (@csqrt R ROps x)). pose proof (Cmod_ge_0 (@csqrt R ROps x)) as L0. fold l in L0.
  set (m := Rmin (e / 2) 1). assert (Hm : 0 < m) by (apply Rmin_glb_lt; lra). pose proof (Rmin_l (e / 2) 1) as M1. pose proof (Rmin_r (e / 2) 1) as M2. fold m in M1, M2.
  destruct (Hq m Hm) as (u & Hu & K). set (v := e / (2 * (l + 2))). assert (Hv : 0 < v) by (unfold v; apply Rdiv_lt_0_compat; lra).
  exists (Rmin u v). split; [now apply Rmin_glb_lt|]. intros A HA. pose proof (K A (precise_mono _ _ _ (Rmin_l u v) HA)) as K1. pose proof (pr_root _ _ (precise_mono _ _ _ (Rmin_r u v) HA) (p A)) as Q. cbv beta in K1.
  set (s := @csqrt R ROps (p A)) in *. set (s0 := @csqrt R ROps x) in *.
  assert (S1 : Cmod s < l + 2). { replace s with (s0 + (s - s0))%C by (apply CLemmas.C_eq; cbn; ring). pose proof (Cmod_triangle s0 (s - s0)%C). fold l in H0. lra. }
  assert (S2 : v * Cmod s < e / 2). { replace (e / 2) with (v * (l + 2)) by (unfold v; field; lra). apply Rmult_lt_compat_l; lra. }
  replace (ar_root A (p A) - s0)%C with ((ar_root A (p A) - s) + (s - s0))%C by (apply CLemmas.C_eq; cbn; ring). pose proof (Cmod_triangle (ar_root A (p A) - s)%C (s - s0)%C). lra.
Qed.
Lemma st_abs2 p x : cst p x -> settles (fun A => @rsqr R (op A) (@cabs R (op A) (p A))) (@rsqr R ROps (Cmod x)).
Proof. intros H. apply st_sqr. now apply st_abs. Qed.
Definition sst (q : arithmetic -> R * C) (s : R * C) : Prop := settles (fun A => fst (q A)) (fst s) /\ cst (fun A => snd (q A)) (snd s).
Lemma lst_layer_of k k0 q env p re : settles k k0 -> cst q env -> sst p re -> off_cut env -> off_cut (snd re) ->
  lst (fun A => round_layer A (k A) (q A) (p A)) (@layer_of R ROps k0 env re).
Proof.
  intros Hk He [H1 H2] Oe Or. pose proof (cst_root _ _ He Oe) as Hn. pose proof (cst_root _ _ H2 Or) as Hr. split; cbn [round_layer layer_of fst snd].
  - apply cst_div; [exact Hr|exact Hn|]. apply csqrt_neq0. now apply off_cut_neq.
  - apply cst_mul; [|now apply cst_ofr]. apply cst_mul; [now apply cst_ofr|exact Hn].
Qed.
(** ** observables *)
Lemma cst_csum (l : list nat) (F : arithmetic -> nat -> C) (G : nat -> C) : (forall n, In n l -> cst (fun A => F A n) (G n)) ->
  cst (fun A => @csum R (op A) (map (F A) l)) (@csum R ROps (map G l)).
Proof.
  intros H. unfold csum. assert (X : forall acc z, cst acc z -> cst (fun A => fold_left (@cadd R (op A)) (map (F A) l) (acc A)) (fold_left (@cadd R ROps) (map G l) z)).
  { induction l as [|n l IH]; intros acc z Ha; [exact Ha|]. cbn [map fold_left].
    apply (IH (fun m Hm => H m (or_intror Hm)) (fun A => @cadd R (op A) (acc A) (F A n))). apply cst_add; [exact Ha|]. apply H. now left. }
  apply (X (fun A => @czero R (op A))). apply cst_zero.
Qed.
Section XS.
  Variables (n_max : nat) (k : arithmetic -> C) (r : arithmetic -> R) (a b : arithmetic -> nat -> C).
  Variables (zk : C) (zr : R) (za zb : nat -> C).
  Hypothesis Hk : cst k zk.
  Hypothesis Hk0 : zk <> RtoC 0.
  Hypothesis Hr : settles r zr.
  Hypothesis Hr0 : zr <> 0.
  Hypothesis Ha : forall n, (1 <= n <= n_max)%nat -> cst (fun A => a A n) (za n).
  Hypothesis Hb : forall n, (1 <= n <= n_max)%nat -> cst (fun A => b A n) (zb n).
  Lemma cst_coef ty n : (1 <= n <= n_max)%nat -> cst (fun A => @coef R (a A) (b A) ty n) (@coef R za zb ty n).
  Proof. intros Hn. unfold coef. destruct ty; auto. Qed.
  Lemma cst_pref : cst (fun A => @prefactor R (op A) (k A)) (@prefactor R ROps zk).
  Proof.
    unfold prefactor. apply cst_div.
    - apply cst_ofr. apply (st_mul _ _ (@rtwo R ROps) PI); [apply st_two|apply st_pi].
    - now apply cst_csqr.
    - intros E. apply Hk0. destruct (Ceq_dec zk (RtoC 0)) as [Z|Z]; [exact Z|]. exfalso. exact (Cmult_neq_0 _ _ Z Z E).
  Qed.
  Lemma cst_w n : cst (fun A => @cmul R (op A) (@prefactor R (op A) (k A)) (@cofr R (op A) (@rofn R (op A) (2 * n + 1)))) (@cmul R ROps (@prefactor R ROps zk) (@cofr R ROps (@rofn R ROps (2 * n + 1)))).
  Proof. apply cst_mul; [apply cst_pref|]. apply cst_ofr. apply st_ofn. Qed.
  Lemma cst_ext_mp ty n : (1 <= n <= n_max)%nat -> cst (fun A => @cs_ext_mp R (op A) (k A) (a A) (b A) ty n) (@cs_ext_mp R ROps zk za zb ty n).
  Proof. intros Hn. unfold cs_ext_mp. apply cst_mul; [apply cst_w|]. apply cst_ofr. exact (proj1 (cst_coef ty n Hn)). Qed.
  Lemma cst_sca_mp ty n : (1 <= n <= n_max)%nat -> cst (fun A => @cs_sca_mp R (op A) (k A) (a A) (b A) ty n) (@cs_sca_mp R ROps zk za zb ty n).
  Proof. intros Hn. unfold cs_sca_mp. apply cst_mul; [apply cst_w|]. apply cst_ofr. exact (st_abs2 _ _ (cst_coef ty n Hn)). Qed.
  Lemma cst_abs_mp ty n : (1 <= n <= n_max)%nat -> cst (fun A => @cs_abs_mp R (op A) (k A) (a A) (b A) ty n) (@cs_abs_mp R ROps zk za zb ty n).
  Proof. intros Hn. unfold cs_abs_mp. apply cst_sub; [now apply cst_ext_mp|now apply cst_sca_mp]. Qed.
  Lemma st_sum01 (F : arithmetic -> bool -> nat -> C) (G : bool -> nat -> C) : (forall ty n, (1 <= n <= n_max)%nat -> cst (fun A => F A ty n) (G ty n)) ->
    settles (fun A => @sum01 R (op A) n_max (F A)) (@sum01 R ROps n_max G).
  Proof.
    intros H. unfold sum01.
    assert (S : forall ty, cst (fun A => @csum R (op A) (map (F A ty) (orders n_max))) (@csum R ROps (map (G ty) (orders n_max)))).
    { intros ty. apply cst_csum. intros n Hn. apply in_seq in Hn. apply H. lia. }
    unfold types, csum at 1 3. cbn [map fold_left].
    exact (proj1 (cst_add _ _ _ _ (cst_add _ _ _ _ cst_zero (S false)) (S true))).
  Qed.
  Lemma st_geo : settles (fun A => @cs_geo R (op A) (r A)) (@cs_geo R ROps zr).
  Proof. unfold cs_geo. apply (st_mul _ _ PI (@rsqr R ROps zr)); [apply st_pi|now apply st_sqr]. Qed.
  Lemma geo_pos : @cs_geo R ROps zr <> 0.
  Proof. unfold cs_geo, rsqr. cbn. pose proof PI_RGT_0. rewrite Rmult_1_r. apply Rmult_integral_contrapositive_currified; [lra|]. now apply Rmult_integral_contrapositive_currified. Qed.
  Lemma st_q : settles (fun A => @q_ext R (op A) n_max (k A) (r A) (a A) (b A)) (@q_ext R ROps n_max zk zr za zb) /\
    settles (fun A => @q_sca R (op A) n_max (k A) (r A) (a A) (b A)) (@q_sca R ROps n_max zk zr za zb) /\
    settles (fun A => @q_abs R (op A) n_max (k A) (r A) (a A) (b A)) (@q_abs R ROps n_max zk zr za zb).
  Proof.
    unfold q_ext, q_sca, q_abs, cs_ext, cs_sca, cs_abs. split; [|split]; (apply st_div; [apply st_sum01; intros ty n Hn|apply st_geo|apply geo_pos]).
    - now apply cst_ext_mp. - now apply cst_sca_mp. - now apply cst_abs_mp.
  Qed.
End XS.
Section Ang.
  Variables (n_max : nat) (a b : arithmetic -> nat -> C) (th : arithmetic -> R).
  Variables (za zb : nat -> C) (zth : R).
  Hypothesis Hth : settles th zth.
  Hypothesis Ha : forall n, (1 <= n <= n_max)%nat -> cst (fun A => a A n) (za n).
  Hypothesis Hb : forall n, (1 <= n <= n_max)%nat -> cst (fun A => b A n) (zb n).
  Lemma st_mu : settles (fun A => @mu R (op A) (th A)) (@mu R ROps zth). Proof. now apply st_cos. Qed.
  Lemma ofn_neq n : (1 <= n)%nat -> @rofn R ROps n <> 0. Proof. intros Hn. rewrite rofn_R. apply not_0_INR. lia. Qed.
  Lemma st_pi_pair x zx n : settles x zx -> settles (fun A => fst (@pi_pair R (op A) (x A) n)) (fst (@pi_pair R ROps zx n)) /\
    settles (fun A => snd (@pi_pair R (op A) (x A) n)) (snd (@pi_pair R ROps zx n)).
  Proof.
    intros Hx. induction n as [|n [I1 I2]]; [split; [apply st_zero|apply st_one]|].
    rewrite pi_pair_S. cbn [fst snd]. split; (eapply st_ext; [intros A; rewrite pi_pair_S; reflexivity|]); cbn [fst snd]; [exact I2|].
    apply (st_div _ _ (@rsub R ROps (rmul (rmul (rofn (2 * S n + 1)) zx) (snd (pi_pair zx n))) (rmul (rofn (S n + 1)) (fst (pi_pair zx n)))) (rofn (S n))).
    - apply st_sub; apply st_mul; try assumption; [|apply st_ofn]. apply st_mul; [apply st_ofn|exact Hx].
    - apply st_ofn.
    - apply ofn_neq. lia.
  Qed.
  Lemma st_tau x zx n : settles x zx -> settles (fun A => @tau_n R (op A) (x A) n) (@tau_n R ROps zx n).
  Proof.
    intros Hx. destruct n as [|n]; [apply st_zero|]. unfold tau_n. apply st_sub.
    - apply st_mul; [|apply (st_pi_pair x zx (S n) Hx)]. apply st_mul; [apply st_ofn|exact Hx].
    - apply st_mul; [apply st_ofn|apply (st_pi_pair x zx n Hx)].
  Qed.
  Lemma cst_angw n : (1 <= n)%nat -> cst (fun A => @ang_w R (op A) n) (@ang_w R ROps n).
  Proof. intros Hn. apply cst_ofr. apply st_div; try apply st_ofn. apply ofn_neq. nia. Qed.
  Lemma cst_S : cst (fun A => @S1 R (op A) n_max (a A) (b A) (th A)) (@S1 R ROps n_max za zb zth) /\
    cst (fun A => @S2 R (op A) n_max (a A) (b A) (th A)) (@S2 R ROps n_max za zb zth).
  Proof.
    split; apply cst_csum; intros n Hn; apply in_seq in Hn; (apply cst_mul; [apply cst_angw; lia|]);
      apply cst_add; (apply cst_mul; [(apply Ha || apply Hb); lia|]); apply cst_ofr;
      first [apply (proj1 (st_pi_pair _ _ n st_mu)) | apply (st_tau _ _ n st_mu)].
  Qed.
  Lemma st_int : settles (fun A => @i_per R (op A) n_max (a A) (b A) (th A)) (@i_per R ROps n_max za zb zth) /\
    settles (fun A => @i_par R (op A) n_max (a A) (b A) (th A)) (@i_par R ROps n_max za zb zth) /\
    settles (fun A => @i_unpol R (op A) n_max (a A) (b A) (th A)) (@i_unpol R ROps n_max za zb zth).
  Proof.
    destruct cst_S as [H1 H2]. pose proof (st_abs2 _ _ H1) as A1. pose proof (st_abs2 _ _ H2) as A2.
    split; [exact A1|split; [exact A2|]]. unfold i_unpol. assert (T : @rtwo R ROps <> 0) by (unfold rtwo; cbn; lra). exact (st_div _ _ _ _ (st_add _ _ _ _ A2 A1) st_two T).
  Qed.
End Ang.
(** ** the whole pipeline *)
Lemma shell_sst q s : settles_shell q s -> sst q s. Proof. intros [H1 H2]. split; [exact H1|now apply cst_iff]. Qed.
Lemma lst_shells k k0 q env : settles k k0 -> cst q env -> off_cut env -> forall qs ss, Forall2 settles_shell qs ss -> List.Forall (fun s => off_cut (snd s)) ss ->
  Forall2 lst (map (fun (p : arithmetic -> R * C) A => round_layer A (k A) (q A) (p A)) qs) (map (@layer_of R ROps k0 env) ss).
Proof.
  intros Hk He Oe qs ss H. induction H as [|p s qs ss H1 _ IH]; intros Os; cbn [map]; constructor; inversion Os as [|? ? O1 O2]; subst; [|exact (IH O2)].
  apply lst_layer_of; try assumption. now apply shell_sst.
Qed.
Section End.
  Variables (n_max : nat) (k0 : R) (env : C) (core : R * C) (shells : list (R * C)).
  Variables (qk : arithmetic -> R) (qenv : arithmetic -> C) (qcore : arithmetic -> R * C) (qshells : list (arithmetic -> R * C)).
  Hypothesis Hk : settles qk k0.
  Hypothesis He : csettles qenv env.
  Hypothesis Hc : settles_shell qcore core.
  Hypothesis Hs : Forall2 settles_shell qshells shells.
  Hypothesis Hsm : smooth_particle n_max k0 env core shells.
  Let qab A n := round_pena A n_max 15 (qk A) (qenv A) (qcore A) (map (fun s => s A) qshells) n.
  Let ab n := @mie_pena R ROps n_max k0 env core shells n.
  Lemma r_coefficients' n : (1 <= n <= n_max)%nat -> lst (fun A => qab A n) (ab n).
  Proof.
    intros Hn. destruct Hsm as (Oe & Oc & Os & Ss). specialize (Ss n Hn). pose proof (proj2 (cst_iff _ _) He) as He'.
    assert (HF : Forall2 lst (map (fun q A => round_layer A (qk A) (qenv A) (q A)) qshells) (map (@layer_of R ROps k0 env) shells)).
    { exact (lst_shells _ _ _ _ Hk He' Oe _ _ Hs Os). }
    destruct (lst_ab n_max 15 (fun A => round_layer A (qk A) (qenv A) (qcore A)) _ _ _ n (proj1 Hn) (lst_layer_of _ _ _ _ _ _ Hk He' (shell_sst _ _ Hc) Oe Oc) HF Ss) as [X Y].
    split; (eapply cst_ext; [|eassumption]); intros A; cbv beta; unfold qab, round_pena; rewrite !map_map; reflexivity.
  Qed.
  Lemma r_coefficients n : (1 <= n <= n_max)%nat -> csettles (fun A => fst (qab A n)) (fst (ab n)) /\ csettles (fun A => snd (qab A n)) (snd (ab n)).
  Proof. intros Hn. destruct (r_coefficients' n Hn). split; now apply cst_iff. Qed.
  Let qr A := fst (last (map (fun s => s A) qshells) (qcore A)).
  Let r := fst (last shells core).
  Let k := @cmul R ROps (cofr k0) (csqrt env).
  Lemma r_radius : settles qr r.
  Proof.
    apply (st_ext (fun A => fst (last qshells qcore A))).
    - intros A. unfold qr. rewrite (last_map (fun s => s A) qshells qcore). reflexivity.
    - assert (H : settles_shell (last qshells qcore) (last shells core)); [|exact (proj1 H)].
      clear -Hs Hc. induction Hs as [|x y l l' Hx HF IH]; [exact Hc|]. destruct HF as [|a b l l' Ha HF]; [exact Hx|apply IH; constructor; assumption].
  Qed.
  Lemma r_efficiencies : k0 <> 0 -> r <> 0 ->
    let a n := fst (ab n) in let b n := snd (ab n) in let a' A n := fst (qab A n) in let b' A n := snd (qab A n) in let k' A := round_k A (qk A) (qenv A) in
    settles (fun A => @q_ext R (ar_ops A) n_max (k' A) (qr A) (a' A) (b' A)) (@q_ext R ROps n_max k r a b) /\
    settles (fun A => @q_sca R (ar_ops A) n_max (k' A) (qr A) (a' A) (b' A)) (@q_sca R ROps n_max k r a b) /\
    settles (fun A => @q_abs R (ar_ops A) n_max (k' A) (qr A) (a' A) (b' A)) (@q_abs R ROps n_max k r a b).
  Proof.
    intros Hk0 Hr0. cbv zeta. destruct Hsm as (Oe & _). apply st_q.
    - apply cst_mul; [now apply cst_ofr|apply cst_root; [now apply cst_iff|exact Oe]].
    - unfold k. toC. apply Cmult_neq_0; [now apply RtoC_neq|]. apply csqrt_neq0. now apply off_cut_neq.
    - exact r_radius.
    - exact Hr0.
    - intros n Hn. exact (proj1 (r_coefficients' n Hn)).
    - intros n Hn. exact (proj2 (r_coefficients' n Hn)).
  Qed.
  Lemma r_intensities qth th : settles qth th ->
    let a n := fst (ab n) in let b n := snd (ab n) in let a' A n := fst (qab A n) in let b' A n := snd (qab A n) in
    settles (fun A => @i_per R (ar_ops A) n_max (a' A) (b' A) (qth A)) (@i_per R ROps n_max a b th) /\
    settles (fun A => @i_par R (ar_ops A) n_max (a' A) (b' A) (qth A)) (@i_par R ROps n_max a b th) /\
    settles (fun A => @i_unpol R (ar_ops A) n_max (a' A) (b' A) (qth A)) (@i_unpol R ROps n_max a b th).
  Proof.
    intros Ht. cbv zeta. apply st_int; [exact Ht| |].
    - intros n Hn. exact (proj1 (r_coefficients' n Hn)).
    - intros n Hn. exact (proj2 (r_coefficients' n Hn)).
  Qed.
End End.
