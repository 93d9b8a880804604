From Coq Require Import Reals List Bool Arith Lia Lra.
From Coquelicot Require Import Complex.
From Verif Require Import Ops ROps Tensor ModelMaterial ModelSpecial ModelMie ModelBatch ModelTg TgSpec TgCombine ModelSolve SolveSpec SolveProofs.
Import ListNotations.
Open Scope nat_scope.
Open Scope list_scope.

Lemma columns_ok (f0 : tensor C) L P : 0 < L -> shp f0 = [L; P; 6] ->
  columns f0 = Ok (map (fun i => map (fun t => at_ f0 [i; t / 6; t mod 6]) (seq 0 (P * 6))) (seq 0 L)).
Proof. intros HL Hs. unfold columns. change (@shp (cplx R) f0) with (@shp C f0). rewrite Hs. destruct (Nat.eqb_spec L 0); [lia|reflexivity]. Qed.
Lemma columns_none (f0 : tensor C) P : shp f0 = [0; P; 6] -> columns f0 = Err RuntimeError.
Proof. intros Hs. unfold columns. change (@shp (cplx R) f0) with (@shp C f0). now rewrite Hs. Qed.

Lemma solve_all_total (lu : sqm -> list C -> result (list C)) (A : sqm) bs n : (forall b, In b bs -> List.length b = sq_n A) ->
  (forall b, List.length b = sq_n A -> exists x, lu A b = Ok x /\ List.length x = n) ->
  exists xs, @solve_all R lu A bs = Ok xs /\ (forall x, In x xs -> List.length x = n) /\ List.length xs = List.length bs.
Proof.
  intros Hb Hlu. induction bs as [|b l IH]; [exists []; repeat split; intros x []|]. cbn [solve_all].
  rewrite (proj2 (Nat.eqb_eq _ _) (Hb b (or_introl eq_refl))). destruct (Hlu b (Hb b (or_introl eq_refl))) as (x & Ex & Lx). rewrite Ex. cbn [bind].
  destruct IH as (xs & E & H1 & H2); [intros; apply Hb; now right|]. rewrite E. cbn [bind]. exists (x :: xs). split; [reflexivity|]. split; [|cbn; lia].
  intros y [<-|Hy]; [exact Lx|now apply H1].
Qed.

Section Run.
  Variables (lu : sqm -> list C -> result (list C)) (alphas selfs : list sqm) (G : sqm) (pol : list bool) (L : nat) (f0 : tensor C).
  Hypothesis Hs : sizes selfs = sizes alphas.
  Hypothesis HG : sq_n G = total alphas.
  Hypothesis Hf : shp f0 = [L; count_occ bool_dec pol true; 6].
  Let P := count_occ bool_dec pol true.
  Let bs := map (fun i => map (fun t => at_ f0 [i; t / 6; t mod 6]) (seq 0 (P * 6))) (seq 0 L).

  Lemma bs_length : List.length bs = L. Proof. unfold bs. now rewrite map_length, seq_length. Qed.
  Lemma bs_nth l : l < L -> nth l bs [] = map (fun t => at_ f0 [l; t / 6; t mod 6]) (seq 0 (P * 6)).
  Proof.
    intros Hl. unfold bs. rewrite nth_indep with (d' := (fun i => map (fun t => at_ f0 [i; t / 6; t mod 6]) (seq 0 (P * 6))) 0) by (now rewrite map_length, seq_length).
    rewrite (map_nth (fun i => map (fun t => at_ f0 [i; t / 6; t mod 6]) (seq 0 (P * 6)))). now rewrite seq_nth.
  Qed.
  Lemma bs_entry l t : l < L -> t < P * 6 -> nth t (nth l bs []) (RtoC 0) = at_ f0 [l; t / 6; t mod 6].
  Proof.
    intros Hl Ht. rewrite bs_nth by exact Hl. rewrite nth_indep with (d' := (fun t => at_ f0 [l; t / 6; t mod 6]) 0) by (now rewrite map_length, seq_length).
    rewrite (map_nth (fun t => at_ f0 [l; t / 6; t mod 6])). now rewrite seq_nth.
  Qed.
  Lemma bs_width l : l < L -> List.length (nth l bs []) = P * 6.
  Proof. intros Hl. rewrite bs_nth by exact Hl. now rewrite map_length, seq_length. Qed.

  Lemma entries xs full l p c : (forall x, In x xs -> List.length x = P * 6) -> List.length xs = L ->
    @zero_fill R ROps (L * List.length pol * 6) (full_mask L pol) (List.concat xs) = Ok full -> l < L -> p < List.length pol -> c < 6 ->
    nth ((l * List.length pol + p) * 6 + c) full (RtoC 0) = if nth p pol false then nth (6 * rank pol p + c) (nth l xs []) (RtoC 0) else RtoC 0.
  Proof.
    intros Hx Hl Hz H1 H2 H3.
    destruct (zero_fill_ok (L * List.length pol * 6) (full_mask L pol) (List.concat xs)) as (r & E & Lr & Hr).
    { rewrite full_length. lia. }
    { etransitivity; [|apply Nat.eq_le_incl; symmetry; exact (concat_length xs (P * 6) Hx)]. rewrite full_cnt, Hl. fold P. nia. }
    rewrite Hz in E. injection E as <-. rewrite Hr by nia.
    replace ((l * List.length pol + p) * 6 + c) with (l * (6 * List.length pol) + (6 * p + c)) by lia.
    rewrite full_nth, full_rank by lia. rewrite components_nth, components_rank by lia. fold P. destruct (nth p pol false) eqn:Ep; [|reflexivity].
    assert (rank pol p < P). { unfold P. clear -Ep H2. revert p H2 Ep. induction pol as [|b m IH]; intros [|p] H2 Ep; cbn [List.length nth rank] in *; try lia.
      - subst b. cbn. lia.
      - specialize (IH p ltac:(lia) Ep). destruct b; cbn; lia. }
    replace (l * (6 * P) + (6 * rank pol p + c)) with (l * (P * 6) + (6 * rank pol p + c)) by lia. apply nth_concat; [exact Hx|]. lia.
  Qed.

  Lemma run_ok e h : exact_solver lu -> @solve_fields R ROps lu alphas selfs G (List.length pol) (full_mask L pol) f0 = Ok (e, h) ->
    total alphas = P * 6 /\ shp e = [L; List.length pol; 3] /\ shp h = [L; List.length pol; 3] /\
    forall l, l < L -> exists x, self_consistent alphas selfs G (fun t => at_ f0 [l; t / 6; t mod 6]) x /\
      forall p c, p < List.length pol -> c < 3 ->
        at_ e [l; p; c] = (if nth p pol false then x (6 * rank pol p + c)%nat else RtoC 0) /\
        at_ h [l; p; c] = (if nth p pol false then x (6 * rank pol p + (3 + c))%nat else RtoC 0).
  Proof.
    intros Hlu. unfold solve_fields. destruct (gda_ok alphas selfs G Hs HG) as (M & EM & HN & _). rewrite EM. cbn [bind].
    destruct (Nat.eq_dec L 0) as [->|HL]; [rewrite (columns_none f0 _ Hf); discriminate|].
    rewrite (columns_ok f0 L P ltac:(lia) Hf). cbn [bind]. fold bs.
    destruct (solve_all lu (one_minus M) bs) as [xs|] eqn:ES; [|discriminate]. cbn [bind]. change (@List.length (list (cplx R)) bs) with (@List.length (list C) bs). rewrite bs_length.
    destruct (zero_fill (L * List.length pol * 6) (full_mask L pol) (List.concat xs)) as [full|] eqn:EZ; [|discriminate]. cbn [bind].
    intros [= <- <-]. destruct (solve_all_ok lu _ bs xs ES) as [Lx Hx]. change (@List.length (list (cplx R)) bs) with (@List.length (list C) bs) in Lx, Hx. rewrite bs_length in Lx, Hx.
    assert (HW : total alphas = P * 6). { destruct (Hx 0 ltac:(lia)) as [_ W]. rewrite bs_width in W by lia. cbn [one_minus sq_n] in W. lia. }
    split; [exact HW|]. split; [reflexivity|]. split; [reflexivity|].
    assert (HX : forall x, In x xs -> List.length x = P * 6).
    { intros x Hin. destruct (In_nth xs x [] Hin) as (l & Hl & <-). destruct (Hx l ltac:(lia)) as [E _]. destruct (Hlu _ _ _ E) as [E1 _]. etransitivity; [exact E1|]. cbn [one_minus sq_n]. lia. }
    intros l Hl. exists (fun t => nth t (nth l xs []) (RtoC 0)). split.
    - apply (system alphas selfs G M); try assumption. intros i Hi. destruct (Hx l Hl) as [E _]. destruct (Hlu _ _ _ E) as [_ E2].
      rewrite <- (bs_entry l i Hl ltac:(lia)). rewrite <- E2 by (cbn [one_minus sq_n]; lia). cbn [one_minus sq_n]. now rewrite HN.
    - intros p c Hp Hc. cbn [at_ nth]. split; apply (entries xs full l p); assumption || lia.
  Qed.
  Lemma run_answers : 0 < L -> total alphas = P * 6 -> (forall A b, sq_n A = total alphas -> List.length b = total alphas -> exists x, lu A b = Ok x /\ List.length x = total alphas) ->
    exists eh, @solve_fields R ROps lu alphas selfs G (List.length pol) (full_mask L pol) f0 = Ok eh.
  Proof.
    intros HL HW Hlu. unfold solve_fields. destruct (gda_ok alphas selfs G Hs HG) as (M & EM & HN & _). rewrite EM. cbn [bind].
    rewrite (columns_ok f0 L P HL Hf). cbn [bind]. fold bs. change (@List.length (list (cplx R)) bs) with (@List.length (list C) bs). rewrite bs_length.
    assert (Hb : forall b, In b bs -> List.length b = total alphas). { intros b Hin. destruct (In_nth bs b [] Hin) as (l & Hl & <-). rewrite bs_length in Hl. rewrite bs_width by exact Hl. lia. }
    assert (HS : exists xs, solve_all lu (one_minus M) bs = Ok xs /\ (forall x, In x xs -> List.length x = P * 6) /\ List.length xs = List.length bs).
    { apply (solve_all_total lu (one_minus M) bs (P * 6)).
      - intros b Hin. cbn [one_minus sq_n]. rewrite HN. now apply Hb.
      - intros b Hlen. cbn [one_minus sq_n] in Hlen. destruct (Hlu (one_minus M) b HN) as (x & Ex & Lx); [etransitivity; [exact Hlen|exact HN]|]. exists x. split; [exact Ex|]. etransitivity; [exact Lx|exact HW]. }
    destruct HS as (xs & ES & HX & Lx). rewrite ES. cbn [bind]. rewrite bs_length in Lx.
    destruct (zero_fill_ok (L * List.length pol * 6) (full_mask L pol) (List.concat xs)) as (r & E & _).
    { rewrite full_length. lia. }
    { etransitivity; [|apply Nat.eq_le_incl; symmetry; exact (concat_length xs (P * 6) HX)]. rewrite full_cnt, Lx. fold P. nia. }
    rewrite E. cbn [bind]. eexists. reflexivity.
  Qed.
  Lemma run_none : L = 0 -> @solve_fields R ROps lu alphas selfs G (List.length pol) (full_mask L pol) f0 = Err RuntimeError.
  Proof.
    intros HL. unfold solve_fields. destruct (gda_ok alphas selfs G Hs HG) as (M & EM & HN & _). rewrite EM. cbn [bind].
    rewrite HL in Hf. now rewrite (columns_none f0 _ Hf).
  Qed.
  Lemma run_size : total alphas <> P * 6 -> @solve_fields R ROps lu alphas selfs G (List.length pol) (full_mask L pol) f0 = Err RuntimeError.
  Proof.
    intros HW. destruct (Nat.eq_dec L 0) as [HL|HL]; [now apply run_none|].
    unfold solve_fields. destruct (gda_ok alphas selfs G Hs HG) as (M & EM & HN & _). rewrite EM. cbn [bind].
    rewrite (columns_ok f0 L P ltac:(lia) Hf). cbn [bind]. fold bs.
    pose proof bs_length as HB. pose proof (bs_width 0 ltac:(lia)) as H0. destruct bs as [|b l]; [cbn in HB; lia|]. cbn [nth] in H0. cbn [solve_all one_minus sq_n].
    change (@List.length (cplx R) b) with (@List.length C b). destruct (Nat.eqb_spec (@List.length C b) (sq_n M)); [lia|]. reflexivity.
  Qed.
End Run.

(** ** uniqueness and superposition *)
Lemma moments_lin alphas x y k j t : moments alphas (fun s => (x s + k * y s)%C) j t = (moments alphas x j t + k * moments alphas y j t)%C.
Proof. unfold moments. rewrite <- sumC_scal, <- sumC_add. apply sumC_ext. intros; ring. Qed.
Lemma radiated_lin alphas selfs G x y k i r : radiated alphas selfs G (fun s => (x s + k * y s)%C) i r = (radiated alphas selfs G x i r + k * radiated alphas selfs G y i r)%C.
Proof.
  unfold radiated. rewrite <- sumC_scal, <- sumC_add. apply sumC_ext. intros j Hj. rewrite <- sumC_scal, <- sumC_add. apply sumC_ext. intros t Ht. rewrite moments_lin. ring.
Qed.
Lemma consistent_lin alphas selfs G f g x y k : self_consistent alphas selfs G f x -> self_consistent alphas selfs G g y ->
  self_consistent alphas selfs G (fun t => (f t + k * g t)%C) (fun t => (x t + k * y t)%C).
Proof. intros H1 H2 i r Hi Hr. rewrite radiated_lin, (H1 i r Hi Hr), (H2 i r Hi Hr). ring. Qed.
Lemma consistent_unique alphas selfs G f g x y : no_free_mode alphas selfs G -> (forall t, t < total alphas -> f t = g t) ->
  self_consistent alphas selfs G f x -> self_consistent alphas selfs G g y -> forall t, t < total alphas -> x t = y t.
Proof.
  intros Hn Hfg Hx Hy t Ht.
  assert (H : self_consistent alphas selfs G (fun _ => RtoC 0) (fun t => (x t + - RtoC 1 * y t)%C)).
  { intros i r Hi Hr. pose proof (consistent_lin alphas selfs G f g x y (- RtoC 1)%C Hx Hy i r Hi Hr) as E. cbv beta in E. rewrite E.
    rewrite (Hfg (offset alphas i + r)) by (pose proof (offset_fits alphas i Hi); lia). ring. }
  pose proof (Hn _ H t Ht) as E. cbv beta in E. replace (x t) with ((x t + - RtoC 1 * y t) + y t)%C by ring. rewrite E. ring.
Qed.

Lemma rank_below pol p : nth p pol false = true -> rank pol p < count_occ bool_dec pol true.
Proof.
  revert p. induction pol as [|b m IH]; intros [|p] Ep; cbn [nth rank] in *; try discriminate.
  - subst b. cbn. lia.
  - specialize (IH p Ep). destruct b; cbn; lia.
Qed.
Lemma superposed lu alphas selfs G pol L f1 f2 f3 k e1 h1 e2 h2 e3 h3 : exact_solver lu -> sizes selfs = sizes alphas -> sq_n G = total alphas -> no_free_mode alphas selfs G ->
  shp f1 = [L; count_occ bool_dec pol true; 6] -> shp f2 = [L; count_occ bool_dec pol true; 6] -> shp f3 = [L; count_occ bool_dec pol true; 6] ->
  (forall l q c, l < L -> q < count_occ bool_dec pol true -> c < 6 -> at_ f3 [l; q; c] = (at_ f1 [l; q; c] + k * at_ f2 [l; q; c])%C) ->
  let solve f := @solve_fields R ROps lu alphas selfs G (List.length pol) (full_mask L pol) f in
  solve f1 = Ok (e1, h1) -> solve f2 = Ok (e2, h2) -> solve f3 = Ok (e3, h3) ->
  forall l p c, l < L -> p < List.length pol -> c < 3 ->
    at_ e3 [l; p; c] = (at_ e1 [l; p; c] + k * at_ e2 [l; p; c])%C /\ at_ h3 [l; p; c] = (at_ h1 [l; p; c] + k * at_ h2 [l; p; c])%C.
Proof.
  cbv zeta. intros Hlu Hs HG Hn S1 S2 S3 Hf R1 R2 R3 l p c Hl Hp Hc.
  destruct (run_ok lu alphas selfs G pol L f1 Hs HG S1 e1 h1 Hlu R1) as (HW & _ & _ & X1).
  destruct (run_ok lu alphas selfs G pol L f2 Hs HG S2 e2 h2 Hlu R2) as (_ & _ & _ & X2).
  destruct (run_ok lu alphas selfs G pol L f3 Hs HG S3 e3 h3 Hlu R3) as (_ & _ & _ & X3).
  destruct (X1 l Hl) as (x1 & C1 & V1), (X2 l Hl) as (x2 & C2 & V2), (X3 l Hl) as (x3 & C3 & V3). clear X1 X2 X3.
  assert (E : forall t, t < total alphas -> x3 t = (x1 t + k * x2 t)%C).
  { apply (consistent_unique alphas selfs G _ _ x3 (fun t => (x1 t + k * x2 t)%C) Hn) with (3 := consistent_lin _ _ _ _ _ _ _ k C1 C2) (2 := C3).
    intros t Ht. cbv beta. apply Hf; [exact Hl| |apply Nat.mod_upper_bound; lia]. apply Nat.div_lt_upper_bound; lia. }
  destruct (V1 p c Hp Hc) as [-> ->], (V2 p c Hp Hc) as [-> ->], (V3 p c Hp Hc) as [-> ->].
  destruct (nth p pol false) eqn:Ep; [|split; apply injective_projections; cbn; ring]. pose proof (rank_below pol p Ep). split; apply E; lia.
Qed.
