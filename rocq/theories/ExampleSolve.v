From Coq Require Import Reals List Bool Arith Lia Lra.
From Coquelicot Require Import Complex.
From Verif Require Import Ops ROps Tensor ModelMaterial ModelSpecial ModelMie ModelBatch ModelTg TgSpec TgCombine ModelSolve SolveSpec SolveProofs SolveEnd.
Import ListNotations.
Open Scope nat_scope.
Open Scope list_scope.

Lemma solve_consistent lu alphas selfs G pol L f0 e h : exact_solver lu -> sizes selfs = sizes alphas -> sq_n G = total alphas ->
  shp f0 = [L; count_occ bool_dec pol true; 6] ->
  @solve_fields R ROps lu alphas selfs G (List.length pol) (full_mask L pol) f0 = Ok (e, h) ->
  shp e = [L; List.length pol; 3] /\ shp h = [L; List.length pol; 3] /\
  forall l, l < L -> exists x, self_consistent alphas selfs G (fun t => at_ f0 [l; t / 6; t mod 6]) x /\
    forall p c, p < List.length pol -> c < 3 ->
      at_ e [l; p; c] = (if nth p pol false then x (6 * rank pol p + c)%nat else RtoC 0) /\
      at_ h [l; p; c] = (if nth p pol false then x (6 * rank pol p + (3 + c))%nat else RtoC 0).
Proof. intros Hlu Hs HG Hf E. exact (proj2 (run_ok lu alphas selfs G pol L f0 Hs HG Hf e h Hlu E)). Qed.
Lemma solve_unique alphas selfs G f x y : no_free_mode alphas selfs G -> self_consistent alphas selfs G f x -> self_consistent alphas selfs G f y ->
  forall t, t < total alphas -> x t = y t.
Proof. intros Hn. exact (consistent_unique alphas selfs G f f x y Hn (fun _ _ => eq_refl)). Qed.
Lemma solve_rejects lu alphas selfs G pol L f0 : sizes selfs = sizes alphas -> sq_n G = total alphas ->
  shp f0 = [L; count_occ bool_dec pol true; 6] -> L = 0 \/ total alphas <> count_occ bool_dec pol true * 6 ->
  @solve_fields R ROps lu alphas selfs G (List.length pol) (full_mask L pol) f0 = Err RuntimeError.
Proof. intros Hs HG Hf [H|H]; [now apply run_none|now apply run_size]. Qed.

(** twice the right-hand side, when that is the solution *)
Definition dbl (b : list C) : list C := map (fun z => (RtoC 2 * z)%C) b.
Definition doubling (A : @sqmat R) (b : list C) : result (list C) :=
  if (List.length b =? sq_n A) && forallb (fun i => @ceqb R ROps (sumC (sq_n A) (fun j => (sq_at A i j * nth j (dbl b) (RtoC 0))%C)) (nth i b (RtoC 0))) (seq 0 (sq_n A))
  then Ok (dbl b) else Err RuntimeError.
Definition one6 : @sqmat R := {| sq_n := 6; sq_at := fun i j => if (i =? j)%nat then RtoC 1 else RtoC 0 |}.
Definition half6 : @sqmat R := {| sq_n := 6; sq_at := fun i j => if (i =? j)%nat then RtoC (/ 2) else RtoC 0 |}.
Definition ones_field : tensor C := mkT [2; 1; 6] (fun _ => RtoC 1).

Lemma ceqb_iff (x y : C) : @ceqb R ROps x y = true <-> x = y.
Proof.
  unfold ceqb. cbn [reqb ROps]. rewrite andb_true_iff, !Reqb_true. split; [intros [H1 H2]; now apply injective_projections|intros ->; now split].
Qed.
Lemma doubling_exact : exact_solver doubling.
Proof.
  intros A b x. unfold doubling. destruct (Nat.eqb_spec (List.length b) (sq_n A)) as [Hb|]; [|discriminate]. cbn [andb].
  match goal with |- (if ?c then _ else _) = _ -> _ => destruct c eqn:F end; [|discriminate]. intros [= <-].
  split; [unfold dbl; now rewrite map_length|]. intros i Hi. rewrite forallb_forall in F. apply ceqb_iff, F, in_seq. lia.
Qed.
Lemma doubling_run A b : List.length b = sq_n A -> (forall i, i < sq_n A -> sumC (sq_n A) (fun j => (sq_at A i j * nth j (dbl b) (RtoC 0))%C) = nth i b (RtoC 0)) -> doubling A b = Ok (dbl b).
Proof.
  intros Hb H. unfold doubling. rewrite Hb, Nat.eqb_refl. cbn [andb].
  replace (forallb _ _) with true; [reflexivity|]. symmetry. apply forallb_forall. intros i Hi. apply in_seq in Hi. apply ceqb_iff, H. lia.
Qed.
Lemma radiated6 x r : r < 6 -> radiated [half6] [one6] one6 x 0 r = (RtoC (/ 2) * x r)%C.
Proof.
  intros Hr. unfold radiated. change (List.length [half6]) with 1. cbn [sumC]. rewrite Cplus_0_l.
  transitivity (sumC 6 (fun t => ((if (r =? t)%nat then RtoC 1 else RtoC 0) * moments [half6] x 0 t)%C)); [reflexivity|].
  rewrite (sumC_delta 6 r (fun t => moments [half6] x 0 t)) by exact Hr. unfold moments. change (sq_n (nth 0 [half6] zero_block)) with 6.
  rewrite (sumC_ext 6 _ (fun c => ((if (r =? c)%nat then RtoC 1 else RtoC 0) * (RtoC (/ 2) * x c))%C)).
  - now rewrite (sumC_delta 6 r (fun c => (RtoC (/ 2) * x c)%C)) by exact Hr.
  - intros c _. change (offset [half6] 0 + c) with c. cbn [nth half6 sq_at]. destruct (r =? c); ring.
Qed.
Lemma half6_damped : no_free_mode [half6] [one6] one6.
Proof.
  intros x H t Ht. change (total [half6]) with 6 in Ht. pose proof (H 0 t ltac:(cbn; lia) Ht) as E. change (offset [half6] 0 + t) with t in E.
  rewrite radiated6 in E by exact Ht. destruct (x t) as [a b]. apply (f_equal (fun z => (fst z, snd z))) in E. cbn in E. injection E as E1 E2.
  apply injective_projections; cbn; lra.
Qed.
Lemma solve_instance : exact_solver doubling /\
  exists e h, @solve_fields R ROps doubling [half6] [one6] one6 2 (full_mask 2 [false; true]) ones_field = Ok (e, h) /\
    at_ e [1; 1; 2] = RtoC 2 /\ at_ h [0; 1; 0] = RtoC 2 /\ at_ e [1; 0; 2] = RtoC 0.
Proof.
  split; [exact doubling_exact|].
  assert (E : exists eh, @solve_fields R ROps doubling [half6] [one6] one6 2 (full_mask 2 [false; true]) ones_field = Ok eh).
  { unfold solve_fields. destruct (gda_ok [half6] [one6] one6 eq_refl eq_refl) as (M & EM & HN & _). rewrite EM. cbn [bind].
    rewrite (columns_ok ones_field 2 1 ltac:(lia) eq_refl). cbn [bind].
    assert (D : doubling (@one_minus R ROps M) (repeat (RtoC 1) 6) = Ok (dbl (repeat (RtoC 1) 6))).
    { apply doubling_run; [symmetry; exact HN|]. intros i Hi. change (sq_n (one_minus M)) with (sq_n M) in *. change (total [half6]) with 6 in HN.
      rewrite one_minus_rows by exact Hi. pose proof (rows [half6] [one6] one6 M (fun j => nth j (dbl (repeat (RtoC 1) 6)) (RtoC 0)) 0 i eq_refl eq_refl EM ltac:(cbn; lia) ltac:(cbn in *; lia)) as Q.
      change (offset [half6] 0 + i)%nat with i in Q. change (total [half6]) with 6 in Q. rewrite HN. rewrite Q, radiated6 by lia.
      assert (N : nth i (dbl (repeat (RtoC 1) 6)) (RtoC 0) = RtoC 2 /\ nth i (repeat (RtoC 1) 6) (RtoC 0) = RtoC 1).
      { rewrite HN in Hi. unfold dbl. destruct i as [|[|[|[|[|[|i]]]]]]; try lia; cbn; split; try reflexivity; apply injective_projections; cbn; ring. }
      destruct N as [-> ->]. apply injective_projections; cbn; field. }
    assert (S : solve_all doubling (@one_minus R ROps M) [repeat (RtoC 1) 6; repeat (RtoC 1) 6] = Ok [dbl (repeat (RtoC 1) 6); dbl (repeat (RtoC 1) 6)]).
    { cbn [solve_all]. change (sq_n (one_minus M)) with (sq_n M). rewrite HN. change (List.length (repeat (RtoC 1) 6) =? total [half6]) with true. cbv iota. rewrite D. reflexivity. }
    match goal with |- context [solve_all doubling _ ?l] => change l with [repeat (RtoC 1) 6; repeat (RtoC 1) 6] end. rewrite S. cbn [bind].
    match goal with |- context [zero_fill ?n ?m ?v] => destruct (zero_fill_ok n m v) as (r & Er & _); [cbn; lia|cbn; lia|rewrite Er] end. cbn [bind]. eexists. reflexivity. }
  destruct E as ([e h] & E). exists e, h. split; [exact E|].
  destruct (run_ok doubling [half6] [one6] one6 [false; true] 2 ones_field eq_refl eq_refl eq_refl e h doubling_exact E) as (_ & _ & _ & X).
  assert (Y : forall x, self_consistent [half6] [one6] one6 (fun t => at_ ones_field [0; t / 6; t mod 6]) x -> forall t, t < 6 -> x t = RtoC 2).
  { intros x Hx t Ht. pose proof (Hx 0 t ltac:(cbn; lia) Ht) as Q. change (offset [half6] 0 + t) with t in Q. rewrite radiated6 in Q by exact Ht. cbn [ones_field at_] in Q.
    destruct (x t) as [a b]. apply (f_equal (fun z => (fst z, snd z))) in Q. cbn in Q. injection Q as Q1 Q2. apply injective_projections; cbn; lra. }
  destruct (X 0 ltac:(lia)) as (x0 & C0 & V0), (X 1 ltac:(lia)) as (x1 & C1 & V1). split; [|split].
  - rewrite (proj1 (V1 1 2 ltac:(cbn; lia) ltac:(lia))). cbn [nth rank]. apply Y; [exact C1|cbn; lia].
  - rewrite (proj2 (V0 1 0 ltac:(cbn; lia) ltac:(lia))). cbn [nth rank]. apply Y; [exact C0|cbn; lia].
  - rewrite (proj1 (V1 0 2 ltac:(cbn; lia) ltac:(lia))). reflexivity.
Qed.
