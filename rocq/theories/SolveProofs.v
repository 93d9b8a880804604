From Coq Require Import Reals List Bool Arith Lia Lra.
From Coquelicot Require Import Complex.
From Verif Require Import Ops ROps Tensor ModelMaterial ModelSpecial ModelMie ModelBatch ModelTg TgSpec TgCombine ModelSolve SolveSpec.
Import ListNotations.
Open Scope nat_scope.
Open Scope list_scope.
Notation sqm := (@sqmat R).

(** ** sums *)
Lemma sumC_add n f g : sumC n (fun t => (f t + g t)%C) = (sumC n f + sumC n g)%C.
Proof. induction n as [|n IH]; cbn; [now rewrite Cplus_0_l|]. rewrite IH. ring. Qed.
Lemma sumC_sub n f g : sumC n (fun t => (f t - g t)%C) = (sumC n f - sumC n g)%C.
Proof. induction n as [|n IH]; cbn; [apply injective_projections; cbn; ring|]. rewrite IH. ring. Qed.
Lemma sumC_scal n k f : sumC n (fun t => (k * f t)%C) = (k * sumC n f)%C.
Proof. induction n as [|n IH]; cbn; [now rewrite Cmult_0_r|]. rewrite IH. ring. Qed.
Lemma sumC_scal_r n k f : sumC n (fun t => (f t * k)%C) = (sumC n f * k)%C.
Proof. induction n as [|n IH]; cbn; [now rewrite Cmult_0_l|]. rewrite IH. ring. Qed.
Lemma sumC_swap n m f : sumC n (fun i => sumC m (fun j => f i j)) = sumC m (fun j => sumC n (fun i => f i j)).
Proof.
  induction n as [|n IH]; cbn [sumC]; [now rewrite sumC_zero|]. rewrite IH. now rewrite <- sumC_add.
Qed.
Lemma sumC_delta n i f : i < n -> sumC n (fun j => ((if (i =? j)%nat then RtoC 1 else RtoC 0) * f j)%C) = f i.
Proof.
  intros H. rewrite (sumC_window n i 1); [|lia|].
  - cbn. rewrite Nat.add_0_r, Nat.eqb_refl. now rewrite Cplus_0_l, Cmult_1_l.
  - intros t _ Ht. destruct (Nat.eqb_spec i t); [lia|]. apply Cmult_0_l.
Qed.
Lemma sumC_S n f : sumC (S n) f = (f 0 + sumC n (fun t => f (S t)))%C.
Proof. induction n as [|n IH]; [cbn; ring|]. change (sumC (S (S n)) f) with (sumC (S n) f + f (S n))%C. rewrite IH. cbn [sumC]. ring. Qed.
Lemma sumC_blocks (bs : list sqm) f : sumC (total bs) f = sumC (List.length bs) (fun j => sumC (sq_n (nth j bs zero_block)) (fun c => f (offset bs j + c))).
Proof.
  revert f. induction bs as [|b bs IH]; intros f; [reflexivity|]. rewrite total_cons, sumC_plus. cbn [List.length]. rewrite sumC_S. cbn [nth].
  f_equal. rewrite IH. apply sumC_ext. intros j _. apply sumC_ext. intros c _. rewrite offset_S. f_equal. lia.
Qed.

(** ** the system solved is the self-consistency *)
Lemma rows (alphas selfs : list sqm) (G M : sqm) x i r : sizes selfs = sizes alphas -> sq_n G = total alphas -> @g_dot_alpha R ROps alphas selfs G = Ok M ->
  i < List.length alphas -> r < sq_n (nth i alphas zero_block) ->
  sumC (total alphas) (fun j => (sq_at M (offset alphas i + r)%nat j * x j)%C) = radiated alphas selfs G x i r.
Proof.
  intros Hs HG HM Hi Hr. destruct (gda_ok alphas selfs G Hs HG) as (M' & E & _ & Hb). rewrite HM in E. injection E as <-.
  rewrite sumC_blocks. unfold radiated. apply sumC_ext. intros j Hj. unfold moments.
  rewrite (sumC_ext _ _ (fun c => sumC (sq_n (nth j alphas zero_block)) (fun t =>
    ((if (i =? j)%nat then sq_at (nth i selfs zero_block) r t else sq_at G (offset alphas i + r)%nat (offset alphas j + t)%nat) * sq_at (nth j alphas zero_block) t c * x (offset alphas j + c)%nat)%C))).
  2:{ intros c Hc. rewrite (Hb i j r c Hi Hj Hr Hc). now rewrite <- sumC_scal_r. }
  rewrite sumC_swap. apply sumC_ext. intros t Ht. rewrite <- sumC_scal. apply sumC_ext. intros c Hc. ring.
Qed.
Lemma one_minus_rows (M : sqm) x i : i < sq_n M -> sumC (sq_n M) (fun j => (sq_at (@one_minus R ROps M) i j * x j)%C) = (x i - sumC (sq_n M) (fun j => (sq_at M i j * x j)%C))%C.
Proof.
  intros Hi. rewrite <- (sumC_delta (sq_n M) i x Hi) at 1. rewrite <- sumC_sub. apply sumC_ext. intros j _. cbn [one_minus sq_at].
  change (@csub R ROps) with Cminus. change (@cofr R ROps rone) with (RtoC 1). change (@cofr R ROps rzero) with (RtoC 0). destruct (i =? j); ring.
Qed.
Lemma system (alphas selfs : list sqm) (G M : sqm) (f x : nat -> C) : sizes selfs = sizes alphas -> sq_n G = total alphas -> @g_dot_alpha R ROps alphas selfs G = Ok M ->
  (forall i, i < total alphas -> sumC (total alphas) (fun j => (sq_at (@one_minus R ROps M) i j * x j)%C) = f i) -> self_consistent alphas selfs G f x.
Proof.
  intros Hs HG HM H i r Hi Hr. pose proof (offset_fits alphas i Hi) as Hf.
  destruct (gda_ok alphas selfs G Hs HG) as (M' & E & HN & _). rewrite HM in E. injection E as <-.
  pose proof (H (offset alphas i + r) ltac:(lia)) as H1. rewrite <- HN in H1. rewrite one_minus_rows in H1 by lia. rewrite HN in H1.
  rewrite (rows alphas selfs G M x i r Hs HG HM Hi Hr) in H1. rewrite <- H1. ring.
Qed.

(** ** masks *)
Notation cnt := (count_occ bool_dec).
Lemma cnt_app m1 m2 : cnt (m1 ++ m2) true = cnt m1 true + cnt m2 true.
Proof. apply count_occ_app. Qed.
Lemma rank_app m1 m2 i : rank (m1 ++ m2) (List.length m1 + i) = cnt m1 true + rank m2 i.
Proof. induction m1 as [|b m IH]; [reflexivity|]. cbn [app List.length Nat.add rank]. rewrite IH. destruct b; reflexivity. Qed.
Lemma six c : c < 6 -> c = 0 \/ c = 1 \/ c = 2 \/ c = 3 \/ c = 4 \/ c = 5. Proof. lia. Qed.
Lemma rank_six b m c : c < 6 -> rank (repeat b 6 ++ m) c = if b then c else 0.
Proof. intros H. destruct (six c H) as [E|[E|[E|[E|[E|E]]]]]; subst c; destruct b; reflexivity. Qed.
Lemma cnt_six b : cnt (repeat b 6) true = if b then 6 else 0. Proof. destruct b; reflexivity. Qed.
Lemma components_length pol : List.length (components pol) = 6 * List.length pol.
Proof. induction pol as [|b pol IH]; [reflexivity|]. unfold components in *. cbn [map List.concat]. rewrite app_length, repeat_length, IH. cbn [List.length]. lia. Qed.
Lemma components_cnt pol : cnt (components pol) true = 6 * cnt pol true.
Proof. induction pol as [|b pol IH]; [reflexivity|]. unfold components in *. cbn [map List.concat]. rewrite cnt_app, cnt_six, IH. destruct b; cbn; lia. Qed.
Lemma components_nth pol p c : c < 6 -> nth (6 * p + c) (components pol) false = nth p pol false.
Proof.
  intros Hc. revert p. induction pol as [|b pol IH]; intros p; [cbn [components map List.concat]; destruct (6 * p + c), p; reflexivity|].
  unfold components in *. cbn [map List.concat]. destruct p as [|p].
  - rewrite app_nth1 by (rewrite repeat_length; lia). cbn [nth]. destruct (six c Hc) as [E|[E|[E|[E|[E|E]]]]]; subst c; reflexivity.
  - rewrite app_nth2 by (rewrite repeat_length; lia). rewrite repeat_length. replace (6 * S p + c - 6) with (6 * p + c) by lia. apply IH.
Qed.
Lemma components_rank pol p c : c < 6 -> p < List.length pol -> rank (components pol) (6 * p + c) = 6 * rank pol p + if nth p pol false then c else 0.
Proof.
  intros Hc. revert p. induction pol as [|b pol IH]; intros p Hp; [cbn in Hp; lia|]. unfold components in *. cbn [map List.concat]. destruct p as [|p].
  - replace (6 * 0 + c) with c by lia. replace (6 * rank (b :: pol) 0) with 0 by (cbn; lia). cbn [nth Nat.add]. apply rank_six, Hc.
  - cbn [List.length] in Hp. replace (6 * S p + c) with (List.length (repeat b 6) + (6 * p + c)) by (rewrite repeat_length; lia). rewrite rank_app, cnt_six, IH by lia.
    cbn [nth rank]. destruct b; lia.
Qed.
Lemma full_length L pol : List.length (full_mask L pol) = L * List.length pol * 6.
Proof. induction L as [|L IH]; [reflexivity|]. unfold full_mask in *. cbn [repeat List.concat]. rewrite app_length, IH, components_length. lia. Qed.
Lemma full_cnt L pol : cnt (full_mask L pol) true = L * (6 * cnt pol true).
Proof. induction L as [|L IH]; [reflexivity|]. unfold full_mask in *. cbn [repeat List.concat]. rewrite cnt_app, IH, components_cnt. lia. Qed.
Lemma rank_app_l m1 m2 i : i < List.length m1 -> rank (m1 ++ m2) i = rank m1 i.
Proof. revert i. induction m1 as [|b m IH]; intros i H; [cbn in H; lia|]. destruct i as [|i]; [reflexivity|]. cbn [app rank List.length] in *. rewrite IH by lia. reflexivity. Qed.
Lemma full_nth L pol l t : l < L -> t < 6 * List.length pol -> nth (l * (6 * List.length pol) + t) (full_mask L pol) false = nth t (components pol) false.
Proof.
  revert l. induction L as [|L IH]; intros l Hl Ht; [lia|]. unfold full_mask in *. cbn [repeat List.concat]. destruct l as [|l].
  - rewrite app_nth1 by (rewrite components_length; lia). reflexivity.
  - rewrite app_nth2 by (rewrite components_length; lia). rewrite components_length. replace (S l * (6 * List.length pol) + t - 6 * List.length pol) with (l * (6 * List.length pol) + t) by lia.
    apply IH; lia.
Qed.
Lemma full_rank L pol l t : l < L -> t < 6 * List.length pol -> rank (full_mask L pol) (l * (6 * List.length pol) + t) = l * (6 * cnt pol true) + rank (components pol) t.
Proof.
  revert l. induction L as [|L IH]; intros l Hl Ht; [lia|]. unfold full_mask in *. cbn [repeat List.concat]. destruct l as [|l].
  - cbn [Nat.mul Nat.add]. apply rank_app_l. rewrite components_length. exact Ht.
  - replace (S l * (6 * List.length pol) + t) with (List.length (components pol) + (l * (6 * List.length pol) + t)) by (rewrite components_length; lia).
    rewrite rank_app, components_cnt, IH by lia. lia.
Qed.
Lemma nth_concat {A} (xs : list (list A)) n l t d : (forall x, In x xs -> List.length x = n) -> t < n -> nth (l * n + t) (List.concat xs) d = nth t (nth l xs []) d.
Proof.
  intros H Ht. revert l. induction xs as [|x xs IH]; intros l; cbn [List.concat]; [destruct (l * n + t), l, t; reflexivity|].
  pose proof (H x (or_introl eq_refl)) as Hx. destruct l as [|l].
  - cbn [Nat.mul Nat.add nth]. apply app_nth1. lia.
  - rewrite app_nth2 by lia. rewrite Hx. replace (S l * n + t - n) with (l * n + t) by lia. cbn [nth]. apply IH. intros y Hy. apply H. now right.
Qed.
Lemma concat_length {A} (xs : list (list A)) n : (forall x, In x xs -> List.length x = n) -> List.length (List.concat xs) = List.length xs * n.
Proof. induction xs as [|x xs IH]; intros H; [reflexivity|]. cbn [List.concat List.length]. rewrite app_length, (H x) by (now left). rewrite IH by (intros; apply H; now right). lia. Qed.
Lemma solve_all_ok lu (A : sqm) bs xs : @solve_all R lu A bs = Ok xs -> List.length xs = List.length bs /\ forall l, l < List.length bs -> lu A (nth l bs []) = Ok (nth l xs []) /\ List.length (nth l bs []) = sq_n A.
Proof.
  revert xs. induction bs as [|b bs IH]; intros xs; cbn [solve_all]; [intros [= <-]; split; [reflexivity|]; cbn; lia|].
  destruct (Nat.eqb_spec (List.length b) (sq_n A)) as [Hb|]; [|discriminate]. destruct (lu A b) as [x|] eqn:E; [|discriminate]. cbn [bind].
  destruct (solve_all lu A bs) as [ys|] eqn:E2; [|discriminate]. cbn [bind]. intros [= <-]. destruct (IH ys eq_refl) as [H1 H2]. cbn [List.length]. split; [lia|].
  intros [|l] Hl; cbn [nth]; [now split|]. apply H2. lia.
Qed.
