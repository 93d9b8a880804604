(** Concrete materials for C95. *)
From Coq Require Import Reals ZArith Lra Lia List Bool Arith String Sorted.
From Coquelicot Require Import Coquelicot.
From Verif Require Import Ops ROps Spec CTrig CLemmas Tensor TensorProofs ModelMaterial MaterialSpec MaterialProofs InterpProofs ModelSpecial ModelMie ModelGrad GradSpec GradOps ExampleStack ExampleGrad ModelGradMat GradMatSpec GradMatProofs GradMatEnd GradMatNode ExampleMaterial.
Import ListNotations.
Open Scope R_scope.

(* permittivity 1 at 0 nm, 3 at 1000 nm, 1 at 2000 nm *)
Definition hat_rows : list (R * C) := [(0, RtoC 1); (1000, RtoC 3); (2000, RtoC 1)].
Definition table_db (rows : list (R * C)) : @db R :=
  {| d_dev := "cpu"; d_model := MData; d_wl := map fst rows; d_wl_dev := "cpu"; d_eps := map snd rows; d_eps_dev := "cpu"; d_coeff := []; d_lookup := [] |}%string.
Lemma hat_nodup : NoDup (map fst hat_rows).
Proof. cbn. repeat constructor; cbn; intros H; repeat (destruct H as [H|H]; [lra|]); exact H. Qed.
Lemma hat_smooth x : x <> 0 -> x <> 1000 -> x <> 2000 -> smooth_material (Db (table_db hat_rows)) x.
Proof.
  intros H1 H2 H3. split; [split; reflexivity|]. split; [discriminate|]. split; [exact hat_nodup|]. split; [reflexivity|].
  cbn. intros H. repeat (destruct H as [H|H]; [congruence|]). exact H.
Qed.
Lemma hat_eps x : 0 <= x <= 1000 -> mat_eps (Db (table_db hat_rows)) x = RtoC (1 + x / 500).
Proof.
  intros Hx. change (mat_eps (Db (table_db hat_rows)) x) with (@interp_at R ROps (srt hat_rows) x).
  rewrite (table_between hat_rows x hat_nodup (0, RtoC 1) (1000, RtoC 3)); cbn [fst snd]; [| | |lra|lra|].
  - unfold Cdiv, Cmult, Cplus, Cinv, RtoC. cbn [fst snd]. f_equal; field.
  - now left.
  - right. now left.
  - intros c Hc. cbn in Hc. repeat (destruct Hc as [<-|Hc]; [cbn; lra|]). destruct Hc.
Qed.
Lemma hat_derive : is_derive (fun t => fst (mat_eps (Db (table_db hat_rows)) t)) 500 (1 / 500).
Proof.
  apply (is_derive_ext_loc (fun t => 1 + t / 500)).
  - assert (L : locally 500 (fun t => 400 < t < 600)).
    { apply (filter_and (F := locally 500)); [apply (open_gt 400); lra|apply (open_lt 600); lra]. }
    eapply filter_imp; [|exact L]. intros t Ht. rewrite hat_eps by lra. reflexivity.
  - auto_derive; [exact I|lra].
Qed.
Lemma id_carries t0 : carries t0 (fun t => t) (t0, 1).
Proof. split; [reflexivity|]. cbn. auto_derive; [exact Logic.I|reflexivity]. Qed.
Lemma const_carries t0 c : carries t0 (fun _ => c) (c, 0).
Proof. apply car_const. Qed.
Theorem memo_refuted : exists (m : @db R) (t0 : R) (d d' : dual) s m' v,
  smooth_material (Db m) t0 /\ carries t0 (fun t => t) d' /\ fst d = fst d' /\
  @get_epsilon_db dual DOps (lift_db m []) (dual_wl d s) = (m', Ok (scalar_t v)) /\
  snd (@get_epsilon_db dual DOps m' (dual_wl d' s)) = Ok (scalar_t v) /\
  ~ ccarries t0 (fun t => mat_eps (Db m) t) (v_eps v).
Proof.
  assert (Hm : smooth_material (Db (table_db hat_rows)) 500) by (apply hat_smooth; lra).
  destruct (material 500 (table_db hat_rows) [] (fun _ => 500) (500, 0) None Hm (const_carries 500 500)) as (v & A & B); [intros q []|].
  exists (table_db hat_rows), 500, (500, 0), (500, 1), None, (lift_db (table_db hat_rows) [((500, 0), v)]), v.
  split; [exact Hm|]. split; [apply id_carries|]. split; [reflexivity|]. split; [exact A|]. split.
  - apply (memo_tangent (table_db hat_rows) [] (500, 0) (500, 1) None None v _); [intros q []|reflexivity|exact A].
  - intros [[_ D] _]. destruct B as [[_ B] _]. apply is_derive_unique in D, B. pose proof (is_derive_unique _ _ _ hat_derive) as E.
    assert (Z : Derive (fun _ : R => fst (mat_eps (Db (table_db hat_rows)) 500)) 500 = 0) by apply Derive_const.
    assert (F : snd (fst (v_eps v)) = 1 / 500) by (etransitivity; [symmetry; exact D|exact E]).
    assert (G : snd (fst (v_eps v)) = 0) by (etransitivity; [symmetry; exact B|exact Z]). lra.
Qed.
Theorem duplicate_refuted : exists (m : @db R) (t0 : R) (xs : list (R -> R)) (ds : list dual) m' u vs,
  Forall2 (carries t0) xs ds /\ List.Forall (fun x => smooth_material (Db m) (x t0)) xs /\
  @get_epsilon_db dual DOps (lift_db m []) {| wa_t := vec_t rzero ds; wa_src := None |} = (m', Ok (vec_t u vs)) /\
  ~ Forall2 (fun x v => ccarries t0 (fun t => mat_eps (Db m) (x t)) (v_eps v)) xs vs.
Proof.
  assert (Hm : smooth_material (Db (table_db hat_rows)) 500) by (apply hat_smooth; lra).
  destruct (single_carries 500 (table_db hat_rows) [] (fun t => t) (500, 1) None Hm (id_carries 500)) as (v & A & Dv & B); [intros q []|].
  exists (table_db hat_rows), 500, [fun t => t; fun _ => 500], [(500, 1); (500, 0)], (lift_db (table_db hat_rows) [((500, 1), v)]), v, [v; v].
  split; [constructor; [apply id_carries|constructor; [apply const_carries|constructor]]|].
  split; [constructor; [exact Hm|constructor; [exact Hm|constructor]]|]. split.
  - unfold get_epsilon_db. cbn [wa_t wa_src].
    rewrite (sq_entries [(500, 1); (500, 0)]) by (cbn; lia).
    change (shp (squeeze (vec_t rzero [(500, 1); (500, 0)]))) with [2%nat]. cbn [map get_list].
    change (d_dev (lift_db (table_db hat_rows) [])) with (d_dev (table_db hat_rows)). rewrite A.
    assert (A2 : @get_single dual DOps (lift_db (table_db hat_rows) [((500, 1), v)]) {| w_val := (500, 0); w_dev := d_dev (table_db hat_rows); w_src := None |}
      = (lift_db (table_db hat_rows) [((500, 1), v)], Ok v)).
    { unfold get_single. cbn [lift_db d_lookup find_eps w_val]. assert (Hb : @reqb dual DOps (500, 0) (500, 1) = true) by exact (proj2 (Reqb_true 500 500) eq_refl).
      rewrite Hb. reflexivity. }
    match goal with |- context [@get_single dual DOps ?u ?w] => replace (@get_single dual DOps u w) with (lift_db (table_db hat_rows) [((500, 1), v)], @Ok (@value dual) v) by (symmetry; exact A2) end.
    cbn [forallb]. rewrite String.eqb_refl. reflexivity.
  - intros H. inversion H as [|? ? ? ? _ H2 E1 E2]; subst. inversion H2 as [|? ? ? ? H3 _ E3 E4]; subst.
    destruct H3 as [[_ D] _]. destruct B as [[_ B] _]. apply is_derive_unique in D, B. pose proof (is_derive_unique _ _ _ hat_derive) as E.
    assert (Z : Derive (fun _ : R => fst (mat_eps (Db (table_db hat_rows)) 500)) 500 = 0) by apply Derive_const.
    assert (F : snd (fst (v_eps v)) = 1 / 500) by (etransitivity; [symmetry; exact B|exact E]).
    assert (G : snd (fst (v_eps v)) = 0) by (etransitivity; [symmetry; exact D|exact Z]). lra.
Qed.
Theorem kink_refuted : exists (rows : list (R * C)) (x : R), rows <> [] /\ NoDup (map fst rows) /\
  forall d, ~ ccarries x (fun t => @interp_at R ROps (@sort_rows R ROps rows) t) d.
Proof.
  exists hat_rows, 1000. split; [discriminate|]. split; [exact hat_nodup|].
  apply (kink hat_rows (0, RtoC 1) (1000, RtoC 3) (2000, RtoC 1) hat_nodup); cbn [fst snd RtoC].
  - now left. - right; now left. - right; right; now left. - lra.
  - intros c Hc. cbn in Hc. repeat (destruct Hc as [<-|Hc]; [cbn; lra|]). destruct Hc.
  - intros c Hc. cbn in Hc. repeat (destruct Hc as [<-|Hc]; [cbn; lra|]). destruct Hc.
  - lra.
Qed.

(* a core of a dispersive material in a shell of a constant one, at wavenumber 1/2 *)
Definition slope_rows : list (R * C) := [(8 * PI, RtoC 5); (0, RtoC 3)].
Definition vac : @mat R := Const {| c_dev := "cpu"; c_eps := RtoC 1; c_tdev := "cpu" |}%string.
Definition glass : @mat R := Const {| c_dev := "cpu"; c_eps := RtoC (9/4); c_tdev := "cpu" |}%string.
Definition slope : @mat R := Db (table_db slope_rows).
Lemma slope_nodup : NoDup (map fst slope_rows).
Proof. pose proof PI_RGT_0. cbn. repeat constructor; cbn; intros H'; repeat (destruct H' as [H'|H']; [lra|]); exact H'. Qed.
Lemma slope_smooth : smooth_material slope (2 * PI / (1/2)).
Proof.
  pose proof PI_RGT_0. split; [split; reflexivity|]. split; [discriminate|]. split; [exact slope_nodup|]. split; [reflexivity|].
  cbn. intros H'. repeat (destruct H' as [H'|H']; [lra|]). exact H'.
Qed.
Lemma slope_eps : mat_eps slope (2 * PI / (1/2)) = RtoC 4.
Proof.
  pose proof PI_RGT_0. change (mat_eps slope (2 * PI / (1/2))) with (@interp_at R ROps (srt slope_rows) (2 * PI / (1/2))).
  rewrite (table_between slope_rows _ slope_nodup (0, RtoC 3) (8 * PI, RtoC 5)); cbn [fst snd]; [| | |lra|lra|].
  - unfold Cdiv, Cmult, Cplus, Cinv, RtoC. cbn [fst snd]. f_equal; field; lra.
  - right. now left.
  - now left.
  - intros c Hc. cbn in Hc. repeat (destruct Hc as [<-|Hc]; [cbn; lra|]). destruct Hc.
Qed.
Theorem ex_spectrum : carries (1/2) (fun t => t) (1/2, 1) /\ 1/2 <> 0 /\ fst (last [(1, glass)] (1/2, slope)) <> 0 /\
  (forall m, In m (vac :: snd (1/2, slope) :: map snd [(1, glass)]) -> smooth_material m (2 * PI / (1/2))) /\
  smooth_particle 1 (1/2) (mat_eps vac (2 * PI / (1/2))) (mat_layer (1/2) (1/2, slope)) (map (mat_layer (1/2)) [(1, glass)]).
Proof.
  split; [apply id_carries|]. split; [lra|]. split; [cbn; lra|]. split.
  - intros m [<-|[<-|[<-|[]]]]; [exact Logic.I|exact slope_smooth|exact Logic.I].
  - assert (E : mat_layer (1/2) (1/2, slope) = ex_core_path (1/2)) by (unfold mat_layer, ex_core_path; cbn [fst snd]; now rewrite slope_eps).
    assert (E2 : map (mat_layer (1/2)) [(1, glass)] = map (fun s => s (1/2)) [ex_shell_path]).
    { unfold mat_layer, ex_shell_path. cbn [map fst snd]. change (mat_eps glass (2 * PI / (1/2))) with (RtoC (9/4)). replace (7/4 + 1/2, 1/2 - 1/2) with (RtoC (9/4)) by (unfold RtoC; f_equal; lra). reflexivity. }
    rewrite E, E2. exact ex_particle_smooth.
Qed.
