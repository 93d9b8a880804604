(** C47-C52: interpolation and materials. *)
From Coq Require Import Reals ZArith List Bool String Ascii Arith Lia Lra Permutation.
From Coquelicot Require Import Coquelicot.
From Verif Require Import Ops ROps Tensor ModelMaterial MaterialSpec InterpProofs MaterialProofs ExampleMaterial.
Import ListNotations.
Open Scope list_scope.

(** C47.  [interp_at (sort_rows t) x] is the value [interp1d] returns at [x] for
    the rows [t]. *)
Theorem C47_interp_defined : forall (x : tensor R) (xs : list R) (ys : list C), List.length xs = List.length ys -> xs <> [] ->
  @interp1d R ROps x xs ys = Ok (tmap (@interp_at R ROps (srt (combine xs ys))) x).
Proof. exact interp_defined. Qed.
Print Assumptions C47_interp_defined.
Theorem C47_interp_linear : forall (t : table) (x : R) a b, NoDup (map fst t) -> In a t -> In b t -> (fst a < fst b)%R -> (fst a <= x <= fst b)%R ->
  (forall c, In c t -> ~ (fst a < fst c < fst b)%R) ->
  @interp_at R ROps (srt t) x = ((snd a * RtoC (fst b - x) + snd b * RtoC (x - fst a)) / RtoC (fst b - fst a))%C.
Proof. exact (fun t x a b Hd => table_between t x Hd a b). Qed.
Print Assumptions C47_interp_linear.
Theorem C47_interp_samples : forall (t : table) (x : R) a, NoDup (map fst t) -> In a t -> fst a = x -> @interp_at R ROps (srt t) x = snd a.
Proof. exact (fun t x a Hd => table_sample t x Hd a). Qed.
Print Assumptions C47_interp_samples.
Theorem C47_interp_ends : forall (t : table) (x : R) a, NoDup (map fst t) -> In a t ->
  ((forall c, In c t -> (fst a <= fst c)%R) /\ (x <= fst a)%R \/ (forall c, In c t -> (fst c <= fst a)%R) /\ (fst a <= x)%R) ->
  @interp_at R ROps (srt t) x = snd a.
Proof. exact interp_ends. Qed.
Print Assumptions C47_interp_ends.
Theorem C47_interp_range : forall (t : table) (x : R) lo hi, NoDup (map fst t) -> t <> [] ->
  (forall c, In c t -> exists v : R, snd c = RtoC v /\ (lo <= v <= hi)%R) ->
  exists v : R, @interp_at R ROps (srt t) x = RtoC v /\ (lo <= v <= hi)%R.
Proof. exact (fun t x lo hi Hd => table_range t x Hd lo hi). Qed.
Print Assumptions C47_interp_range.
(* the denominator is positive *)
Theorem C47_interp_no_division_by_zero : forall (t : table) (x : R), NoDup (map fst t) -> t <> [] ->
  let '(yl, yr, dl, dr) := @interp_parts R ROps (srt t) x in
  (0 <= dl)%R /\ (0 <= dr)%R /\ (0 < dl + dr)%R /\ In yl (map snd t) /\ In yr (map snd t).
Proof. exact table_weights. Qed.
Print Assumptions C47_interp_no_division_by_zero.
Theorem C47_interp_row_order : forall (t t' : table) (x : R), NoDup (map fst t) -> Permutation t t' ->
  @interp_at R ROps (srt t) x = @interp_at R ROps (srt t') x.
Proof. exact interp_order. Qed.
Print Assumptions C47_interp_row_order.
Example C47_instance : NoDup (map fst ex_table) /\ In (500, RtoC 2)%R ex_table /\ In (600, RtoC 7)%R ex_table /\
  (forall c, In c ex_table -> ~ (500 < fst c < 600)%R) /\ (forall c, In c ex_table -> (500 <= fst c)%R).
Proof.
  split; [exact ex_table_nodup|]. split; [right; left; reflexivity|]. split; [right; right; left; reflexivity|].
  split; intros c [<-|[<-|[<-|[]]]]; cbn; lra.
Qed.

(** C48: after any history the value is the one of a fresh object on the same
    device. *)
Theorem C48_memo_equals_fresh : forall pf pi dats d ws (m : @db R) h fresh a,
  load_db pf pi dats d ws = Ok m -> (forall w, In w ws -> w_dev w = d) ->
  load_db pf pi dats (d_dev (hrun m h)) [] = Ok fresh ->
  same_eps (snd (@get_epsilon_db R ROps (hrun m h) a)) (snd (@get_epsilon_db R ROps fresh a)).
Proof. exact memo_fresh. Qed.
Print Assumptions C48_memo_equals_fresh.
Theorem C48_fresh_exists : forall pf pi dats d d' (m : @db R), load_db pf pi dats d [] = Ok m -> exists m', load_db pf pi dats d' [] = Ok m'.
Proof. exact load_any_device. Qed.
Print Assumptions C48_fresh_exists.
Example C48_instance : (exists m : @db R, load_db ex_pf ex_pi [tabulated] "cuda" [] = Ok m /\ d_model m = MData /\ d_wl m = [1000 * (1/2); 1000 * 1]%R) /\
  load_db ex_pf ex_pi [sell] "cpu" [] = Ok sell_db.
Proof. exact (conj tab_loads sell_loads). Qed.

(** C49: false.  The second evaluation at a wavelength returns the tensor of the
    first one, connected to the wavelength tensor of the first call. *)
Theorem C49_memo_differentiable_refuted : exists (m : @db R) v v', load_db ex_pf ex_pi [sell] "cpu" [] = Ok m /\
  snd (@get_epsilon_db R ROps m (at_wl 500 (Some 1%nat))) = Ok (scalar_t v) /\
  snd (@get_epsilon_db R ROps (hrun m [HGet (at_wl 500 (Some 1%nat))]) (at_wl 500 (Some 2%nat))) = Ok (scalar_t v') /\
  v_src v = Some 1%nat /\ v_src v' = Some 1%nat.
Proof. exact (let (v, H) := sell_two_calls in let (v', H') := H in ex_intro _ sell_db (ex_intro _ v (ex_intro _ v' (conj sell_loads H')))). Qed.
Print Assumptions C49_memo_differentiable_refuted.
(* in general: whatever happens in between *)
Theorem C49_memo_keeps_first_graph : forall (m : @db R) x s1 v h s2, @find_eps R ROps x (d_lookup m) = None ->
  snd (@get_epsilon_db R ROps m (at_wl x s1)) = Ok (scalar_t v) ->
  exists v', snd (@get_epsilon_db R ROps (hrun m (HGet (at_wl x s1) :: h)) (at_wl x s2)) = Ok (scalar_t v') /\ v_src v' = v_src v.
Proof. exact memo_src. Qed.
Print Assumptions C49_memo_keeps_first_graph.
(* only the first evaluation at a wavelength is connected to its argument *)
Theorem C49_first_evaluation_connected : forall (m : @db R) x s v, @find_eps R ROps x (d_lookup m) = None ->
  snd (@get_epsilon_db R ROps m (at_wl x s)) = Ok (scalar_t v) ->
  (d_model m = MSellmeier -> (2 <= List.length (d_coeff m))%nat) -> v_src v = s.
Proof. exact fresh_src. Qed.
Print Assumptions C49_first_evaluation_connected.

(** C50 *)
Theorem C50_tabulated : forall pf lines (toks : list (list string)) rows,
  lines <> [] -> List.Forall no_newline lines -> Forall2 line_of toks lines -> Forall2 (row_means pf) toks rows ->
  load_tabulated pf (join_lines lines) =
    Ok (map (fun q => 1000 * fst (fst q))%R (kept rows),
        map (fun q => let n := snd (fst q) in let k := snd q in (n * n - k * k, 2 * n * k)%R) (kept rows)).
Proof. exact load_tabulated_means. Qed.
Print Assumptions C50_tabulated.
Theorem C50_absorption_sign : forall n k : R, (0 <= n)%R -> (0 <= k)%R -> (0 <= snd (n * n - k * k, 2 * n * k))%R.
Proof. exact (fun n k Hn Hk => Rmult_le_pos (2 * n) k (Rmult_le_pos 2 n (Rlt_le 0 2 Rlt_0_2) Hn) Hk). Qed.
Print Assumptions C50_absorption_sign.
Theorem C50_one_column : forall pf s0, (exists w : R, pf s0 = Ok w) -> load_row pf [s0] = Err IndexError.
Proof. exact load_one_column. Qed.
Print Assumptions C50_one_column.
Example C50_instance : tab_lines <> [] /\ List.Forall no_newline tab_lines /\ Forall2 line_of tab_toks tab_lines /\ Forall2 (row_means ex_pf) tab_toks tab_rows.
Proof. exact tab_hyps. Qed.

(** C51 *)
Theorem C51_sellmeier : forall c0 (ps : list (R * R)) wl, (forall bc, In bc ps -> (wl / 1000 * (wl / 1000) <> snd bc * snd bc)%R) ->
  @sellmeier R ROps (c0 :: flat ps) wl =
  Ok (1 + c0 + fold_right Rplus 0 (map (fun bc => fst bc * (wl/1000 * (wl/1000)) / (wl/1000 * (wl/1000) - snd bc * snd bc)) ps))%R.
Proof. exact (fun c0 ps wl _ => sellmeier_flat c0 ps wl). Qed.
Print Assumptions C51_sellmeier.
Theorem C51_sellmeier_get_epsilon : forall (m : @db R) c0 ps wl s, inv m -> d_model m = MSellmeier -> d_coeff m = c0 :: flat ps ->
  (forall bc, In bc ps -> (wl / 1000 * (wl / 1000) <> snd bc * snd bc)%R) ->
  exists v, snd (@get_epsilon_db R ROps m (at_wl wl s)) = Ok (scalar_t v) /\
    v_eps v = RtoC (1 + c0 + fold_right Rplus 0 (map (fun bc => fst bc * (wl/1000 * (wl/1000)) / (wl/1000 * (wl/1000) - snd bc * snd bc)) ps))%R.
Proof. exact sellmeier_get. Qed.
Print Assumptions C51_sellmeier_get_epsilon.
(* [inv] holds for every loaded object after every history *)
Theorem C51_reachable : forall pf pi dats d (m : @db R) h, load_db pf pi dats d [] = Ok m -> inv (hrun m h).
Proof. exact load_reachable. Qed.
Print Assumptions C51_reachable.
(* a dangling coefficient is only noticed at evaluation *)
Theorem C51_even_length : forall c0 ps b wl, @sellmeier R ROps (c0 :: flat ps ++ [b]) wl = Err IndexError.
Proof. exact sellmeier_odd. Qed.
Print Assumptions C51_even_length.
Example C51_instance : d_coeff sell_db = (1/2)%R :: flat [(2, 1/10)]%R /\ d_model sell_db = MSellmeier /\ inv sell_db /\
  (500 / 1000 * (500 / 1000) <> 1/10 * (1/10))%R.
Proof. split; [reflexivity|]. split; [reflexivity|]. split; [exact (load_reachable ex_pf ex_pi [sell] "cpu" sell_db [] sell_loads)|]. lra. Qed.

(** C52: false.  A formula other than 1 is accepted; every later evaluation
    raises ValueError. *)
Theorem C52_unsupported_formula_refuted : exists m : @db R, load_db ex_pf ex_pi [cauchy] "cpu" [] = Ok m /\ d_model m = MOther 2 /\ d_lookup m = [].
Proof. exact cauchy_loads. Qed.
Print Assumptions C52_unsupported_formula_refuted.
Theorem C52_unsupported_formula_late : forall (m : @db R) t a, d_model m = MOther t -> d_lookup m = [] ->
  (shp (squeeze (wa_t a)) = [] \/ exists K, shp (squeeze (wa_t a)) = [S K]) -> snd (@get_epsilon_db R ROps m a) = Err ValueError.
Proof. exact other_formula. Qed.
Print Assumptions C52_unsupported_formula_late.
Theorem C52_unknown_type_rejected : forall pf pi (y : @dat) ys d ws t0 ts, split_ws (y_type y) = t0 :: ts ->
  t0 <> "tabulated"%string -> t0 <> "formula"%string -> @load_db R ROps pf pi (y :: ys) d ws = Err ValueError.
Proof. exact load_unknown. Qed.
Print Assumptions C52_unknown_type_rejected.
