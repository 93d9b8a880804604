(** Concrete materials for the examples. *)
From Coq Require Import Reals ZArith List Bool String Ascii Arith Lia Lra.
From Coquelicot Require Import Coquelicot.
From Verif Require Import Ops ROps CLemmas Tensor ModelMaterial MaterialSpec MaterialProofs InterpProofs.
Import ListNotations.
Open Scope string_scope.
Open Scope list_scope.

(* float() and int() on the strings used below *)
Definition ex_pf (s : string) : result R :=
  if String.eqb s "0.5" then Ok (1/2)%R else if String.eqb s "1" then Ok 1%R else if String.eqb s "2" then Ok 2%R
  else if String.eqb s "0.1" then Ok (1/10)%R else Err ValueError.
Definition ex_pi (s : string) : result Z :=
  if String.eqb s "1" then Ok 1%Z else if String.eqb s "2" then Ok 2%Z else Err ValueError.
Definition tab_lines : list string := ["0.5 1 0.1 "; " 1  2"; ""].
Definition tab_toks : list (list string) := [["0.5"; "1"; "0.1"]; ["1"; "2"]; []].
Definition tab_rows : list (option (R * R * R)) := [Some (1/2, 1, 1/10)%R; Some (1, 2, 0)%R; None].
Lemma tab_hyps : tab_lines <> [] /\ List.Forall no_newline tab_lines /\ Forall2 line_of tab_toks tab_lines /\ Forall2 (row_means ex_pf) tab_toks tab_rows.
Proof.
  split; [discriminate|]. split; [repeat constructor|]. split.
  - repeat constructor.
    + change "0.5 1 0.1 " with ("" ++ "0.5" ++ (" " ++ "1" ++ (" " ++ "0.1" ++ " ")))%string.
      repeat (apply line_word; [reflexivity|split; [discriminate|reflexivity]|reflexivity|]). now apply line_end.
    + change " 1  2" with (" " ++ "1" ++ ("  " ++ "2" ++ ""))%string.
      repeat (apply line_word; [reflexivity|split; [discriminate|reflexivity]|reflexivity|]). now apply line_end.
  - repeat constructor.
Qed.
(* a Sellmeier entry and an entry with another formula *)
Definition sell : @dat := {| y_type := "formula 1"; y_data := None; y_coeff := Some "0.5 2 0.1"; y_range := Some "0.5 2"; y_wl_range := None |}.
Definition cauchy : @dat := {| y_type := "formula 2"; y_data := None; y_coeff := Some "1 2 0.1"; y_range := None; y_wl_range := Some "0.5 2" |}.
Definition tabulated : @dat := {| y_type := "tabulated nk"; y_data := Some (join_lines tab_lines); y_coeff := None; y_range := None; y_wl_range := None |}.
Definition sell_db : @db R := {| d_dev := "cpu"; d_model := MSellmeier; d_wl := []; d_wl_dev := "cpu"; d_eps := []; d_eps_dev := "cpu";
  d_coeff := [1/2; 2; 1/10]%R; d_lookup := [] |}.
Lemma sell_loads : load_db ex_pf ex_pi [sell] "cpu" [] = Ok sell_db.
Proof. reflexivity. Qed.
Lemma cauchy_loads : exists m : @db R, load_db ex_pf ex_pi [cauchy] "cpu" [] = Ok m /\ d_model m = MOther 2 /\ d_lookup m = [].
Proof. eexists. split; [reflexivity|]. auto. Qed.
Lemma tab_loads : exists m : @db R, load_db ex_pf ex_pi [tabulated] "cuda" [] = Ok m /\ d_model m = MData /\ d_wl m = [1000 * (1/2); 1000 * 1]%R.
Proof.
  destruct tab_hyps as (H1 & H2 & H3 & H4). pose proof (load_tabulated_means ex_pf tab_lines tab_toks tab_rows H1 H2 H3 H4) as H.
  unfold load_db. cbn [y_type tabulated y_data]. change (split_ws "tabulated nk") with ["tabulated"; "nk"]. cbn [String.eqb Ascii.eqb Bool.eqb].
  rewrite H. cbn. eexists. split; [reflexivity|]. split; reflexivity.
Qed.
Lemma sell_two_calls : exists v v', snd (@get_epsilon_db R ROps sell_db (at_wl 500 (Some 1%nat))) = Ok (scalar_t v) /\
  snd (@get_epsilon_db R ROps (hrun sell_db [HGet (at_wl 500 (Some 1%nat))]) (at_wl 500 (Some 2%nat))) = Ok (scalar_t v') /\
  v_src v = Some 1%nat /\ v_src v' = Some 1%nat.
Proof.
  assert (E : exists v, snd (@get_epsilon_db R ROps sell_db (at_wl 500 (Some 1%nat))) = Ok (scalar_t v)) by (eexists; reflexivity).
  destruct E as [v E]. destruct (memo_src sell_db 500 (Some 1%nat) v [] (Some 2%nat) eq_refl E) as (v' & E' & Es).
  assert (Ev : v_src v = Some 1%nat) by (apply (fresh_src sell_db 500 (Some 1%nat) v eq_refl E); intros _; cbn; lia).
  exists v, v'. split; [exact E|]. split; [exact E'|]. split; [exact Ev|]. now rewrite Es.
Qed.
Definition ex_table : table := [(700%R, RtoC 4); (500%R, RtoC 2); (600%R, RtoC 7)].
Lemma ex_table_nodup : NoDup (map fst ex_table).
Proof. cbn. repeat constructor; cbn; intros H; repeat (destruct H as [H|H]; [lra|]); exact H. Qed.
