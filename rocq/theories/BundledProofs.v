(** The bundled tables are passive at every wavelength, the bundled formulas
    transparent in their range (C93). *)
From Coq Require Import Reals ZArith List Bool String Ascii Arith Lia Lra Permutation.
From Coquelicot Require Import Coquelicot.
From Verif Require Import Ops ROps CLemmas Tensor TensorProofs ModelBatch ModelMaterial MaterialSpec MaterialProofs InterpProofs ModelBundled BundledSpec.
Import ListNotations.
Open Scope nat_scope.
Open Scope list_scope.

(** ** numbers *)
Definition frac (q : Z * Z) : Z * Z := let (m, e) := q in if (0 <=? e)%Z then (m * 10 ^ e, 1)%Z else (m, 10 ^ (- e))%Z.
Definition fv (f : Z * Z) : R := (IZR (fst f) / IZR (snd f))%R.
Lemma dec_frac q : @dec_val R ROps q = fv (frac q).
Proof. destruct q as [m e]. unfold dec_val, frac, fv. destruct (0 <=? e)%Z; cbn [fst snd ROps rofZ rdiv]; [field|reflexivity]. Qed.
Definition frac_of (s : string) : option (Z * Z) := option_map frac (decimal s).
Lemma float_frac s f : frac_of s = Some f -> @py_float R ROps s = Ok (fv f).
Proof. unfold frac_of, py_float. destruct (decimal s) as [q|]; [|discriminate]. intros H. injection H as <-. now rewrite dec_frac. Qed.
Fixpoint all_some {A} (l : list (option A)) : option (list A) :=
  match l with
  | [] => Some []
  | Some a :: l' => match all_some l' with Some r => Some (a :: r) | None => None end
  | None :: _ => None
  end.
Lemma all_some_len {A} (l : list (option A)) : forall r, all_some l = Some r -> List.length r = List.length l.
Proof.
  induction l as [|[a|] l IH]; intros r H; cbn in H; [injection H as <-; reflexivity| |discriminate].
  destruct (all_some l) as [r'|]; [|discriminate]. injection H as <-. cbn. f_equal. now apply IH.
Qed.
Lemma floats_frac l : forall fs, all_some (map frac_of l) = Some fs -> map_res (@py_float R ROps) l = Ok (map fv fs).
Proof.
  induction l as [|s l IH]; intros fs H; [injection H as <-; reflexivity|]. cbn [map all_some] in H.
  destruct (frac_of s) as [f|] eqn:E; [|discriminate]. destruct (all_some _) as [r|]; [|discriminate]. injection H as <-.
  cbn [map_res]. rewrite (float_frac s f E). cbn [bind]. rewrite (IH r eq_refl). reflexivity.
Qed.

(** ** tables, checked on integers *)
Definition zrow : Type := (Z * Z) * (Z * Z) * (Z * Z).
Definition zrow_of (t : list string) : option (option zrow) :=
  match t with
  | [] => Some None
  | [a; b; c] => match frac_of a, frac_of b, frac_of c with Some a, Some b, Some c => Some (Some (a, b, c)) | _, _, _ => None end
  | _ => None
  end.
Definition rval (r : zrow) : R * C := let '(a, b, c) := r in ((1000 * fv a)%R, (fv b * fv b - fv c * fv c, 2 * fv b * fv c)%R).
Lemma zrow_sound t r : zrow_of t = Some r -> load_row (@py_float R ROps) t = Ok (option_map rval r).
Proof.
  destruct t as [|a [|b [|c [|? ?]]]]; try discriminate; cbn [zrow_of].
  - intros H. injection H as <-. reflexivity.
  - destruct (frac_of a) as [fa|] eqn:Ea; [|discriminate]. destruct (frac_of b) as [fb|] eqn:Eb; [|discriminate].
    destruct (frac_of c) as [fc|] eqn:Ec; [|discriminate]. intros H. injection H as <-.
    pose proof (row_nk _ a b c [] _ _ _ (float_frac a fa Ea) (float_frac b fb Eb) (float_frac c fc Ec)) as M.
    rewrite (load_row_means _ _ _ M). reflexivity.
Qed.
Definition zrows (data : string) : option (list (option zrow)) := all_some (map zrow_of (map split_ws (split_lines data))).
Lemma rows_sound l : forall rs, all_some (map zrow_of l) = Some rs -> map_res (load_row (@py_float R ROps)) l = Ok (map (option_map rval) rs).
Proof.
  induction l as [|s l IH]; intros fs H; [injection H as <-; reflexivity|]. cbn [map all_some] in H.
  destruct (zrow_of s) as [f|] eqn:E; [|discriminate]. destruct (all_some _) as [r|]; [|discriminate]. injection H as <-.
  cbn [map_res]. rewrite (zrow_sound s f E). cbn [bind]. rewrite (IH r eq_refl). reflexivity.
Qed.
Lemma somes_map {A B} (f : A -> B) l : somes (map (option_map f) l) = map f (somes l).
Proof. induction l as [|[a|] l IH]; cbn; [reflexivity| |exact IH]. now rewrite IH. Qed.
Lemma table_loads data rs : zrows data = Some rs ->
  load_tabulated (@py_float R ROps) data = Ok (map (fun r => fst (rval r)) (somes rs), map (fun r => snd (rval r)) (somes rs)).
Proof.
  intros H. unfold load_tabulated. rewrite (rows_sound _ _ H). cbn [bind]. rewrite somes_map, !map_map. reflexivity.
Qed.
Definition good_row (r : zrow) : bool :=
  let '(a, b, c) := r in (0 <? snd a)%Z && (0 <? snd b)%Z && (0 <? snd c)%Z && (0 <? fst b)%Z && (0 <=? fst c)%Z.
Definition before (r s : zrow) : bool := let '(a, _, _) := r in let '(b, _, _) := s in (fst a * snd b <? fst b * snd a)%Z.
Fixpoint increasing (l : list zrow) : bool :=
  match l with r :: ((s :: _) as l') => before r s && increasing l' | _ => true end.
Definition check (data : string) : bool :=
  match zrows data with Some rs => let l := somes rs in (0 <? List.length l) && forallb good_row l && increasing l | None => false end.

Lemma fv_lt a b : (0 < snd a)%Z -> (0 < snd b)%Z -> (fst a * snd b < fst b * snd a)%Z -> (fv a < fv b)%R.
Proof.
  intros Ha Hb H. unfold fv. apply IZR_lt in Ha, Hb, H. rewrite !mult_IZR in H.
  apply (Rmult_lt_reg_r (IZR (snd a) * IZR (snd b))); [now apply Rmult_lt_0_compat|].
  replace (IZR (fst a) / IZR (snd a) * (IZR (snd a) * IZR (snd b)))%R with (IZR (fst a) * IZR (snd b))%R by (field; lra).
  replace (IZR (fst b) / IZR (snd b) * (IZR (snd a) * IZR (snd b)))%R with (IZR (fst b) * IZR (snd a))%R by (field; lra). exact H.
Qed.
Lemma good_spec r : good_row r = true -> physical (snd (rval r)).
Proof.
  destruct r as [[a b] c]. unfold good_row. rewrite !andb_true_iff, !Z.ltb_lt, Z.leb_le. intros [[[[H1 H2] H3] H4] H5].
  unfold physical, rval. cbn [fst snd]. assert (Pb : (0 < fv b)%R) by (unfold fv; apply Rdiv_lt_0_compat; now apply IZR_lt).
  destruct (Z.eq_dec (fst c) 0) as [E|N].
  - right. assert (fv c = 0)%R as -> by (unfold fv; rewrite E; unfold Rdiv; ring). split; [ring|]. assert (0 < fv b * fv b)%R by now apply Rmult_lt_0_compat. lra.
  - left. assert (0 < fv c)%R by (unfold fv; apply Rdiv_lt_0_compat; apply IZR_lt; lia). apply Rmult_lt_0_compat; [lra|assumption].
Qed.
Lemma increasing_keys l : forallb good_row l = true -> increasing l = true ->
  NoDup (map (fun r => fst (rval r)) l) /\ forall r l', l = r :: l' -> forall s, In s l' -> (fst (rval r) < fst (rval s))%R.
Proof.
  induction l as [|r l IH]; intros Hg Hi; [split; [constructor|discriminate]|].
  cbn [forallb] in Hg. apply andb_true_iff in Hg as [G0 G]. 
  assert (Hi' : increasing l = true) by (destruct l; [reflexivity|]; cbn [increasing] in Hi; apply andb_true_iff in Hi; apply Hi).
  destruct (IH G Hi') as [ND IL].
  assert (L : forall s, In s l -> (fst (rval r) < fst (rval s))%R).
  { destruct l as [|s l]; [intros ? []|]. cbn [increasing] in Hi. apply andb_true_iff in Hi as [B _].
    assert (L0 : (fst (rval r) < fst (rval s))%R).
    { destruct r as [[a b] c], s as [[a' b'] c']. cbn [forallb] in G. apply andb_true_iff in G as [G1 _].
      unfold good_row in G0, G1. rewrite !andb_true_iff, !Z.ltb_lt in G0, G1. unfold before in B. apply Z.ltb_lt in B.
      unfold rval. cbn [fst]. apply Rmult_lt_compat_l; [lra|]. apply fv_lt; [apply G0|apply G1|exact B]. }
    intros t [<-|Ht]; [exact L0|]. eapply Rlt_trans; [exact L0|]. exact (IL s l eq_refl t Ht). }
  split.
  - cbn [map]. constructor; [|exact ND]. intros Hin. apply in_map_iff in Hin as (s & E & Hs). specialize (L s Hs). rewrite E in L. lra.
  - intros r' l' E s Hs. injection E as <- <-. now apply L.
Qed.
(* the permittivities form a convex cone *)
Lemma physical_mix (y y' : C) (a b : R) : physical y -> physical y' -> (0 <= a)%R -> (0 <= b)%R -> (0 < a + b)%R ->
  physical ((y * RtoC b + y' * RtoC a) / RtoC (a + b))%C.
Proof.
  intros H H' Ha Hb Hab.
  assert (E : ((y * RtoC b + y' * RtoC a) / RtoC (a + b) = ((fst y * b + fst y' * a) / (a + b), (snd y * b + snd y' * a) / (a + b))%R)%C).
  { destruct y as [y1 y2], y' as [u1 u2]. apply injective_projections; cbn; field; intros Q; nra. }
  rewrite E. unfold physical in *. cbn [fst snd].
  assert (P : forall t, (0 < t -> 0 < t / (a + b))%R) by (intros; now apply Rdiv_lt_0_compat).
  assert (M : forall t u, (0 <= t -> 0 <= u -> 0 <= t * u)%R) by (intros; now apply Rmult_le_pos).
  assert (S : forall t u, (0 < t -> 0 < u -> 0 < t * u)%R) by (intros; now apply Rmult_lt_0_compat).
  destruct (Req_dec a 0) as [->|Na]; [|destruct (Req_dec b 0) as [->|Nb]].
  - destruct H as [H|[H1 H2]].
    + left. apply P. pose proof (S (snd y) b H ltac:(lra)). lra.
    + right. rewrite H1. split; [unfold Rdiv; ring|]. apply P. pose proof (S (fst y) b H2 ltac:(lra)). lra.
  - destruct H' as [H'|[H1 H2]].
    + left. apply P. pose proof (S (snd y') a H' ltac:(lra)). lra.
    + right. rewrite H1. split; [unfold Rdiv; ring|]. apply P. pose proof (S (fst y') a H2 ltac:(lra)). lra.
  - assert (pa : (0 < a)%R) by lra. assert (pb : (0 < b)%R) by lra. destruct H as [H|[H1 H2]], H' as [H'|[H1' H2']].
    + left. apply P. pose proof (S (snd y) b H ltac:(lra)). pose proof (S (snd y') a H' ltac:(lra)). lra.
    + left. rewrite H1'. apply P. pose proof (S (snd y) b H ltac:(lra)). lra.
    + left. rewrite H1. apply P. pose proof (S (snd y') a H' ltac:(lra)). lra.
    + right. rewrite H1, H1'. split; [unfold Rdiv; ring|]. apply P. pose proof (S (fst y) b H2 ltac:(lra)). pose proof (S (fst y') a H2' ltac:(lra)). lra.
Qed.
Lemma combine_maps {A B D} (f : A -> B) (g : A -> D) l : combine (map f l) (map g l) = map (fun a => (f a, g a)) l.
Proof. induction l as [|a l IH]; cbn; [reflexivity|]. now rewrite IH. Qed.
Definition fine_at (V : R -> Prop) (y : dat) : Prop := forall d, exists m, @load_db R ROps py_float py_int [y] d [] = Ok m /\
  forall x, V x -> exists e, pure m x = Ok e /\ physical e.
Lemma table_fine y data t0 ts : split_ws (y_type y) = "tabulated"%string :: ts -> y_data y = Some data -> check data = true -> t0 = ts -> forall V, fine_at V y.
Proof.
  intros Ht Hd Hc _ V d. unfold check in Hc. destruct (zrows data) as [rs|] eqn:Ez; [|discriminate].
  rewrite !andb_true_iff in Hc. destruct Hc as [[Hl Hg] Hi]. apply Nat.ltb_lt in Hl.
  set (l := somes rs) in *. pose proof (table_loads data rs Ez) as L. fold l in L.
  unfold load_db. rewrite Ht. cbn [String.eqb Ascii.eqb Bool.eqb]. rewrite Hd, L. cbn [bind fst snd].
  destruct (increasing_keys l Hg Hi) as [ND _].
  assert (NE : map (fun r => fst (rval r)) l <> []) by (destruct l; [cbn in Hl; lia|discriminate]).
  assert (LE : List.length (map (fun r => fst (rval r)) l) = List.length (map (fun r => snd (rval r)) l)) by now rewrite !map_length.
  destruct (map (fun r => fst (rval r)) l) as [|w ws] eqn:Ew; [contradiction|]. cbn [bind init_lookup].
  eexists. split; [reflexivity|]. intros x _. unfold pure. cbn [d_model d_wl d_eps].
  rewrite interp_defined by assumption. cbn [bind at_ tmap scalar_t]. eexists. split; [reflexivity|].
  set (t := combine (w :: ws) (map (fun r => snd (rval r)) l)).
  assert (Et : t = map (fun r => (fst (rval r), snd (rval r))) l) by (unfold t; rewrite <- Ew; apply combine_maps).
  assert (NDt : NoDup (map fst t)) by (rewrite Et, map_map; cbn [fst]; rewrite Ew; exact ND).
  assert (NEt : t <> []) by (rewrite Et; destruct l; [cbn in Hl; lia|discriminate]).
  pose proof (table_weights t x NDt NEt) as W. change (@sort_rows R ROps t) with (srt t). rewrite interp_weighted. unfold weighted.
  destruct (@interp_parts R ROps (srt t) x) as [[[yl yr] dl] dr]. destruct W as (W1 & W2 & W3 & I1 & I2).
  assert (PH : forall c, In c (map snd t) -> physical c).
  { intros c Hin. rewrite Et, map_map in Hin. cbn [snd] in Hin. apply in_map_iff in Hin as (r & <- & Hr). apply good_spec.
    rewrite forallb_forall in Hg. now apply Hg. }
  apply physical_mix; auto.
Qed.

(** ** dispersion formulas: a real permittivity above 1 *)
Lemma pole_below (b c u : R) : (0 <= b)%R -> (c * c < u)%R -> (b <= b * u / (u - c * c))%R.
Proof.
  intros Hb Hu. replace (b * u / (u - c * c))%R with (b + b * (c * c) / (u - c * c))%R by (field; lra).
  assert (0 <= b * (c * c) / (u - c * c))%R; [|lra]. apply Rmult_le_pos; [|left; apply Rinv_0_lt_compat; lra].
  apply Rmult_le_pos; [assumption|]. apply (Rle_0_sqr c).
Qed.
Lemma pole_above (b c u v : R) : (0 <= b)%R -> (u <= v)%R -> (v < c * c)%R -> (- (b * v / (c * c - v)) <= b * u / (u - c * c))%R.
Proof.
  intros Hb Hu Hv.
  replace (b * u / (u - c * c))%R with (- (b * v / (c * c - v)) + b * (c * c) * ((v - u) * / (c * c - v) * / (c * c - u)))%R by (field; lra).
  assert (0 <= b * (c * c) * ((v - u) * / (c * c - v) * / (c * c - u)))%R; [|lra].
  apply Rmult_le_pos; [apply Rmult_le_pos; [assumption|apply (Rle_0_sqr c)]|].
  apply Rmult_le_pos; [apply Rmult_le_pos; [lra|]|]; left; apply Rinv_0_lt_compat; lra.
Qed.
Lemma formula_fine y fs c0 ps r1 r2 (V : R -> Prop) : split_ws (y_type y) = ["formula"%string; "1"%string] ->
  option_map (fun s => all_some (map frac_of (split_ws s))) (y_coeff y) = Some (Some fs) ->
  option_map (fun s => all_some (map frac_of (split_ws s))) (match y_range y with Some r => Some r | None => y_wl_range y end) = Some (Some [r1; r2]) ->
  map fv fs = c0 :: flat ps ->
  (forall x, V x -> 0 < 1 + c0 + rsumR (map (fun bc => fst bc * (x/1000 * (x/1000)) / (x/1000 * (x/1000) - snd bc * snd bc)) ps))%R ->
  fine_at V y.
Proof.
  intros Ht Hc Hr Hf HV d. destruct (y_coeff y) as [s|] eqn:Es; [|discriminate]. cbn [option_map] in Hc. injection Hc as Hc.
  unfold load_db. rewrite Ht. cbn [String.eqb Ascii.eqb Bool.eqb]. unfold load_formula. rewrite Ht, Es.
  change (@py_int "1"%string) with (@Ok Z 1%Z). cbn [bind]. rewrite (floats_frac _ _ Hc). cbn [bind].
  destruct (match y_range y with Some r => Some r | None => y_wl_range y end) as [r|]; [|discriminate]. cbn [option_map] in Hr. injection Hr as Hr.
  pose proof (floats_frac _ _ Hr) as F. apply all_some_len in Hr. rewrite map_length in Hr.
  destruct (split_ws r) as [|a [|b [|? ?]]]; try discriminate Hr.
  cbn [map_res] in F. destruct (py_float a) as [ra|]; [|discriminate]. cbn [bind] in F. destruct (py_float b) as [rb|]; [|discriminate].
  cbn [bind init_lookup Z.eqb Pos.eqb]. eexists. split; [reflexivity|]. intros x Hx. unfold pure. cbn [d_model d_coeff].
  rewrite Hf, sellmeier_flat. cbn [bind]. eexists. split; [reflexivity|]. right. cbn [RtoC fst snd]. split; [reflexivity|]. now apply HV.
Qed.
Lemma valid_sq a b x : (0 <= a)%R -> (a <= x <= b)%R -> (a/1000 * (a/1000) <= x/1000 * (x/1000) <= b/1000 * (b/1000))%R.
Proof. intros. split; apply Rmult_le_compat; lra. Qed.
Ltac num := unfold fv; cbn [fst snd]; lra.
Ltac coeffs l := eapply (formula_fine _ _ _ l);
  [reflexivity | vm_compute; reflexivity | vm_compute; reflexivity | cbn [map flat]; reflexivity | ].
Ltac three b1 c1 b2 c2 b3 c3 lo hi :=
  coeffs ([(fv b1, fv c1); (fv b2, fv c2); (fv b3, fv c3)]);
  intros x Hx; specialize (Hx lo hi ltac:(cbn; tauto)); pose proof (valid_sq lo hi x ltac:(lra) Hx) as U; cbn [map rsumR fold_right fst snd];
  set (u := (x/1000 * (x/1000))%R) in *;
  pose proof (pole_below (fv b1) (fv c1) u ltac:(num) ltac:(num)) as P1;
  pose proof (pole_below (fv b2) (fv c2) u ltac:(num) ltac:(num)) as P2;
  pose proof (pole_above (fv b3) (fv c3) u (hi/1000 * (hi/1000)) ltac:(num) ltac:(lra) ltac:(num)) as P3;
  assert (P4 : (fv b3 * (hi/1000 * (hi/1000)) / (fv c3 * fv c3 - hi/1000 * (hi/1000)) <= 1)%R) by num;
  assert (P5 : (0 < fv b1 + fv b2)%R) by num; assert (P6 : (fv (0, 1)%Z = 0)%R) by num;
  lra.
Lemma fine_Al2O3e : fine_at (valid_at "Al2O3e_Malitson1972.yml") f_Al2O3e_Malitson1972.
Proof. three (15039759, 10000000)%Z (740288, 10000000)%Z (55069141, 100000000)%Z (1216529, 10000000)%Z (65927379, 10000000)%Z (20072248, 1000000)%Z 200%R 5000%R. Qed.
Lemma fine_Al2O3o : fine_at (valid_at "Al2O3o_Malitson1972.yml") f_Al2O3o_Malitson1972.
Proof. three (14313493, 10000000)%Z (726631, 10000000)%Z (65054713, 100000000)%Z (1193242, 10000000)%Z (53414021, 10000000)%Z (18028251, 1000000)%Z 200%R 5000%R. Qed.
Lemma fine_SiO2 : fine_at (valid_at "SiO2_Malitson1965.yml") f_SiO2_Malitson1965.
Proof. three (6961663, 10000000)%Z (684043, 10000000)%Z (4079426, 10000000)%Z (1162414, 10000000)%Z (8974794, 10000000)%Z (9896161, 1000000)%Z 210%R 6700%R. Qed.
Lemma fine_ZrO2 : fine_at (valid_at "ZrO2_Wood1982.yml") f_ZrO2_Wood1982.
Proof. three (1347091, 1000000)%Z (62543, 1000000)%Z (2117788, 1000000)%Z (166739, 1000000)%Z (9452943, 1000000)%Z (24320570, 1000000)%Z 361%R 5135%R. Qed.
Lemma fine_Si3N4 : fine_at (valid_at "Si3N4_Luke2015.yml") f_Si3N4_Luke2015.
Proof.
  coeffs ([(fv (30249, 10000)%Z, fv (1353406, 10000000)%Z); (fv (40314, 1)%Z, fv (1239842, 1000)%Z)]).
  intros x Hx; specialize (Hx 310%R 5504%R ltac:(cbn; tauto)); pose proof (valid_sq 310 5504 x ltac:(lra) Hx) as U; cbn [map rsumR fold_right fst snd].
  set (u := (x/1000 * (x/1000))%R) in *.
  pose proof (pole_below (fv (30249, 10000)%Z) (fv (1353406, 10000000)%Z) u ltac:(num) ltac:(num)) as P1.
  pose proof (pole_above (fv (40314, 1)%Z) (fv (1239842, 1000)%Z) u (5504/1000 * (5504/1000)) ltac:(num) ltac:(lra) ltac:(num)) as P3.
  assert (P4 : (fv (40314, 1)%Z * (5504/1000 * (5504/1000)) / (fv (1239842, 1000)%Z * fv (1239842, 1000)%Z - 5504/1000 * (5504/1000)) <= 1)%R) by num.
  assert (P5 : (0 < fv (30249, 10000)%Z)%R) by num. assert (P6 : (fv (0, 1)%Z = 0)%R) by num. lra.
Qed.
Ltac table := eapply table_fine; [reflexivity|reflexivity|vm_compute; reflexivity|reflexivity].
Lemma bundled_fine : List.Forall (fun fy => fine_at (valid_at (fst fy)) (snd fy)) bundled.
Proof.
  unfold bundled. repeat constructor; cbn [fst snd];
  first [exact fine_Al2O3e | exact fine_Al2O3o | exact fine_SiO2 | exact fine_ZrO2 | exact fine_Si3N4 | table].
Qed.

(** ** evaluation after any history *)
Lemma pures_phys m (V : R -> Prop) ks : (forall x, V x -> exists e, pure m x = Ok e /\ physical e) -> List.Forall V ks ->
  exists es, pures m ks = Ok es /\ List.length es = List.length ks /\ List.Forall physical es.
Proof.
  intros H. induction ks as [|k ks IH]; intros Hf; [exists []; split; [reflexivity|split; [reflexivity|constructor]]|].
  inversion_clear Hf as [|? ? Hk Hks]. destruct (IH Hks) as (es & E & L & P). destruct (H k Hk) as (e & Ee & Pe).
  exists (e :: es). unfold pures in *. cbn [map_res]. rewrite Ee. cbn [bind]. rewrite E. cbn [bind]. split; [reflexivity|]. split; [cbn; now rewrite L|now constructor].
Qed.
Lemma indices_vec n : List.length (indices [n]) = n.
Proof. cbn [indices]. generalize 0. induction n as [|n IH]; intros k; [reflexivity|]. cbn. f_equal. apply IH. Qed.
Lemma history_phys (V : R -> Prop) m h a : inv m -> (forall x, V x -> exists e, pure m x = Ok e /\ physical e) ->
  (shp (squeeze (wa_t a)) = [] \/ exists K, shp (squeeze (wa_t a)) = [S K]) -> List.Forall V (entries (squeeze (wa_t a))) ->
  exists u, snd (@get_epsilon_db R ROps (hrun m h) a) = Ok u /\ shp u = shp (squeeze (wa_t a)) /\ forall ix, in_bounds (shp u) ix -> physical (v_eps (at_ u ix)).
Proof.
  intros Hi HV Hs Hf. destruct (hrun_inv h m Hi) as [Hi' St]. pose proof (get_epsilon_inv _ a Hi') as G.
  destruct (get_epsilon_db (hrun m h) a) as [m' r]. destruct G as (_ & _ & G). cbn [snd]. unfold get_spec in G.
  assert (HV' : forall x, V x -> exists e, pure (hrun m h) x = Ok e /\ physical e).
  { intros x Hx. destruct (HV x Hx) as (e & E & P). exists e. split; [|exact P]. rewrite (pure_static _ _ _ St). exact E. }
  set (t := squeeze (wa_t a)) in *. destruct Hs as [Hs|[K Hs]].
  - rewrite Hs in G |- *. assert (Vx : V (at_ t [])).
    { rewrite List.Forall_forall in Hf. apply Hf. unfold entries. rewrite Hs. now left. }
    destruct (HV' _ Vx) as (e & E & P). rewrite E in G. destruct G as (s & ->). eexists. split; [reflexivity|]. split; [reflexivity|]. intros ix _. exact P.
  - rewrite Hs in G |- *. destruct (pures_phys _ V _ HV' Hf) as (es & E & L & P). rewrite E in G.
    assert (L' : List.length es = S K) by (rewrite L; unfold entries; rewrite map_length, Hs; apply indices_vec).
    destruct es as [|e0 es]; [discriminate L'|]. destruct G as (u & -> & Su & Hu). exists u. split; [reflexivity|]. rewrite L' in Su. split; [exact Su|].
    intros ix _. destruct (Hu ix) as [-> _]. rewrite List.Forall_forall in P.
    destruct (Nat.lt_ge_cases (nth 0 ix 0) (List.length (e0 :: es))) as [B|B]; [apply P; now apply nth_In|]. rewrite nth_overflow by exact B. apply P. now left.
Qed.

(** ** the registry *)
Lemma before_us_spec n rest : no_underscore n -> before_us (n ++ "_" ++ rest)%string = n.
Proof.
  induction n as [|c n IH]; intros H; [reflexivity|]. destruct H as [H1 H2]. cbn [append before_us]. destruct (Ascii.eqb_spec c "_"%char); [contradiction|]. f_equal. exact (IH H2).
Qed.
Lemma dict_get_set d k v k' : dict_get (dict_set d k v) k' = if String.eqb k' k then Some v else dict_get d k'.
Proof.
  induction d as [|[a b] d IH]; [reflexivity|]. cbn [dict_set]. destruct (String.eqb_spec k a) as [->|N].
  - cbn [dict_get]. now destruct (String.eqb k' a).
  - cbn [dict_get]. destruct (String.eqb_spec k' a) as [->|N2].
    + destruct (String.eqb_spec a k); [congruence|reflexivity].
    + exact IH.
Qed.
Lemma dict_get_in d k : dict_get d k <> None <-> In k (map fst d).
Proof.
  induction d as [|[a b] d IH]; [cbn; tauto|]. cbn [dict_get map In fst]. destruct (String.eqb_spec k a) as [->|N].
  - split; intros; [now left|discriminate].
  - rewrite IH. split; [now right|]. intros [E|H]; [congruence|exact H].
Qed.
Lemma reg_get fs : forall d k, NoDup (map key_of fs) ->
  dict_get (fold_left (fun d f => dict_set d (key_of f) f) fs d) k =
  match find (fun f => String.eqb k (key_of f)) fs with Some f => Some f | None => dict_get d k end.
Proof.
  induction fs as [|f fs IH]; intros d k ND; [reflexivity|]. cbn [fold_left find map] in *. inversion_clear ND as [|? ? Hn ND'].
  rewrite IH by exact ND'. rewrite dict_get_set. destruct (String.eqb_spec k (key_of f)) as [->|N]; [|reflexivity].
  destruct (find (fun f0 => String.eqb (key_of f) (key_of f0)) fs) as [g|] eqn:E; [|reflexivity].
  exfalso. apply find_some in E as [Hin E]. apply String.eqb_eq in E. apply Hn. rewrite E. now apply in_map.
Qed.
Lemma reg_find fs f : NoDup (map key_of fs) -> In f fs -> dict_get (refindex_data fs) (key_of f) = Some f.
Proof.
  intros ND Hin. unfold refindex_data. rewrite reg_get by exact ND.
  induction fs as [|g fs IH]; [contradiction|]. cbn [find map] in *. inversion_clear ND as [|? ? Hn ND'].
  destruct (String.eqb_spec (key_of f) (key_of g)) as [E|N].
  - destruct Hin as [->|Hin]; [reflexivity|]. exfalso. apply Hn. rewrite <- E. now apply in_map.
  - destruct Hin as [->|Hin]; [congruence|]. now apply IH.
Qed.
Lemma source_found fs material f name : NoDup (map key_of fs) -> In f fs -> file_for material f -> lower name = lower material -> name <> EmptyString ->
  find_source (refindex_data fs) name = Ok (DataFile f material).
Proof.
  intros ND Hin (Hu & rest & E) Hl Hne. assert (B : before_us f = material) by (rewrite E; now apply before_us_spec).
  unfold find_source. destruct (String.eqb_spec name EmptyString); [contradiction|].
  assert (key_of f = lower name) as <- by (unfold key_of; now rewrite B). rewrite (reg_find fs f ND Hin), B. reflexivity.
Qed.
Lemma source_listed reg name : name <> EmptyString ->
  (find_source reg name = Err ValueError <-> exists l, list_available_materials reg false = Ok l /\ ~ In (lower name) l).
Proof.
  intros Hne. unfold find_source, list_available_materials. destruct (String.eqb_spec name EmptyString); [contradiction|].
  pose proof (dict_get_in reg (lower name)) as D. destruct (dict_get reg (lower name)) as [f|].
  - split; [discriminate|]. intros (l & E & N). injection E as <-. exfalso. apply N, D. discriminate.
  - split; [|reflexivity]. intros _. exists (map fst reg). split; [reflexivity|]. intros Hin. now apply D in Hin.
Qed.
Lemma bundled_keys : NoDup (map key_of (map fst bundled)).
Proof. assert (nodup string_dec (map key_of (map fst bundled)) = map key_of (map fst bundled)) as <- by (vm_compute; reflexivity). apply NoDup_nodup. Qed.
Lemma bundled_files : NoDup (map fst bundled).
Proof. apply (NoDup_map_inv key_of), bundled_keys. Qed.
Lemma assoc_in {A} (l : list (string * A)) k v : NoDup (map fst l) -> In (k, v) l -> assoc l k = Some v.
Proof.
  unfold assoc. induction l as [|[a b] l IH]; [contradiction|]. intros ND Hin. cbn [find map fst] in *. inversion_clear ND as [|? ? Hn ND'].
  destruct (String.eqb_spec k a) as [->|N].
  - destruct Hin as [E|Hin]; [injection E as <-; reflexivity|]. exfalso. apply Hn. now apply (in_map fst) in Hin.
  - destruct Hin as [E|Hin]; [congruence|]. now apply IH.
Qed.
Lemma perm_keys fs : Permutation fs (map fst bundled) -> NoDup (map key_of fs).
Proof. intros P. apply (Permutation_NoDup (l := map key_of (map fst bundled))); [now apply Permutation_sym, Permutation_map|apply bundled_keys]. Qed.
Lemma bundled_db fs f y material name d : Permutation fs (map fst bundled) -> In (f, y) bundled -> file_for material f ->
  lower name = lower material -> name <> EmptyString ->
  exists m, @mat_database R ROps (refindex_data fs) bundled name d = Ok (Some m) /\ d_dev m = d /\ inv m /\
    forall x, valid_at f x -> exists e, pure m x = Ok e /\ physical e.
Proof.
  intros P Hin Hf Hl Hne. unfold mat_database.
  assert (Hin' : In f fs) by (apply (Permutation_in _ (Permutation_sym P)); now apply (in_map fst) in Hin).
  rewrite (source_found fs material f name (perm_keys fs P) Hin' Hf Hl Hne). cbn [bind].
  rewrite (assoc_in bundled f y bundled_files Hin). pose proof bundled_fine as F. rewrite List.Forall_forall in F.
  destruct (F _ Hin d) as (m & E & H). cbn [fst snd] in *. rewrite E. cbn [bind]. exists m. split; [reflexivity|].
  destruct (load_inv0 _ _ _ _ _ E) as (I & D & _). split; [exact D|split; [exact I|exact H]].
Qed.

(** ** outside the range of a formula *)
Lemma silica_outside : exists m, @mat_database R ROps (refindex_data (map fst bundled)) bundled "SiO2" "cpu" = Ok (Some m) /\
  exists v, snd (@get_epsilon_db R ROps m (at_wl 9000 None)) = Ok (scalar_t v) /\ ~ physical (v_eps v).
Proof.
  pose (fs := [(0, 1); (6961663, 10000000); (684043, 10000000); (4079426, 10000000); (1162414, 10000000); (8974794, 10000000); (9896161, 1000000)]%Z).
  unfold mat_database. assert (find_source (refindex_data (map fst bundled)) "SiO2" = Ok (DataFile "SiO2_Malitson1965.yml" "SiO2")) as -> by (vm_compute; reflexivity).
  cbn [bind]. assert (assoc bundled "SiO2_Malitson1965.yml" = Some f_SiO2_Malitson1965) as -> by (apply assoc_in; [apply bundled_files|]; cbn; tauto).
  unfold load_db, load_formula. cbn [f_SiO2_Malitson1965 y_type y_coeff y_range y_wl_range].
  change (split_ws "formula 1") with ["formula"%string; "1"%string]. cbn [String.eqb Ascii.eqb Bool.eqb]. change (py_int "1") with (@Ok Z 1%Z). cbn [bind].
  rewrite (floats_frac _ fs) by (vm_compute; reflexivity). cbn [bind].
  change (split_ws "0.21 6.7") with ["0.21"%string; "6.7"%string]. cbv iota beta.
  rewrite (float_frac "0.21" (21, 100)%Z) by (vm_compute; reflexivity). cbn [bind]. rewrite (float_frac "6.7" (67, 10)%Z) by (vm_compute; reflexivity).
  cbn [bind init_lookup Z.eqb Pos.eqb]. eexists. split; [reflexivity|].
  match goal with |- context [get_epsilon_db ?m _] => destruct (sellmeier_get m (fv (0, 1)%Z)
    [(fv (6961663, 10000000)%Z, fv (684043, 10000000)%Z); (fv (4079426, 10000000)%Z, fv (1162414, 10000000)%Z); (fv (8974794, 10000000)%Z, fv (9896161, 1000000)%Z)] 9000 None) as (v & E & V) end.
  - split; cbn; [discriminate|intros ? ? []].
  - reflexivity.
  - reflexivity.
  - intros bc [<-|[<-|[<-|[]]]]; unfold fv; cbn [fst snd]; lra.
  - exists v. split; [exact E|]. rewrite V. cbn [map fold_right fst snd]. unfold physical, RtoC, fv. cbn [fst snd]. intros [Q|[_ Q]]; [lra|]. lra.
Qed.
Lemma bundled_physical fs f y material name d : Permutation fs (map fst bundled) -> In (f, y) bundled -> file_for material f ->
  lower name = lower material -> name <> EmptyString ->
  exists m, @mat_database R ROps (refindex_data fs) bundled name d = Ok (Some m) /\ d_dev m = d /\
  forall h (a : @warg R), (shp (squeeze (wa_t a)) = [] \/ exists K, shp (squeeze (wa_t a)) = [S K]) -> List.Forall (valid_at f) (entries (squeeze (wa_t a))) ->
  exists u, snd (@get_epsilon_db R ROps (hrun m h) a) = Ok u /\ shp u = shp (squeeze (wa_t a)) /\
    forall ix, in_bounds (shp u) ix -> physical (ModelMaterial.v_eps (at_ u ix)).
Proof.
  intros P Hin Hf Hl Hne. destruct (bundled_db fs f y material name d P Hin Hf Hl Hne) as (m & E & D & I & H). exists m. split; [exact E|]. split; [exact D|].
  intros h a. now apply history_phys.
Qed.
Lemma fold_set_nonempty fs : forall d, d <> [] -> fold_left (fun d f => dict_set d (key_of f) f) fs d <> [].
Proof.
  induction fs as [|f fs IH]; intros d Hd; [exact Hd|]. cbn [fold_left]. apply IH. destruct d as [|[a b] d]; [contradiction|]. cbn. now destruct (String.eqb _ _).
Qed.
Lemma verbose_fails f fs : list_available_materials (refindex_data (f :: fs)) true = Err TypeError.
Proof.
  unfold list_available_materials, refindex_data. cbn [fold_left dict_set]. pose proof (fold_set_nonempty fs [(key_of f, f)] ltac:(discriminate)) as N.
  now destruct (fold_left _ fs _).
Qed.
