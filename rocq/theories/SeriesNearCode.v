(** The code's near fields against the converged multipole series (C86). *)
From Coq Require Import Reals ZArith Lra Lia Bool List Arith.
From Coquelicot Require Import Coquelicot.
From Verif Require Import Ops ROps Spec StackSpec CLemmas CTrig BesselSpec ConvergeSpec ModelSpecial ModelMie StackProofs StackConverge NearLegacyCall
  ModelNear NearSpec NearField MaxwellSpec NearLimitSpec NearExact NearFieldLimit PassiveSpec PassiveStack SeriesSpec SeriesNear ExampleMaxwell.
Import ListNotations.
Open Scope R_scope.
Arguments Cmod x%C_scope.

Lemma cart_le th ph (u v : @vec3 R) (e : R) (c : @vec3 R -> C) : (c = v1 \/ c = v2 \/ c = v3) ->
  Cmod (v1 u - v1 v)%C <= e -> Cmod (v2 u - v2 v)%C <= e -> Cmod (v3 u - v3 v)%C <= e ->
  Cmod (c (@field_to_xyz R ROps th ph u) - c (@field_to_xyz R ROps th ph v))%C <= 3 * e.
Proof.
  intros Hc H1 H2 H3. pose proof (SIN_bound th). pose proof (COS_bound th). pose proof (SIN_bound ph). pose proof (COS_bound ph).
  assert (e0 : 0 <= e) by (pose proof (Cmod_ge_0 (v1 u - v1 v)%C); lra).
  assert (G : forall a b, Rabs a <= 1 -> Rabs b <= 1 -> forall w : C, Cmod w <= e -> Cmod (RtoC a * RtoC b * w)%C <= e).
  { intros a b Ha Hb w Hw. rewrite !Cmod_mult, !Cmod_R. pose proof (Rabs_pos a). pose proof (Rabs_pos b). pose proof (Cmod_ge_0 w). assert (Rabs a * Rabs b <= 1) by nra. assert (0 <= Rabs a * Rabs b) by nra. nra. }
  assert (T : forall p q r : C, Cmod p <= e -> Cmod q <= e -> Cmod r <= e -> Cmod (p + q + r)%C <= 3 * e).
  { intros p q r Hp Hq Hr. pose proof (Cmod_triangle (p + q)%C r). pose proof (Cmod_triangle p q). lra. }
  assert (S : forall t, Rabs (sin t) <= 1) by (intros; apply Rabs_le, SIN_bound). assert (K : forall t, Rabs (cos t) <= 1) by (intros; apply Rabs_le, COS_bound).
  assert (O : Rabs 1 <= 1) by (rewrite Rabs_R1; lra). assert (O' : Rabs (-1) <= 1) by (apply Rabs_le; lra). assert (Z : Rabs 0 <= 1) by (rewrite Rabs_R0; lra).
  assert (M1 : RtoC (-1) = (- RtoC 1)%C) by (rewrite <- RtoC_opp; f_equal; lra).
  destruct u as [[u1 u2] u3], v as [[w1 w2] w3]. unfold v1, v2, v3 in *. cbn [fst snd] in *.
  destruct Hc as [-> | [-> | ->]]; unfold field_to_xyz, v1, v2, v3; cbn [fst snd]; toC; cbn [rsin rcos rmul ropp rzero ROps]; rewrite ?RtoC_mult, ?RtoC_opp.
  - replace (_ - _)%C with (RtoC (sin th) * RtoC (cos ph) * (u1 - w1) + RtoC (cos th) * RtoC (cos ph) * (u2 - w2) + RtoC (-1) * RtoC (sin ph) * (u3 - w3))%C; [|rewrite M1; match goal with |- ?a = ?b => change (@eq C a b) end; ring]. apply T; apply G; auto.
  - replace (_ - _)%C with (RtoC (sin th) * RtoC (sin ph) * (u1 - w1) + RtoC (cos th) * RtoC (sin ph) * (u2 - w2) + RtoC 1 * RtoC (cos ph) * (u3 - w3))%C; [|match goal with |- ?a = ?b => change (@eq C a b) end; ring]. apply T; apply G; auto.
  - replace (_ - _)%C with (RtoC 1 * RtoC (cos th) * (u1 - w1) + RtoC (-1) * RtoC (sin th) * (u2 - w2) + RtoC 0 * RtoC 0 * (u3 - w3))%C; [|rewrite M1; match goal with |- ?a = ?b => change (@eq C a b) end; ring]. apply T; apply G; auto.
Qed.
Lemma solutions_exist l0 rest : passive_stack (l0 :: rest) -> exists As, all_orders l0 rest As.
Proof. intros Hp. exists (fun n => map (gsol n l0 rest) (seq 0 (S (length (l0 :: rest))))). intros n Hn. exact (tab_solution n Hn l0 rest Hp). Qed.

Section Particle.
  Variables (k0 : R) (eps_env : C) (core : R * C) (shells : list (R * C)).
  Notation l0 := (@layer_of R ROps k0 eps_env core). Notation rest := (map (@layer_of R ROps k0 eps_env) shells).
  Notation rd := (@radii R core shells). Notation nenv := (@csqrt R ROps eps_env).
  Notation med i := (@n_medium R ROps eps_env core shells i).
  Hypothesis Hk : 0 < k0.
  Hypothesis Hp : passive_stack (l0 :: rest).
  Lemma rd_len : length rd = length (l0 :: rest). Proof. unfold radii. cbn [map length]. now rewrite !map_length. Qed.
  Lemma size_of j : (j < length rd)%nat -> size_at (l0 :: rest) j = (RtoC k0 * nenv * RtoC (nth j rd 0))%C.
  Proof.
    intros Hj. unfold size_at. change (l0 :: rest) with (map (@layer_of R ROps k0 eps_env) (core :: shells)). unfold radii in *. rewrite map_length in Hj.
    rewrite (nth_indep _ _ (@layer_of R ROps k0 eps_env core)) by now rewrite map_length. rewrite map_nth. rewrite (nth_indep _ 0 (fst core)) by now rewrite map_length. rewrite map_nth. unfold layer_of. cbn [snd fst]. toC. reflexivity.
  Qed.
  Lemma env_nz : nenv <> RtoC 0.
  Proof.
    intros Q. destruct (Hp 0%nat ltac:(cbn; lia)) as (_ & _ & _ & H & _). rewrite size_of in H by (unfold radii; cbn; lia). rewrite Q in H. replace (RtoC k0 * RtoC 0 * RtoC (nth 0 rd 0))%C with (RtoC 0) in H by ring. cbn in H. lra.
  Qed.
  Lemma rad_pos j : (j < length rd)%nat -> 0 < nth j rd 0.
  Proof.
    intros Hj. destruct (Hp j ltac:(rewrite (eq_sym rd_len : length (_ :: map _ _) = _) || (pose proof rd_len as Q; rewrite Q in Hj); exact Hj)) as (_ & _ & _ & H & _). rewrite size_of in H by exact Hj. pose proof (csqrt_Re eps_env) as E.
    assert (G : forall (n : C) (a : R), 0 <= fst n -> 0 < fst (RtoC k0 * n * RtoC a)%C -> 0 < a).
    { intros [n1 n2] a. cbn. intros E1 E2. apply Rnot_le_lt. intros Q. assert (Z : 0 <= k0 * n1) by (apply Rmult_le_pos; lra). assert (0 <= k0 * n1 * - a) by (apply Rmult_le_pos; lra). lra. }
    exact (G _ _ E H).
  Qed.
  Lemma index_of i : (i <= length rd)%nat -> (index_at (l0 :: rest) i * nenv)%C = med i.
  Proof.
    intros Hi. pose proof env_nz as E. unfold index_at, n_medium. destruct (Nat.eqb_spec i (length rd)) as [->|Hne].
    - rewrite nth_overflow by (apply Nat.eq_le_incl; symmetry; exact rd_len). cbn [fst]. ring.
    - change (l0 :: rest) with (map (@layer_of R ROps k0 eps_env) (core :: shells)). assert (Hl : (i < length (core :: shells))%nat) by (replace (length (core :: shells)) with (length rd) by (unfold radii; apply map_length); lia).
      rewrite (nth_indep _ _ (@layer_of R ROps k0 eps_env core)) by now rewrite map_length. rewrite map_nth. unfold layer_of. cbn [fst]. toC. match goal with |- ?a = ?b => change (@eq C a b) end. field. exact E.
  Qed.
  Lemma boundary_mod i j : (i <= length rd)%nat -> (j < length rd)%nat -> Cmod (index_at (l0 :: rest) i * size_at (l0 :: rest) j)%C = k0 * Cmod (med i) * nth j rd 0.
  Proof.
    intros Hi Hj. rewrite size_of by exact Hj. replace (index_at (l0 :: rest) i * (RtoC k0 * nenv * RtoC (nth j rd 0)))%C with (RtoC k0 * (index_at (l0 :: rest) i * nenv) * RtoC (nth j rd 0))%C by ring.
    rewrite index_of by exact Hi. pose proof (rad_pos j Hj). rewrite !Cmod_mult, !Cmod_R, !Rabs_pos_eq by lra. reflexivity.
  Qed.
  Lemma med_Re i : 0 <= fst (med i). Proof. unfold n_medium. destruct (Nat.eqb _ _); apply csqrt_Re. Qed.
  (* a point not within 1e-8 / (k0 |m|) of an interface has its (shifted) radial argument in its own region *)
  Lemma clear_point (r : R) : 0 <= r -> increasing rd -> let li := below rd r in
    (forall a, In a rd -> @rtenth R ROps 8 < k0 * Cmod (med li) * Rabs (r - a)) -> in_layer (l0 :: rest) li (@rho_at R ROps k0 (med li) r).
  Proof.
    intros Hr Hinc li Hc. right. pose proof e8_small as [E0 _]. set (e := @rtenth R ROps 8) in *. pose proof (below_le rd r) as Bl. fold li in Bl. pose proof (med_Re li) as M0. pose proof (Cmod_ge_0 (med li)) as MM.
    assert (ER : @rho_at R ROps k0 (med li) r = (RtoC k0 * med li * RtoC r + RtoC e)%C) by (unfold rho_at; toC; reflexivity). rewrite ER.
    assert (B1 : Cmod (RtoC k0 * med li * RtoC r)%C = k0 * Cmod (med li) * r) by (rewrite !Cmod_mult, !Cmod_R, !Rabs_pos_eq by lra; reflexivity).
    assert (U : Cmod (RtoC k0 * med li * RtoC r + RtoC e)%C <= k0 * Cmod (med li) * r + e). { eapply Rle_trans; [apply Cmod_triangle|]. rewrite B1, Cmod_R, Rabs_pos_eq by lra. lra. }
    assert (D : k0 * Cmod (med li) * r - e <= Cmod (RtoC k0 * med li * RtoC r + RtoC e)%C).
    { rewrite <- B1. pose proof (Cmod_triangle (RtoC k0 * med li * RtoC r + RtoC e)%C (- RtoC e)%C) as T. replace (RtoC k0 * med li * RtoC r + RtoC e + - RtoC e)%C with (RtoC k0 * med li * RtoC r)%C in T by ring. rewrite Cmod_opp, Cmod_R, Rabs_pos_eq in T by lra. lra. }
    split; [|split].
    - intros Q. apply (f_equal fst) in Q. destruct (med li) as [m1 m2]. cbn in Q, M0. assert (0 <= k0 * m1) by (apply Rmult_le_pos; lra). nra.
    - destruct li as [|j] eqn:El; [exact I|]. assert (Hj : (j < length rd)%nat) by lia. rewrite boundary_mod by lia. assert (L : nth j rd 0 < r) by (apply (below_spec rd r Hinc j); clear -El Bl; unfold li in *; lia). specialize (Hc (nth j rd 0) (nth_In rd 0 Hj)). rewrite Rabs_pos_eq in Hc by lra. rewrite Rmult_minus_distr_l in Hc. lra.
    - intros Hl0. assert (Hl : (li < length rd)%nat) by (eapply Nat.lt_le_trans; [exact Hl0|apply Nat.eq_le_incl; symmetry; exact rd_len]). rewrite boundary_mod by lia. assert (L : ~ nth li rd 0 < r) by (rewrite (below_spec rd r Hinc li Hl); fold li; lia). specialize (Hc (nth li rd 0) (nth_In rd 0 Hl)). rewrite Rabs_left1 in Hc by lra. replace (k0 * Cmod (med li) * - (r - nth li rd 0)) with (k0 * Cmod (med li) * nth li rd 0 - k0 * Cmod (med li) * r) in Hc by ring. lra.
  Qed.
  Theorem code_fields (E0 : C) (r : R) (As : nat -> list (@amps R)) : no_lossless_metal (l0 :: rest) -> all_orders l0 rest As -> increasing rd -> 0 <= r ->
    let li := below rd r in let m := med li in let rho := @rho_at R ROps k0 m r in let out := Nat.eqb li (length rd) in let A n := nth li (As n) amp0 in
    (forall a, In a rd -> @rtenth R ROps 8 < k0 * Cmod m * Rabs (r - a)) ->
    exists E H : R -> R -> cvec, fast_field (fun N th ph => rad_E E0 out A N rho th ph) E /\ fast_field (fun N th ph => rad_H m E0 out A N rho th ph) H /\
    forall q, 0 < q < 1 -> exists K, 0 < K /\ forall n_max,
    (forall n, (1 <= n <= n_max)%nat -> regular_stack (@eps30 R ROps) l0 rest n /\ regular_near (@eps30 R ROps) (l0 :: rest) n /\ regular_arg (@eps30 R ROps) rho n) ->
    forall th ph eps, 0 < eps -> exists N0, forall n_add, (N0 <= n_add)%nat -> let P := {| pt_r := r; pt_theta := th; pt_phi := ph |} in let cart := @field_to_xyz R ROps th ph in
    forall c : @vec3 R -> C, c = v1 \/ c = v2 \/ c = v3 ->
      Cmod (c (@E_s R ROps n_max n_add k0 eps_env core shells E0 P) - c (cart (E th ph)))%C < K * q ^ n_max + eps /\
      Cmod (c (@H_s R ROps n_max n_add k0 eps_env core shells E0 P) - c (cart (H th ph)))%C < K * q ^ n_max + eps.
  Proof.
    intros HN HS Hinc Hr li m rho out A Hc. pose proof (clear_point r Hr Hinc Hc) as HL. fold li m rho in HL. pose proof (below_le rd r) as Bl. fold li in Bl.
    assert (X : exists E H : R -> R -> cvec, fast_field (fun N th ph => rad_E E0 out A N rho th ph) E /\ fast_field (fun N th ph => rad_H m E0 out A N rho th ph) H).
    { unfold out. pose proof rd_len as RL. cbn [length] in RL. destruct (Nat.eqb_spec li (length rd)) as [Q|Q].
      - assert (EL : li = S (length rest)) by (rewrite Q; exact RL). unfold A. rewrite EL in HL |- *. exact (scattered_field_converges l0 rest As Hp HN HS m E0 rho HL).
      - assert (EL : (li <= S (length rest))%nat) by (eapply Nat.le_trans; [exact Bl|apply Nat.eq_le_incl; exact RL]). exact (near_fields_converge l0 rest As Hp HN HS li m E0 rho EL HL). }
    destruct X as (E & H & F1 & F2). exists E, H. split; [exact F1|]. split; [exact F2|]. intros q Hq.
    assert (B : forall u w, fast_field u w -> exists K, 0 < K /\ forall th ph N, Cmod (v1 (u N th ph) - v1 (w th ph))%C <= K * q ^ N /\ Cmod (v2 (u N th ph) - v2 (w th ph))%C <= K * q ^ N /\ Cmod (v3 (u N th ph) - v3 (w th ph))%C <= K * q ^ N).
    { intros u w F. destruct (F c_r ltac:(tauto) q Hq) as (K1 & P1 & B1). destruct (F c_th ltac:(tauto) q Hq) as (K2 & P2 & B2). destruct (F c_ph ltac:(tauto) q Hq) as (K3 & P3 & B3). exists (K1 + K2 + K3). split; [lra|]. intros th ph N. specialize (B1 (th, ph) N). specialize (B2 (th, ph) N). specialize (B3 (th, ph) N). cbn [fst snd] in B1, B2, B3.
      assert (0 < q ^ N) by (apply pow_lt; lra). split; [|split].
      - eapply Rle_trans; [exact B1|]. apply Rmult_le_compat_r; lra.
      - eapply Rle_trans; [exact B2|]. apply Rmult_le_compat_r; lra.
      - eapply Rle_trans; [exact B3|]. apply Rmult_le_compat_r; lra. }
    destruct (B _ _ F1) as (K1 & P1 & B1). destruct (B _ _ F2) as (K2 & P2 & B2). exists (3 * (K1 + K2)). split; [lra|]. intros n_max Hreg th ph eps He.
    destruct (field_limit n_max k0 eps_env core shells E0 {| pt_r := r; pt_theta := th; pt_phi := ph |} Hinc Hreg) as (As' & S' & T1 & T2). cbn [pt_r pt_theta pt_phi] in T1, T2. fold li m rho out in T1, T2.
    assert (EA : forall n, (1 <= n <= n_max)%nat -> nth li (As' n) amp0 = A n).
    { intros n Hn. unfold A. f_equal. destruct (passive_well_posed n l0 rest (proj1 Hn) Hp) as (A0 & _ & U). rewrite (U _ (S' n Hn)), (U _ (HS n (proj1 Hn))). reflexivity. }
    destruct (rad_ext m E0 out (fun n => nth li (As' n) amp0) A n_max rho th ph EA) as [Q1 Q2]. rewrite Q1 in T1. rewrite Q2 in T2. clear Q1 Q2.
    assert (TT : forall u w, tends_vec u w -> exists N0, forall k, (N0 <= k)%nat -> forall c : @vec3 R -> C, c = v1 \/ c = v2 \/ c = v3 -> Cmod (c (u k) - c w)%C < eps).
    { intros u w (V1 & V2 & V3). destruct (V1 eps He) as [N1 X1]. destruct (V2 eps He) as [N2 X2]. destruct (V3 eps He) as [N3 X3]. exists (N1 + N2 + N3)%nat. intros k Hk' c [-> | [-> | ->]]; [apply X1|apply X2|apply X3]; lia. }
    destruct (TT _ _ T1) as [N1 X1]. destruct (TT _ _ T2) as [N2 X2]. exists (N1 + N2)%nat. intros n_add Hn P cart c Hcc. specialize (X1 n_add ltac:(lia) c Hcc). specialize (X2 n_add ltac:(lia) c Hcc). fold P cart in X1, X2.
    assert (PN : 0 < q ^ n_max) by (apply pow_lt; lra). assert (Z1 : 0 < K1 * q ^ n_max) by now apply Rmult_lt_0_compat. assert (Z2 : 0 < K2 * q ^ n_max) by now apply Rmult_lt_0_compat.
    destruct (B1 th ph n_max) as (Y1 & Y2 & Y3). destruct (B2 th ph n_max) as (W1 & W2 & W3).
    pose proof (cart_le th ph _ _ _ c Hcc Y1 Y2 Y3) as L1. pose proof (cart_le th ph _ _ _ c Hcc W1 W2 W3) as L2. fold cart in L1, L2.
    assert (G : forall a b d : C, Cmod (a - d)%C <= Cmod (a - b)%C + Cmod (b - d)%C). { intros a b d. replace (a - d)%C with ((a - b) + (b - d))%C by ring. apply Cmod_triangle. }
    split; (eapply Rle_lt_trans; [apply G|]); [|].
    - eapply Rlt_le_trans; [apply Rplus_lt_le_compat; [exact X1|exact L1]|]. lra.
    - eapply Rlt_le_trans; [apply Rplus_lt_le_compat; [exact X2|exact L2]|]. lra.
  Qed.
End Particle.

(* the two points of the concrete core-shell particle are clear of its interfaces *)
Lemma mx_clear r : r = 4/5 \/ r = 2/5 -> let rd := @radii R mx_core [mx_shell] in let m := @n_medium R ROps (RtoC 1) mx_core [mx_shell] (below rd r) in
  increasing rd /\ forall a, In a rd -> @rtenth R ROps 8 < 1 * Cmod m * Rabs (r - a).
Proof.
  intros Hr rd m. destruct (mx_regular r Hr) as (A & B & _). split; [exact A|]. pose proof e8_small as [_ E]. destruct mx_sqrt as (S1 & S9 & S94). 
  assert (M : 1 <= Cmod m).
  { unfold m, rd. rewrite B. unfold n_medium. destruct (Rlt_dec _ _); cbn [radii map length Nat.eqb nth snd mx_shell]; rewrite ?S1, ?S94, Cmod_R, Rabs_pos_eq; lra. }
  intros a Ha. assert (D : / 20 <= Rabs (r - a)).
  { cbn in Ha. destruct Ha as [<-|[<-|[]]]; destruct Hr as [-> | ->]; unfold Rabs; destruct (Rcase_abs _); lra. }
  rewrite Rmult_1_l. nra.
Qed.
