(** The core-shell (torch/scipy) and Pena coefficient formulas agree on the same
    radial functions (C21), and the equal-material reduction (C22). *)
From Coq Require Import Reals ZArith Lra Lia Bool List Arith.
From Coquelicot Require Import Coquelicot.
From Verif Require Import Ops ROps Spec StackSpec CLemmas CTrig ModelSpecial ModelMie PenaProofs QuietSpec
  StackProofs TorchSpec TorchProofs.
Import ListNotations.
Open Scope C_scope.

Lemma quot_eq (a b c d : C) : b <> 0 -> d <> 0 -> a * d = c * b -> a / b = c / d.
Proof. intros Hb Hd E. apply (Cmult_eq_reg_l (b * d)); [intros H; destruct (C_integral _ _ H); contradiction|].
  transitivity (a * d); [field; exact Hb|]. rewrite E. field. exact Hd. Qed.

(** pure algebra: P = psi_m2y X - chi_m2y Y *)
Section Alg.
  (* u,v: (m2,m1) for a, (m1,m2) for b; p1 = psi(m1 x), d1 its log-derivative;
     p2,z2,e1,e3: psi,zeta,D1,D3 at m2 x; q,zq,f1,f3 at m2 y *)
  Variables u v p1 d1 p2 z2 e1 e3 q zq f1 f3 Q : C.
  Hypothesis HQ : Q * (z2 * q) = p2 * zq.
  Let G1 := u * d1 - v * e1.
  Let G2 := u * d1 - v * e3.
  Let X := v * (Ci * (e3 * z2 - e1 * p2)) * p1 - u * (Ci * (z2 - p2)) * (d1 * p1).
  Let Y := v * (e1 * p2) * p1 - u * p2 * (d1 * p1).
  Lemma P_form : q * X - Ci * (zq - q) * Y = - (Ci * p1 * z2 * q * (G2 - Q * G1)).
  Proof.
    apply Csub_eq0. transitivity (- Ci * p1 * G1 * (Q * (z2 * q) - p2 * zq)); [unfold X, Y, G1, G2; ring|].
    rewrite HQ. ring.
  Qed.
  Lemma dP_form : f1 * q * X - Ci * (f3 * zq - f1 * q) * Y = - (Ci * p1 * z2 * q * (G2 * f1 - Q * G1 * f3)).
  Proof.
    apply Csub_eq0. transitivity (- Ci * p1 * G1 * f3 * (Q * (z2 * q) - p2 * zq)); [unfold X, Y, G1, G2; ring|].
    rewrite HQ. ring.
  Qed.
End Alg.

Section Agree.
  Variables (n_max n_add : nat).
  Notation N := (n_max + n_add)%nat.
  Notation D1 := (@pD1 R ROps n_max n_add).
  Notation D3 := (@pD3 R ROps n_max n_add).
  Notation psi := (@ppsi R ROps n_max n_add).
  Notation zeta := (@pzeta R ROps n_max n_add).
  Notation Qn := (@pQ R ROps n_max n_add).

  Lemma agree_quot (h m q p p' z z' P : C) : m <> RtoC 0 -> P <> RtoC 0 ->
    (h / m + q) * z - z' <> RtoC 0 ->
    m * (z' - q * z) * P - z * (h * P) <> RtoC 0 /\
    (m * (p' - q * p) * P - p * (h * P)) / (m * (z' - q * z) * P - z * (h * P))
    = ((h / m + q) * p - p') / ((h / m + q) * z - z').
  Proof.
    intros Hm HP Hd.
    assert (E : m * (z' - q * z) * P - z * (h * P) = - (m * P * ((h / m + q) * z - z'))) by (field; exact Hm).
    assert (HE : m * (z' - q * z) * P - z * (h * P) <> RtoC 0).
    { rewrite E. intros H0. apply Hd. assert (m * P * ((h / m + q) * z - z') = 0).
      { replace (m * P * ((h / m + q) * z - z')) with (- - (m * P * ((h / m + q) * z - z'))) by ring. rewrite H0. ring. }
      destruct (C_integral _ _ H) as [H1|H1]; [|exact H1]. destruct (C_integral _ _ H1); contradiction. }
    split; [exact HE|].
    apply quot_eq; [exact HE|exact Hd|]. field. exact Hm.
  Qed.
  Lemma agree_quot' (h m q p p' z z' P : C) : P <> RtoC 0 ->
    (m * h + q) * z - z' <> RtoC 0 ->
    (z' - q * z) * P - m * z * (h * P) <> RtoC 0 /\
    ((p' - q * p) * P - m * p * (h * P)) / ((z' - q * z) * P - m * z * (h * P))
    = ((m * h + q) * p - p') / ((m * h + q) * z - z').
  Proof.
    intros HP Hd.
    assert (E : (z' - q * z) * P - m * z * (h * P) = - (P * ((m * h + q) * z - z'))) by ring.
    assert (HE : (z' - q * z) * P - m * z * (h * P) <> RtoC 0).
    { rewrite E. intros H0. apply Hd. assert (P * ((m * h + q) * z - z') = 0).
      { replace (P * ((m * h + q) * z - z')) with (- - (P * ((m * h + q) * z - z'))) by ring. rewrite H0. ring. }
      destruct (C_integral _ _ H) as [H1|H1]; [contradiction|exact H1]. }
    split; [exact HE|]. apply quot_eq; [exact HE|exact Hd|]. ring.
  Qed.

  Theorem agree (mc ms x y : C) n : (1 <= n <= N)%nat ->
    quiet_stack n_max n_add (mc, x) [(ms, y)] n ->
    let r := radial_from (rf_in n_max n_add n) (rf_out n_max n_add n) mc ms x y in
    let c := @miecoef_core R ROps r in
    det_a r <> RtoC 0 /\ det_b r <> RtoC 0 /\
    (an c, bn c) = @pena_ab R ROps n_max n_add (mc, x) [(ms, y)] n.
  Proof.
    intros Hn (Hq0 & [Hl _] & Hf). cbv zeta.
    set (r := radial_from _ _ _ _ _ _).
    cbn [last fst snd] in *.
    pose proof (layer_H n_max n_add true _ _ _ n Hl) as LA. pose proof (layer_H n_max n_add false _ _ _ n Hl) as LB.
    pose proof (final_eq n_max n_add true _ _ n Hf) as FA. pose proof (final_eq n_max n_add false _ _ n Hf) as FB.
    unfold pena_H in *. cbn [pena_layers] in *.
    destruct Hl as (Hz1 & Hz2 & Hr & _).
    destruct (arg_facts n_max n_add _ n Hn Hq0) as (Z0 & P0 & _ & _).
    destruct (arg_facts n_max n_add _ n Hn Hz1) as (Z1 & P1 & S1 & _).
    destruct (arg_facts n_max n_add _ n Hn Hz2) as (Z2 & P2 & S2 & _).
    assert (Hms : ms <> RtoC 0) by (exact (Cmult_neq_l _ _ Z1)).
    pose proof (Q_fact n_max n_add (ms * x) (ms * y) x y n Hn Hz1 Hz2 Hr ltac:(cbn; ring)) as HQ.
    cbv zeta in LA, LB, FA, FB. cbn [fst snd] in *.
    set (H := pena_layer n_max n_add (mc, x) (ms, y) (pena_first n_max n_add (mc, x) n) n) in *.
    cbn [uu vv sel fst snd] in LA, LB, FA, FB.
    unfold pena_first in LA, LB. toC. cbn [fst snd] in LA, LB.
    set (Q := Qn (ms * x) (ms * y) x y n) in *.
    destruct LA as [LA0 LA]. destruct LB as [LB0 LB]. destruct FA as [FA0 FA]. destruct FB as [FB0 FB].
    (* the outer combinations *)
    assert (Hfac : Ci * psi (mc * x) n * zeta (ms * x) n * psi (ms * y) n <> RtoC 0).
    { intros E. destruct (C_integral _ _ E) as [E1|E1]; [|contradiction].
      destruct (C_integral _ _ E1) as [E2|E2]; [|contradiction].
      destruct (C_integral _ _ E2) as [E3|E3]; [|contradiction].
      injection E3. lra. }
    pose proof (P_form ms mc (psi (mc * x) n) (D1 (mc * x) n) (psi (ms * x) n) (zeta (ms * x) n) (D1 (ms * x) n) (D3 (ms * x) n)
       (psi (ms * y) n) (zeta (ms * y) n) Q HQ) as PA.
    pose proof (dP_form ms mc (psi (mc * x) n) (D1 (mc * x) n) (psi (ms * x) n) (zeta (ms * x) n) (D1 (ms * x) n) (D3 (ms * x) n)
       (psi (ms * y) n) (zeta (ms * y) n) (D1 (ms * y) n) (D3 (ms * y) n) Q HQ) as dPA.
    pose proof (P_form mc ms (psi (mc * x) n) (D1 (mc * x) n) (psi (ms * x) n) (zeta (ms * x) n) (D1 (ms * x) n) (D3 (ms * x) n)
       (psi (ms * y) n) (zeta (ms * y) n) Q HQ) as PB.
    pose proof (dP_form mc ms (psi (mc * x) n) (D1 (mc * x) n) (psi (ms * x) n) (zeta (ms * x) n) (D1 (ms * x) n) (D3 (ms * x) n)
       (psi (ms * y) n) (zeta (ms * y) n) (D1 (ms * y) n) (D3 (ms * y) n) Q HQ) as dPB.
    set (K := Ci * psi (mc * x) n * zeta (ms * x) n * psi (ms * y) n) in *.
    set (GA := (ms * D1 (mc * x) n - mc * D3 (ms * x) n - Q * (ms * D1 (mc * x) n - mc * D1 (ms * x) n))) in *.
    set (GB := (mc * D1 (mc * x) n - ms * D3 (ms * x) n - Q * (mc * D1 (mc * x) n - ms * D1 (ms * x) n))) in *.
    assert (HPA : - (K * GA) <> RtoC 0).
    { intros E. assert (E' : K * GA = 0) by (replace (K * GA) with (- - (K * GA)) by ring; rewrite E; ring).
      destruct (C_integral _ _ E'); contradiction. }
    assert (HPB : - (K * GB) <> RtoC 0).
    { intros E. assert (E' : K * GB = 0) by (replace (K * GB) with (- - (K * GB)) by ring; rewrite E; ring).
      destruct (C_integral _ _ E'); contradiction. }
    assert (XA : psi_m2y r * Xa r - chi_m2y r * Ya r = - (K * GA)) by exact PA.
    assert (XB : psi_m2y r * Xb r - chi_m2y r * Yb r = - (K * GB)) by exact PB.
    assert (dXA : dpsi_m2y r * Xa r - dchi_m2y r * Ya r = fst H * - (K * GA)).
    { etransitivity; [exact dPA|]. rewrite LA. field. exact LA0. }
    assert (dXB : dpsi_m2y r * Xb r - dchi_m2y r * Yb r = snd H * - (K * GB)).
    { etransitivity; [exact dPB|]. rewrite LB. field. exact LB0. }
    destruct (agree_quot (fst H) ms (RtoC (INR n) / y) (psi y n) (psi y (n - 1)) (zeta y n) (zeta y (n - 1)) _ Hms HPA FA0) as [DA QA].
    destruct (agree_quot' (snd H) ms (RtoC (INR n) / y) (psi y n) (psi y (n - 1)) (zeta y n) (zeta y (n - 1)) _ HPB FB0) as [DB QB].
    assert (EA : det_a r = ms * (zeta y (n - 1) - RtoC (INR n) / y * zeta y n) * - (K * GA) - zeta y n * (fst H * - (K * GA))).
    { unfold det_a. rewrite XA, dXA. reflexivity. }
    assert (EB : det_b r = (zeta y (n - 1) - RtoC (INR n) / y * zeta y n) * - (K * GB) - ms * zeta y n * (snd H * - (K * GB))).
    { unfold det_b. rewrite XB, dXB. reflexivity. }
    assert (HA : det_a r <> RtoC 0) by (rewrite EA; exact DA).
    assert (HB : det_b r <> RtoC 0) by (rewrite EB; exact DB).
    split; [exact HA|]. split; [exact HB|].
    rewrite an_closed, bn_closed by assumption. rewrite XA, XB, dXA, dXB, EA, EB.
    unfold pena_ab, pena_H. cbn [last pena_layers]. fold H.
    apply injective_projections; cbn [fst snd].
    - etransitivity; [exact QA|symmetry; exact FA].
    - etransitivity; [exact QB|symmetry; exact FB].
  Qed.
End Agree.

(** ** C22: equal materials *)
Section Equal.
  Variable r : @radial R.
  Hypothesis Hm : m1 r = m2 r.
  Hypothesis Hp : psi_m1x r = psi_m2x r.
  Hypothesis Hdp : dpsi_m1x r = dpsi_m2x r.
  Let W := chi_m2x r * dpsi_m2x r - dchi_m2x r * psi_m2x r.
  Lemma eq_Y : Ya r = 0 /\ Yb r = 0.
  Proof. unfold Ya, Yb. rewrite Hm, Hp, Hdp. split; ring. Qed.
  Lemma eq_X : Xa r = - (m2 r * W) /\ Xb r = - (m2 r * W).
  Proof. unfold Xa, Xb, W. rewrite Hm, Hp, Hdp. split; ring. Qed.
  Hypothesis Ha : det_a r <> 0.
  Hypothesis Hb : det_b r <> 0.
  Theorem equal_material :
    let c := @miecoef_core R ROps r in
    an c = (m2 r * psi_m2y r * dpsi_y r - psi_y r * dpsi_m2y r) / (m2 r * psi_m2y r * dxi_y r - xi_y r * dpsi_m2y r) /\
    bn c = (psi_m2y r * dpsi_y r - m2 r * psi_y r * dpsi_m2y r) / (psi_m2y r * dxi_y r - m2 r * xi_y r * dpsi_m2y r) /\
    cn c = fn c /\ dn c = gn c /\ vn c = RtoC 0 /\ wn c = RtoC 0.
  Proof.
    cbv zeta.
    assert (EA : det_a r = - (m2 r * W) * (m2 r * psi_m2y r * dxi_y r - xi_y r * dpsi_m2y r)).
    { unfold det_a. rewrite (proj1 eq_Y), (proj1 eq_X). ring. }
    assert (EB : det_b r = - (m2 r * W) * (psi_m2y r * dxi_y r - m2 r * xi_y r * dpsi_m2y r)).
    { unfold det_b. rewrite (proj2 eq_Y), (proj2 eq_X). ring. }
    pose proof Ha as Ha'. pose proof Hb as Hb'. rewrite EA in Ha'. rewrite EB in Hb'.
    pose proof (Cmult_neq_r _ _ Ha') as NA. pose proof (Cmult_neq_r _ _ Hb') as NB.
    pose proof (Cmult_neq_l _ _ Ha') as NW.
    split; [|split; [|split; [|split; [|split]]]].
    - rewrite an_closed by exact Ha. apply quot_eq; [exact Ha|exact NA|]. rewrite EA, (proj1 eq_Y), (proj1 eq_X). ring.
    - rewrite bn_closed by exact Hb. apply quot_eq; [exact Hb|exact NB|]. rewrite EB, (proj2 eq_Y), (proj2 eq_X). ring.
    - rewrite cn_closed, fn_closed by exact Hb. rewrite (proj2 eq_X), Hm. fold W. unfold Cdiv. eqC. ring.
    - rewrite dn_closed, gn_closed by exact Ha. rewrite (proj1 eq_X), Hm. fold W. unfold Cdiv. eqC. ring.
    - rewrite vn_closed by exact Hb. rewrite (proj2 eq_Y). unfold Cdiv. eqC. ring.
    - rewrite wn_closed by exact Ha. rewrite (proj1 eq_Y). unfold Cdiv. eqC. ring.
  Qed.
End Equal.

(** the same for the coefficients as [_miecoef] evaluates them *)
Theorem equal_material_miecoef (fj fy : C -> nat -> C) (x y m : C) n :
  let r := radial_of fj fy x y m m n in
  det_a r <> 0 -> det_b r <> 0 ->
  let c := @miecoef R ROps fj fy x y m m n in
  let py := psi_y r in let dpy := dpsi_y r in let xy := xi_y r in let dxy := dxi_y r in
  let pm := m * y * fj (m * y) n in
  let dpm := fj (m * y) n + m * y * @f_der_at R ROps (m * y) (fj (m * y)) n in
  an c = (m * pm * dpy - py * dpm) / (m * pm * dxy - xy * dpm) /\
  bn c = (pm * dpy - m * py * dpm) / (pm * dxy - m * xy * dpm) /\
  cn c = fn c /\ dn c = gn c /\ vn c = RtoC 0 /\ wn c = RtoC 0.
Proof.
  intros r Ha Hb. exact (equal_material r eq_refl eq_refl eq_refl Ha Hb).
Qed.
Theorem core_radius_irrelevant (fj fy : C -> nat -> C) (x x' y m : C) n :
  let r := @radial_of R ROps fj fy x y m m n in let r' := @radial_of R ROps fj fy x' y m m n in
  det_a r <> RtoC 0 -> det_b r <> RtoC 0 -> det_a r' <> RtoC 0 -> det_b r' <> RtoC 0 ->
  an (@miecoef R ROps fj fy x y m m n) = an (@miecoef R ROps fj fy x' y m m n) /\
  bn (@miecoef R ROps fj fy x y m m n) = bn (@miecoef R ROps fj fy x' y m m n).
Proof.
  intros r r' H1 H2 H3 H4.
  pose proof (equal_material_miecoef fj fy x y m n H1 H2) as (A & B & _).
  pose proof (equal_material_miecoef fj fy x' y m n H3 H4) as (A' & B' & _).
  split; [exact (eq_trans A (eq_sym A'))|exact (eq_trans B (eq_sym B'))].
Qed.
