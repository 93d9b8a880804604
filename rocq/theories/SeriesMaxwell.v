(** The limits of the multipole series satisfy Maxwell's equations (C90). *)
From Coq Require Import Reals ZArith Lra Lia Bool List Arith.
From Coquelicot Require Import Coquelicot.
From Verif Require Import Ops ROps Spec StackSpec CLemmas CTrig ComplexDiff BesselSpec BesselLimits ConvergeSpec ModelSpecial ModelMie AngularProofs PlaneWaveProofs
  ModelNear NearSpec MaxwellSpec MaxwellProofs MaxwellFields NearLimitSpec NearExact PlaneVector PlaneExp Passive PassiveSpec SeriesSpec SeriesGrowth SeriesDecay SeriesSum SeriesFar SeriesInside SeriesAmp SeriesRegion SeriesField SeriesNear SeriesDiff MaxwellLimitSpec.
Import ListNotations.
Open Scope R_scope.
Arguments Cmod x%C_scope.

(** ** curl and divergence of a limit *)
Lemma rc_unique (f : R -> C) t d d' : RCderive f t d -> RCderive f t d' -> d = d'.
Proof. intros [H1 H2] [K1 K2]. apply injective_projections; [rewrite <- (is_derive_unique _ _ _ H1); now apply is_derive_unique|rewrite <- (is_derive_unique _ _ _ H2); now apply is_derive_unique]. Qed.
Definition nine (FN : nat -> sph_field) (F : sph_field) (r th ph : R) : Prop :=
  dlim (fun N t => RtoC (sin t) * c_ph (FN N r t ph))%C (fun t => RtoC (sin t) * c_ph (F r t ph))%C th /\ dlim (fun N p => c_th (FN N r th p)) (fun p => c_th (F r th p)) ph /\
  dlim (fun N p => c_r (FN N r th p)) (fun p => c_r (F r th p)) ph /\ dlim (fun N s => RtoC s * c_ph (FN N s th ph))%C (fun s => RtoC s * c_ph (F s th ph))%C r /\
  dlim (fun N s => RtoC s * c_th (FN N s th ph))%C (fun s => RtoC s * c_th (F s th ph))%C r /\ dlim (fun N t => c_r (FN N r t ph)) (fun t => c_r (F r t ph)) th /\
  dlim (fun N s => RtoC (s * s) * c_r (FN N s th ph))%C (fun s => RtoC (s * s) * c_r (F s th ph))%C r /\ dlim (fun N t => RtoC (sin t) * c_th (FN N r t ph))%C (fun t => RtoC (sin t) * c_th (F r t ph))%C th /\
  dlim (fun N p => c_ph (FN N r th p)) (fun p => c_ph (F r th p)) ph.
Lemma tends_eq (u v : nat -> C) a b : tends u a -> tends v b -> (forall N, u N = v N) -> a = b.
Proof. intros Hu Hv E. apply (tends_unique u); [exact Hu|]. intros eps He. destruct (Hv eps He) as [M HM]. exists M. intros N HN. rewrite E. now apply HM. Qed.
Lemma curl_lim FN F r th ph (cN : nat -> cvec) (c : cvec) : 0 < r -> sin th <> 0 -> nine FN F r th ph -> (forall N, is_curl (FN N) r th ph (cN N)) -> tends_vec cN c -> is_curl F r th ph c.
Proof.
  intros Hr Hs (D1 & D2 & D3 & D4 & D5 & D6 & _) H (T1 & T2 & T3).
  destruct D1 as (a1 & l1 & A1 & B1 & C1), D2 as (a2 & l2 & A2 & B2 & C2), D3 as (a3 & l3 & A3 & B3 & C3), D4 as (a4 & l4 & A4 & B4 & C4), D5 as (a5 & l5 & A5 & B5 & C5), D6 as (a6 & l6 & A6 & B6 & C6).
  assert (R0 : RtoC r <> RtoC 0) by (intros Q; injection Q; lra). assert (S0 : RtoC (sin th) <> RtoC 0) by (intros Q; injection Q; exact Hs).
  assert (HN : forall N, c_r (cN N) = ((a1 N - a2 N) / (RtoC r * RtoC (sin th)))%C /\ c_th (cN N) = ((a3 N / RtoC (sin th) - a4 N) / RtoC r)%C /\ c_ph (cN N) = ((a5 N - a6 N) / RtoC r)%C).
  { intros N. destruct (H N) as (x1 & x2 & x3 & x4 & x5 & x6 & X1 & X2 & X3 & X4 & X5 & X6 & Y).
    rewrite (rc_unique _ _ _ _ X1 (A1 N)), (rc_unique _ _ _ _ X2 (A2 N)), (rc_unique _ _ _ _ X3 (A3 N)), (rc_unique _ _ _ _ X4 (A4 N)), (rc_unique _ _ _ _ X5 (A5 N)), (rc_unique _ _ _ _ X6 (A6 N)) in Y. exact Y. }
  exists l1, l2, l3, l4, l5, l6. repeat (split; [assumption|]).
  split; [|split].
  - refine (tends_eq _ _ _ _ T1 _ (fun N => proj1 (HN N))). apply tends_div; [now apply Cmult_neq_0|now apply tends_minus|apply tends_const].
  - refine (tends_eq _ _ _ _ T2 _ (fun N => proj1 (proj2 (HN N)))). apply tends_div; [assumption|apply tends_minus; [apply tends_div; [assumption|assumption|apply tends_const]|assumption]|apply tends_const].
  - refine (tends_eq _ _ _ _ T3 _ (fun N => proj2 (proj2 (HN N)))). apply tends_div; [assumption|now apply tends_minus|apply tends_const].
Qed.
Lemma div_lim FN F r th ph : 0 < r -> sin th <> 0 -> nine FN F r th ph -> (forall N, is_div (FN N) r th ph (RtoC 0)) -> is_div F r th ph (RtoC 0).
Proof.
  intros Hr Hs (_ & _ & _ & _ & _ & _ & D1 & D2 & D3) H.
  destruct D1 as (a1 & l1 & A1 & B1 & C1), D2 as (a2 & l2 & A2 & B2 & C2), D3 as (a3 & l3 & A3 & B3 & C3).
  assert (R0 : RtoC r <> RtoC 0) by (intros Q; injection Q; lra). assert (S0 : RtoC (sin th) <> RtoC 0) by (intros Q; injection Q; exact Hs). assert (R2 : RtoC (r * r) <> RtoC 0) by (intros Q; injection Q; nra).
  exists l1, l2, l3. repeat (split; [assumption|]).
  refine (tends_eq (fun _ => RtoC 0) (fun N => a1 N / RtoC (r * r) + (a2 N + a3 N) / (RtoC r * RtoC (sin th)))%C _ _ (tends_const _) _ _).
  - apply tends_plus; [apply tends_div; [assumption|assumption|apply tends_const]|apply tends_div; [now apply Cmult_neq_0|now apply tends_plus|apply tends_const]].
  - intros N. destruct (H N) as (x1 & x2 & x3 & X1 & X2 & X3 & Y). rewrite (rc_unique _ _ _ _ X1 (A1 N)), (rc_unique _ _ _ _ X2 (A2 N)), (rc_unique _ _ _ _ X3 (A3 N)) in Y. exact Y.
Qed.

(** ** series of separated fields *)
Lemma dlim_ext fN gN f g t : locally t (fun s => (forall N, fN N s = gN N s) /\ f s = g s) -> dlim fN f t -> dlim gN g t.
Proof.
  intros L (dN & l & H1 & H2 & H3). exists dN, l. split; [|split; [exact H2|]].
  - intros N. apply (rc_ext_loc (fN N)); [|apply H1]. eapply filter_imp; [|exact L]. intros s Hs. apply (proj1 Hs).
  - apply (rc_ext_loc f); [|exact H3]. eapply filter_imp; [|exact L]. intros s Hs. apply (proj2 Hs).
Qed.
Lemma rc_mulR (f : R -> C) t d c : RCderive f t d -> RCderive (fun s => f s * c)%C t (d * c)%C.
Proof. intros H. apply (rc_ext (fun s => c * f s)%C); [intros; ring|]. eapply rc_val; [|apply rc_scal; exact H]. ring. Qed.
Section Separated.
  Variables (a b : R -> R) (P U V dP dU dV : nat -> R -> C) (u : nat -> R) (r1 r2 : R) (F : sph_field).
  Hypothesis Ha : forall p, is_derive a p (b p).
  Hypothesis Hb : forall p, is_derive b p (- a p).
  Hypothesis a1 : forall p, Rabs (a p) <= 1.
  Hypothesis b1 : forall p, Rabs (b p) <= 1.
  Hypothesis u0 : forall n, 0 <= u n.
  Hypothesis Hu : rapid u.
  Hypothesis HP : forall n s, (1 <= n)%nat -> r1 < s < r2 -> RCderive (fun s => RtoC (s * s) * P n s)%C s (dP n s) /\ Cmod (P n s) <= u n /\ Cmod (dP n s) <= u n.
  Hypothesis HU : forall n s, (1 <= n)%nat -> r1 < s < r2 -> RCderive (fun s => RtoC s * U n s)%C s (dU n s) /\ Cmod (U n s) <= u n /\ Cmod (dU n s) <= u n.
  Hypothesis HV : forall n s, (1 <= n)%nat -> r1 < s < r2 -> RCderive (fun s => RtoC s * V n s)%C s (dV n s) /\ Cmod (V n s) <= u n /\ Cmod (dV n s) <= u n.
  Notation p_ n th := (RtoC (pi_ (cos th) n)).
  Notation t_ n th := (RtoC (tau_ (cos th) n)).
  Definition sep (n : nat) (r th ph : R) : cvec :=
    (RtoC (a ph) * (RtoC (sin th * pi_ (cos th) n) * P n r), RtoC (a ph) * (p_ n th * U n r + t_ n th * V n r), RtoC (b ph) * (t_ n th * U n r + p_ n th * V n r))%C.
  Definition psum (N : nat) : sph_field := fun r th ph => (csum1 (fun n => c_r (sep n r th ph)) N, csum1 (fun n => c_th (sep n r th ph)) N, csum1 (fun n => c_ph (sep n r th ph)) N).
  Hypothesis HF : forall r th ph, r1 < r < r2 -> tends_vec (fun N => psum N r th ph) (F r th ph).
  Definition w (n : nat) : R := u n * ((nn n + 2) * (nn n + 2)).
  Lemma w_rapid : rapid w.
  Proof. unfold w. apply rapid_mult; [intros; apply u0|exact Hu|]. assert (tame (fun n => nn n + 2)) by (apply tame_plus; [apply nn_tame|apply tame_const; lra]). now apply tame_mult. Qed.
  Lemma two_le (x : R) (y1 y2 : R) (z1 z2 : C) n : Rabs x <= 1 -> Rabs y1 <= nn n * (nn n + 1) -> Rabs y2 <= nn n * (nn n + 1) -> Cmod z1 <= u n -> Cmod z2 <= u n -> Rabs y1 <= nn n \/ Rabs y2 <= nn n ->
    Cmod (RtoC x * (RtoC y1 * z1 + RtoC y2 * z2))%C <= w n.
  Proof.
    intros Hx H1 H2 Z1 Z2 Ho. rewrite Cmod_mult, Cmod_R. assert (Q : Cmod (RtoC y1 * z1 + RtoC y2 * z2)%C <= (Rabs y1 + Rabs y2) * u n).
    { eapply Rle_trans; [apply Cmod_triangle|]. rewrite !Cmod_mult, !Cmod_R. pose proof (Rabs_pos y1). pose proof (Rabs_pos y2). pose proof (Cmod_ge_0 z1). pose proof (Cmod_ge_0 z2). nra. }
    pose proof (nn_ge n). pose proof (pos_INR n). pose proof (u0 n). assert (S : Rabs y1 + Rabs y2 <= (nn n + 2) * (nn n + 2)) by (destruct Ho; nra).
    eapply Rle_trans; [apply Rmult_le_compat; [apply Rabs_pos|apply Cmod_ge_0|exact Hx|exact Q]|]. unfold w. rewrite Rmult_1_l, (Rmult_comm (u n)). now apply Rmult_le_compat_r.
  Qed.
  Lemma one_le (x y : R) (z : C) n : Rabs x <= 1 -> Rabs y <= nn n -> Cmod z <= u n -> Cmod (RtoC x * (RtoC y * z))%C <= w n.
  Proof.
    intros Hx Hy Hz. replace (RtoC y * z)%C with (RtoC y * z + RtoC 0 * z)%C by ring. pose proof (nn_ge n). pose proof (pos_INR n). apply two_le; try assumption; try rewrite Rabs_R0; try nra; now left.
  Qed.
  Lemma ang_p th n : Rabs (pi_ (cos th) n) <= nn n. Proof. pose proof (proj1 (pt_le th n)) as H. rewrite Cmod_R in H. exact H. Qed.
  Lemma ang_t th n : Rabs (tau_ (cos th) n) <= nn n. Proof. pose proof (proj2 (pt_le th n)) as H. rewrite Cmod_R in H. exact H. Qed.
  Lemma ang_sp th n : Rabs (sin th * pi_ (cos th) n) <= nn n.
  Proof. rewrite Rabs_mult. pose proof (ang_p th n). pose proof (Rabs_pos (pi_ (cos th) n)). assert (Rabs (sin th) <= 1) by apply Rabs_le, SIN_bound. pose proof (Rabs_pos (sin th)). nra. Qed.
  Lemma ang_q th n : Rabs (pi_ (cos th) n - INR n * (INR n + 1) * (sin th * sin th) * pi_ (cos th) n) <= nn n * (nn n + 1).
  Proof.
    replace (_ - _) with (pi_ (cos th) n * (1 - nn n * (sin th * sin th))) by (unfold nn; ring). rewrite Rabs_mult. pose proof (nn_ge n). pose proof (pos_INR n). pose proof (sin2_cos2 th) as Q. unfold Rsqr in Q.
    apply Rmult_le_compat; [apply Rabs_pos|apply Rabs_pos|apply ang_p|]. apply Rabs_le. assert (0 <= sin th * sin th <= 1) by nra. nra.
  Qed.
  Lemma ang_w th n : Rabs (pi_ (cos th) n) <= nn n * (nn n + 1) /\ Rabs (tau_ (cos th) n) <= nn n * (nn n + 1).
  Proof. pose proof (ang_p th n). pose proof (ang_t th n). pose proof (nn_ge n). pose proof (pos_INR n). split; nra. Qed.
  Section At.
    Variables (r th ph : R).
    Hypothesis Hr : r1 < r < r2.
    (* one of the nine derivatives: the factor g, the component c, along the curve q *)
    Lemma one_dlim (g : R -> C) (c : cvec -> C) (q : R -> R * R * R) (d : nat -> R -> C) lo hi t0 : lo < t0 < hi -> c = c_r \/ c = c_th \/ c = c_ph -> (forall t, lo < t < hi -> r1 < fst (fst (q t)) < r2) ->
      (forall n t, (1 <= n)%nat -> lo < t < hi -> RCderive (fun t => g t * c (sep n (fst (fst (q t))) (snd (fst (q t))) (snd (q t))))%C t (d n t) /\ Cmod (d n t) <= w n) ->
      dlim (fun N t => g t * c (psum N (fst (fst (q t))) (snd (fst (q t))) (snd (q t))))%C (fun t => g t * c (F (fst (fst (q t))) (snd (fst (q t))) (snd (q t))))%C t0.
    Proof.
      intros Ht Hc Hq Hd.
      assert (E : forall N t, (g t * c (psum N (fst (fst (q t))) (snd (fst (q t))) (snd (q t))))%C = csum1 (fun n => g t * c (sep n (fst (fst (q t))) (snd (fst (q t))) (snd (q t))))%C N).
      { intros N t. rewrite csum1_scal. destruct Hc as [-> |[-> | ->]]; reflexivity. }
      assert (D : dlim (fun N t => csum1 (fun n => g t * c (sep n (fst (fst (q t))) (snd (fst (q t))) (snd (q t))))%C N) (fun t => g t * c (F (fst (fst (q t))) (snd (fst (q t))) (snd (q t))))%C t0).
      { apply (series_derive (fun n t => g t * c (sep n (fst (fst (q t))) (snd (fst (q t))) (snd (q t))))%C d w _ lo hi t0 Ht w_rapid Hd). intros t Hi. apply (tends_ev (fun N => g t * c (psum N (fst (fst (q t))) (snd (fst (q t))) (snd (q t))))%C); [exists O; intros N _; apply E|].
        apply tends_mult; [apply tends_const|]. destruct (HF _ (snd (fst (q t))) (snd (q t)) (Hq t Hi)) as (T1 & T2 & T3). destruct Hc as [-> |[-> | ->]]; assumption. }
      revert D. apply dlim_ext. exists (mkposreal 1 Rlt_0_1). intros t _. split; [intros N; symmetry; apply E|reflexivity].
    Qed.
    Lemma dlim_one fN f t : dlim (fun N s => RtoC 1 * fN N s)%C (fun s => RtoC 1 * f s)%C t -> dlim fN f t.
    Proof. apply dlim_ext. exists (mkposreal 1 Rlt_0_1). intros s _. split; [intros N|]; ring. Qed.
    Theorem sep_nine : nine psum F r th ph.
    Proof.
      unfold nine. repeat match goal with |- _ /\ _ => split end.
      - refine (one_dlim (fun t => RtoC (sin t)) c_ph (fun t => (r, t, ph)) (fun n t => RtoC (b ph) * (RtoC (pi_ (cos t) n - INR n * (INR n + 1) * (sin t * sin t) * pi_ (cos t) n) * U n r + t_ n t * V n r))%C (th - 1) (th + 1) th _ _ _ _); [lra|tauto|intros; exact Hr|].
        intros n t Hn Ht. destruct (HU n r Hn Hr) as (_ & U1 & _). destruct (HV n r Hn Hr) as (_ & V1 & _). split.
        + apply (rc_ext (fun t => RtoC (b ph) * (RtoC (sin t * tau_ (cos t) n) * U n r + RtoC (sin t * pi_ (cos t) n) * V n r))%C); [intros s; cbn [c_ph sep fst snd]; rewrite !RtoC_mult; ring|].
          apply rc_scal, rc_plus; apply rc_mulR, rc_real; [apply sin_tau_derive|apply sin_pi_derive].
        + apply two_le; try assumption; [apply b1|apply ang_q|apply ang_w|right; apply ang_t].
      - apply dlim_one. refine (one_dlim (fun _ => RtoC 1) c_th (fun p => (r, th, p)) (fun n p => RtoC (b p) * (p_ n th * U n r + t_ n th * V n r))%C (ph - 1) (ph + 1) ph _ _ _ _); [lra|tauto|intros; exact Hr|].
        intros n t Hn Ht. destruct (HU n r Hn Hr) as (_ & U1 & _). destruct (HV n r Hn Hr) as (_ & V1 & _). split.
        + apply (rc_ext (fun t => RtoC (a t) * (p_ n th * U n r + t_ n th * V n r))%C); [intros s; cbn [c_th sep fst snd]; ring|]. apply rc_mulR, rc_real, Ha.
        + apply two_le; try assumption; [apply b1|apply ang_w|apply ang_w|right; apply ang_t].
      - apply dlim_one. refine (one_dlim (fun _ => RtoC 1) c_r (fun p => (r, th, p)) (fun n p => RtoC (b p) * (RtoC (sin th * pi_ (cos th) n) * P n r))%C (ph - 1) (ph + 1) ph _ _ _ _); [lra|tauto|intros; exact Hr|].
        intros n t Hn Ht. destruct (HP n r Hn Hr) as (_ & P1 & _). split.
        + apply (rc_ext (fun t => RtoC (a t) * (RtoC (sin th * pi_ (cos th) n) * P n r))%C); [intros s; cbn [c_r sep fst snd]; ring|]. apply rc_mulR, rc_real, Ha.
        + apply one_le; [apply b1|apply ang_sp|assumption].
      - refine (one_dlim (fun s => RtoC s) c_ph (fun s => (s, th, ph)) (fun n s => RtoC (b ph) * (t_ n th * dU n s + p_ n th * dV n s))%C r1 r2 r _ _ _ _); [lra|tauto|intros; assumption|].
        intros n t Hn Ht. destruct (HU n t Hn Ht) as (D1 & _ & U1). destruct (HV n t Hn Ht) as (D2 & _ & V1). split.
        + apply (rc_ext (fun s => RtoC (b ph) * (t_ n th * (RtoC s * U n s) + p_ n th * (RtoC s * V n s)))%C); [intros s; cbn [c_ph sep fst snd]; ring|]. apply rc_scal, rc_plus; apply rc_scal; assumption.
        + apply two_le; try assumption; [apply b1|apply ang_w|apply ang_w|left; apply ang_t].
      - refine (one_dlim (fun s => RtoC s) c_th (fun s => (s, th, ph)) (fun n s => RtoC (a ph) * (p_ n th * dU n s + t_ n th * dV n s))%C r1 r2 r _ _ _ _); [lra|tauto|intros; assumption|].
        intros n t Hn Ht. destruct (HU n t Hn Ht) as (D1 & _ & U1). destruct (HV n t Hn Ht) as (D2 & _ & V1). split.
        + apply (rc_ext (fun s => RtoC (a ph) * (p_ n th * (RtoC s * U n s) + t_ n th * (RtoC s * V n s)))%C); [intros s; cbn [c_th sep fst snd]; ring|]. apply rc_scal, rc_plus; apply rc_scal; assumption.
        + apply two_le; try assumption; [apply a1|apply ang_w|apply ang_w|right; apply ang_t].
      - apply dlim_one. refine (one_dlim (fun _ => RtoC 1) c_r (fun t => (r, t, ph)) (fun n t => RtoC (a ph) * (t_ n t * P n r))%C (th - 1) (th + 1) th _ _ _ _); [lra|tauto|intros; exact Hr|].
        intros n t Hn Ht. destruct (HP n r Hn Hr) as (_ & P1 & _). split.
        + apply (rc_ext (fun t => RtoC (a ph) * (RtoC (sin t * pi_ (cos t) n) * P n r))%C); [intros s; cbn [c_r sep fst snd]; ring|]. apply rc_scal, rc_mulR, rc_real, sin_pi_derive.
        + apply one_le; [apply a1|apply ang_t|assumption].
      - refine (one_dlim (fun s => RtoC (s * s)) c_r (fun s => (s, th, ph)) (fun n s => RtoC (a ph) * (RtoC (sin th * pi_ (cos th) n) * dP n s))%C r1 r2 r _ _ _ _); [lra|tauto|intros; assumption|].
        intros n t Hn Ht. destruct (HP n t Hn Ht) as (D1 & _ & P1). split.
        + apply (rc_ext (fun s => RtoC (a ph) * (RtoC (sin th * pi_ (cos th) n) * (RtoC (s * s) * P n s)))%C); [intros s; cbn [c_r sep fst snd]; ring|]. apply rc_scal, rc_scal; assumption.
        + apply one_le; [apply a1|apply ang_sp|assumption].
      - refine (one_dlim (fun t => RtoC (sin t)) c_th (fun t => (r, t, ph)) (fun n t => RtoC (a ph) * (t_ n t * U n r + RtoC (pi_ (cos t) n - INR n * (INR n + 1) * (sin t * sin t) * pi_ (cos t) n) * V n r))%C (th - 1) (th + 1) th _ _ _ _); [lra|tauto|intros; exact Hr|].
        intros n t Hn Ht. destruct (HU n r Hn Hr) as (_ & U1 & _). destruct (HV n r Hn Hr) as (_ & V1 & _). split.
        + apply (rc_ext (fun t => RtoC (a ph) * (RtoC (sin t * pi_ (cos t) n) * U n r + RtoC (sin t * tau_ (cos t) n) * V n r))%C); [intros s; cbn [c_th sep fst snd]; rewrite !RtoC_mult; ring|].
          apply rc_scal, rc_plus; apply rc_mulR, rc_real; [apply sin_pi_derive|apply sin_tau_derive].
        + apply two_le; try assumption; [apply a1|apply ang_w|apply ang_q|left; apply ang_t].
      - apply dlim_one. refine (one_dlim (fun _ => RtoC 1) c_ph (fun p => (r, th, p)) (fun n p => RtoC (- a p) * (t_ n th * U n r + p_ n th * V n r))%C (ph - 1) (ph + 1) ph _ _ _ _); [lra|tauto|intros; exact Hr|].
        intros n t Hn Ht. destruct (HU n r Hn Hr) as (_ & U1 & _). destruct (HV n r Hn Hr) as (_ & V1 & _). split.
        + apply (rc_ext (fun t => RtoC (b t) * (t_ n th * U n r + p_ n th * V n r))%C); [intros s; cbn [c_ph sep fst snd]; ring|]. apply rc_mulR, rc_real, Hb.
        + apply two_le; try assumption; [rewrite Rabs_Ropp; apply a1|apply ang_w|apply ang_w|left; apply ang_t].
    Qed.
  End At.
End Separated.

(** ** the expansions of one region *)
Section Region.
  Variables (A : nat -> @amps R) (k : C) (r1 r2 : R) (e : nat -> C) (c : R) (tm : bool) (u : nat -> R).
  Hypothesis H1 : 0 < r1.
  Hypothesis H2 : r1 < r2.
  Hypothesis Hk : k <> RtoC 0.
  Hypothesis c0 : 0 <= c.
  Hypothesis He : forall n, (1 <= n)%nat -> Cmod (e n) <= c * (2 * INR n + 1).
  Hypothesis Hu : rapid u.
  Hypothesis u0 : forall n, 0 <= u n.
  Hypothesis HB : forall n tm s, (1 <= n)%nat -> r1 <= s <= r2 -> Cmod (Fld (true_rf n) (pair_of tm (A n)) (k * RtoC s)%C) <= u n /\ Cmod (dFld (true_rf n) (pair_of tm (A n)) (k * RtoC s)%C) <= u n.
  Notation Fl t n s := (Fld (true_rf n) (pair_of t (A n)) (k * RtoC s)%C).
  Notation dFl t n s := (dFld (true_rf n) (pair_of t (A n)) (k * RtoC s)%C).
  Definition rU n s := (e n * (Fl (negb tm) n s / (k * RtoC s)))%C.
  Definition rV n s := (- (e n * Ci) * (dFl tm n s / (k * RtoC s)))%C.
  Definition rP n s := (- (e n * Ci * RtoC (nn n)) * (Fl tm n s / (k * RtoC s * (k * RtoC s))))%C.
  Definition rdU n s := (e n * dFl (negb tm) n s)%C.
  Definition rdV n s := (- (e n * Ci) * ((RtoC (nn n) / (k * RtoC s * (k * RtoC s)) - RtoC 1) * Fl tm n s))%C.
  Definition rdP n s := (- (e n * Ci * RtoC (nn n)) * (dFl tm n s / k))%C.
  Definition qk : R := 1 + / (Cmod k * r1) + / Cmod k.
  Definition ru n : R := u n * (c * (2 * INR n + 1) * ((nn n + 1) * (qk * qk))).
  Lemma k0' : 0 < Cmod k. Proof. now apply Cmod_gt_0. Qed.
  Lemma qk1 : 1 <= qk /\ / (Cmod k * r1) <= qk /\ / Cmod k <= qk.
  Proof. pose proof k0'. assert (0 < / (Cmod k * r1)) by (apply Rinv_0_lt_compat, Rmult_lt_0_compat; lra). assert (0 < / Cmod k) by now apply Rinv_0_lt_compat. unfold qk. lra. Qed.
  Lemma ru0 n : 0 <= ru n.
  Proof. unfold ru. destruct qk1 as [Q _]. pose proof (nn_ge n). pose proof (pos_INR n). apply Rmult_le_pos; [apply u0|]. repeat apply Rmult_le_pos; lra. Qed.
  Lemma ru_rapid : rapid ru.
  Proof.
    unfold ru. destruct qk1 as [Q _]. apply rapid_mult; [intros; apply u0|exact Hu|]. apply tame_mult; [apply tame_mult; [now apply tame_const|apply weight_tame]|]. apply tame_mult; [apply tame_plus; [apply nn_tame|apply tame_const; lra]|apply tame_const; nra].
  Qed.
  (* |x| <= c (2n+1), |y| <= nn + 1, |z| <= q^2, |f| <= u *)
  Lemma four_le (x y z f : C) n : Cmod x <= c * (2 * INR n + 1) -> Cmod y <= nn n + 1 -> Cmod z <= qk * qk -> Cmod f <= u n -> Cmod (x * y * z * f)%C <= ru n.
  Proof.
    intros X Y Z W. rewrite !Cmod_mult. unfold ru. rewrite (Rmult_comm (u n)). apply Rmult_le_compat; [repeat apply Rmult_le_pos; apply Cmod_ge_0|apply Cmod_ge_0| |exact W]. rewrite <- Rmult_assoc.
    apply Rmult_le_compat; [repeat apply Rmult_le_pos; apply Cmod_ge_0|apply Cmod_ge_0| |exact Z]. apply Rmult_le_compat; try apply Cmod_ge_0; assumption.
  Qed.
  Lemma ks s : 0 < s -> (k * RtoC s)%C <> RtoC 0. Proof. intros Hs. apply Cmult_neq_0; [exact Hk|intros Q; injection Q; lra]. Qed.
  Lemma q1 s : r1 <= s -> Cmod (/ (k * RtoC s))%C <= qk.
  Proof.
    intros Hs. pose proof k0'. rewrite Cmod_inv by (apply ks; lra). rewrite Cmod_mult, Cmod_R, Rabs_pos_eq by lra. eapply Rle_trans; [|exact (proj1 (proj2 qk1))]. apply Rinv_le_contravar; [apply Rmult_lt_0_compat; lra|apply Rmult_le_compat_l; lra].
  Qed.
  Lemma m1 : Cmod (RtoC 1) <= nn 0 + 1. Proof. rewrite Cmod_1. unfold nn. cbn. lra. Qed.
  Lemma e_i n : (1 <= n)%nat -> Cmod (- (e n * Ci))%C <= c * (2 * INR n + 1).
  Proof. intros Hn. rewrite Cmod_opp, Cmod_mult, Cmod_Ci, Rmult_1_r. now apply He. Qed.
  Lemma y1 n : Cmod (RtoC 1) <= nn n + 1. Proof. rewrite Cmod_1. pose proof (nn_ge n). pose proof (pos_INR n). lra. Qed.
  Lemma ynn n : Cmod (RtoC (nn n)) <= nn n + 1. Proof. pose proof (nn_ge n). pose proof (pos_INR n). rewrite Cmod_R, Rabs_pos_eq; lra. Qed.
  Lemma U_ok n s : (1 <= n)%nat -> r1 < s < r2 -> RCderive (fun s => RtoC s * rU n s)%C s (rdU n s) /\ Cmod (rU n s) <= ru n /\ Cmod (rdU n s) <= ru n.
  Proof.
    intros Hn Hs. destruct (HB n (negb tm) s Hn ltac:(lra)) as [B1 B2]. destruct qk1 as (Q1 & Q2 & Q3). split; [|split].
    - destruct (fld_derive n Hn k (pair_of (negb tm) (A n)) s Hk ltac:(lra)) as [D _]. apply (rc_ext_loc (fun s => (e n / k) * Fl (negb tm) n s)%C).
      + apply (near_pos s ltac:(lra)). intros t Ht. unfold rU. match goal with |- ?x = ?y => change (@eq C x y) end. field. split; [intros Q; injection Q; lra|exact Hk].
      + eapply rc_val; [|apply rc_scal, D]. unfold rdU. match goal with |- ?x = ?y => change (@eq C x y) end. field. exact Hk.
    - replace (rU n s) with (e n * RtoC 1 * / (k * RtoC s) * Fl (negb tm) n s)%C by (unfold rU, Cdiv; ring). apply four_le; [now apply He|apply y1| |exact B1]. pose proof (q1 s ltac:(lra)). nra.
    - replace (rdU n s) with (e n * RtoC 1 * RtoC 1 * dFl (negb tm) n s)%C by (unfold rdU; ring). apply four_le; [now apply He|apply y1|rewrite Cmod_1; nra|exact B2].
  Qed.
  Lemma V_ok n s : (1 <= n)%nat -> r1 < s < r2 -> RCderive (fun s => RtoC s * rV n s)%C s (rdV n s) /\ Cmod (rV n s) <= ru n /\ Cmod (rdV n s) <= ru n.
  Proof.
    intros Hn Hs. destruct (HB n tm s Hn ltac:(lra)) as [B1 B2]. destruct qk1 as (Q1 & Q2 & Q3). split; [|split].
    - destruct (fld_derive n Hn k (pair_of tm (A n)) s Hk ltac:(lra)) as [_ D]. apply (rc_ext_loc (fun s => (- (e n * Ci) / k) * dFl tm n s)%C).
      + apply (near_pos s ltac:(lra)). intros t Ht. unfold rV. match goal with |- ?x = ?y => change (@eq C x y) end. field. split; [intros Q; injection Q; lra|exact Hk].
      + eapply rc_val; [|apply rc_scal, D]. unfold rdV. unfold nn. rewrite RtoC_mult, RtoC_plus. match goal with |- ?x = ?y => change (@eq C x y) end. field. split; [intros Q; injection Q; lra|exact Hk].
    - replace (rV n s) with (- (e n * Ci) * RtoC 1 * / (k * RtoC s) * dFl tm n s)%C by (unfold rV, Cdiv; ring). apply four_le; [now apply e_i|apply y1| |exact B2]. pose proof (q1 s ltac:(lra)). nra.
    - replace (rdV n s) with (- (e n * Ci) * RtoC 1 * (RtoC (nn n) / (k * RtoC s * (k * RtoC s)) - RtoC 1) * Fl tm n s)%C by (unfold rdV; ring).
      rewrite !Cmod_mult. unfold ru. rewrite (Rmult_comm (u n)). apply Rmult_le_compat; [repeat apply Rmult_le_pos; apply Cmod_ge_0|apply Cmod_ge_0| |exact B1]. rewrite Cmod_1, Rmult_1_r.
      apply Rmult_le_compat; [apply Cmod_ge_0|apply Cmod_ge_0|now apply e_i|]. unfold Cminus, Cdiv. eapply Rle_trans; [apply Cmod_triangle|]. rewrite Cmod_opp, Cmod_1, Cmod_mult, Cmod_R, (Rabs_pos_eq (nn n)) by (pose proof (nn_ge n); pose proof (pos_INR n); lra).
      pose proof (ks s ltac:(lra)) as Z. replace (/ (k * RtoC s * (k * RtoC s)))%C with (/ (k * RtoC s) * / (k * RtoC s))%C by (field; split; [intros Q; injection Q; lra|exact Hk]). rewrite Cmod_mult. pose proof (q1 s ltac:(lra)) as Q. pose proof (Cmod_ge_0 (/ (k * RtoC s))%C) as Q0.
      pose proof (nn_ge n). pose proof (pos_INR n). assert (Cmod (/ (k * RtoC s))%C * Cmod (/ (k * RtoC s))%C <= qk * qk) by (apply Rmult_le_compat; lra). nra.
  Qed.
  Lemma P_ok n s : (1 <= n)%nat -> r1 < s < r2 -> RCderive (fun s => RtoC (s * s) * rP n s)%C s (rdP n s) /\ Cmod (rP n s) <= ru n /\ Cmod (rdP n s) <= ru n.
  Proof.
    intros Hn Hs. destruct (HB n tm s Hn ltac:(lra)) as [B1 B2]. destruct qk1 as (Q1 & Q2 & Q3). split; [|split].
    - destruct (fld_derive n Hn k (pair_of tm (A n)) s Hk ltac:(lra)) as [D _]. apply (rc_ext_loc (fun s => (- (e n * Ci * RtoC (nn n)) / (k * k)) * Fl tm n s)%C).
      + apply (near_pos s ltac:(lra)). intros t Ht. unfold rP. rewrite RtoC_mult. match goal with |- ?x = ?y => change (@eq C x y) end. field. split; [intros Q; injection Q; lra|exact Hk].
      + eapply rc_val; [|apply rc_scal, D]. unfold rdP. match goal with |- ?x = ?y => change (@eq C x y) end. field. exact Hk.
    - replace (rP n s) with (- (e n * Ci) * RtoC (nn n) * (/ (k * RtoC s) * / (k * RtoC s)) * Fl tm n s)%C by (unfold rP, Cdiv; field; split; [intros Q; injection Q; lra|exact Hk]). apply four_le; [now apply e_i|apply ynn| |exact B1].
      rewrite Cmod_mult. pose proof (q1 s ltac:(lra)). pose proof (Cmod_ge_0 (/ (k * RtoC s))%C). apply Rmult_le_compat; lra.
    - replace (rdP n s) with (- (e n * Ci) * RtoC (nn n) * / k * dFl tm n s)%C by (unfold rdP, Cdiv; ring). apply four_le; [now apply e_i|apply ynn| |exact B2]. rewrite Cmod_inv by exact Hk. nra.
  Qed.
End Region.

Lemma nine_ext FN GN F r th ph : 0 < r -> (forall N s t p, 0 < s -> FN N s t p = GN N s t p) -> nine FN F r th ph -> nine GN F r th ph.
Proof.
  intros Hr E (D1 & D2 & D3 & D4 & D5 & D6 & D7 & D8 & D9). unfold nine.
  assert (L : forall (P : R -> Prop) t, (forall s, P s) -> locally t P) by (intros P t HP; exists (mkposreal 1 Rlt_0_1); intros; apply HP).
  refine (conj (dlim_ext _ _ _ _ _ _ D1) (conj (dlim_ext _ _ _ _ _ _ D2) (conj (dlim_ext _ _ _ _ _ _ D3) (conj (dlim_ext _ _ _ _ _ _ D4) (conj (dlim_ext _ _ _ _ _ _ D5) (conj (dlim_ext _ _ _ _ _ _ D6) (conj (dlim_ext _ _ _ _ _ _ D7) (conj (dlim_ext _ _ _ _ _ _ D8) (dlim_ext _ _ _ _ _ _ D9)))))))));
    first [apply L; intros s; split; [intros N; now rewrite E|reflexivity] | apply (near_pos r Hr); intros s Hs; split; [intros N; now rewrite E|reflexivity]].
Qed.
Section Fields.
  Variables (k0 : R) (m E0 : C) (A : nat -> @amps R) (r1 r2 : R).
  Notation k := (RtoC k0 * m)%C.
  Hypothesis H1 : 0 < r1.
  Hypothesis H2 : r1 < r2.
  Hypothesis Hk0 : k0 <> 0.
  Hypothesis Hm : m <> RtoC 0.
  Notation e n := (@pw_factor R ROps n E0 : C).
  Definition seE (n : nat) : sph_field := sep cos (fun p => - sin p) (rP A k (fun n => e n) true) (rU A k (fun n => e n) true) (rV A k (fun n => e n) true) n.
  Definition seH (n : nat) : sph_field := sep sin cos (rP A k (fun n => m * e n)%C false) (rU A k (fun n => m * e n)%C false) (rV A k (fun n => m * e n)%C false) n.
  Lemma knz : k <> RtoC 0. Proof. apply Cmult_neq_0; [intros Q; injection Q; exact Hk0|exact Hm]. Qed.
  Lemma E_sep N r th ph : 0 < r -> psum cos (fun p => - sin p) (rP A k (fun n => e n) true) (rU A k (fun n => e n) true) (rV A k (fun n => e n) true) N r th ph = true_E k0 m E0 false A N r th ph.
  Proof.
    intros Hr. pose proof (ks k knz r Hr) as Hz. assert (R0 : RtoC r <> RtoC 0) by (intros Q; injection Q; lra). assert (K0 : RtoC k0 <> RtoC 0) by (intros Q; injection Q; exact Hk0).
    assert (T : forall n, (c_r (seE n r th ph) = v1 (@E_region R ROps E0 false (A n) (rad_vsh n false (k * RtoC r)%C th ph) (rad_vsh n true (k * RtoC r)%C th ph) n) /\
      c_th (seE n r th ph) = v2 (@E_region R ROps E0 false (A n) (rad_vsh n false (k * RtoC r)%C th ph) (rad_vsh n true (k * RtoC r)%C th ph) n) /\
      c_ph (seE n r th ph) = v3 (@E_region R ROps E0 false (A n) (rad_vsh n false (k * RtoC r)%C th ph) (rad_vsh n true (k * RtoC r)%C th ph) n))).
    { intros n. pose proof (E_erf E0 (k * RtoC r)%C A n (th, ph)) as EE. cbn [fst snd] in EE. rewrite EE. clear EE. destruct (Erf_parts E0 (RtoC 1) th ph n (true_rf n) (k * RtoC r)%C (A n) Hz one_nz) as (e1 & e2 & e3). rewrite e1, e2, e3. clear e1 e2 e3.
      replace (k * RtoC r * RtoC 1)%C with (k * RtoC r)%C by ring. unfold seE, sep, rU, rV, rP. cbn [c_r c_th c_ph fst snd negb].
      generalize (Fld (true_rf n) (pair_of true (A n)) (k * RtoC r)%C) (Fld (true_rf n) (pair_of false (A n)) (k * RtoC r)%C) (dFld (true_rf n) (pair_of true (A n)) (k * RtoC r)%C). change (cplx R) with C. generalize (e n). intros en f1 f2 g1. unfold nn. rewrite !RtoC_mult, RtoC_plus, RtoC_opp.
      split; [|split]; match goal with |- ?x = ?y => change (@eq C x y) end; field; repeat split; first [assumption|exact one_nz|idtac]. }
    unfold true_E, rad_E. apply cvec_eq; cbn [psum c_r c_th c_ph fst snd]; unfold psum; cbn [c_r c_th c_ph fst snd]; change c_r with (@v1 R); change c_th with (@v2 R); change c_ph with (@v3 R).
    - rewrite (proj1 (vsum_parts _ _)), csum_l_csum1. apply csum1_ext. intros n _. exact (proj1 (T n)).
    - rewrite (proj1 (proj2 (vsum_parts _ _))), csum_l_csum1. apply csum1_ext. intros n _. exact (proj1 (proj2 (T n))).
    - rewrite (proj2 (proj2 (vsum_parts _ _))), csum_l_csum1. apply csum1_ext. intros n _. exact (proj2 (proj2 (T n))).
  Qed.
  Lemma H_sep N r th ph : 0 < r -> psum sin cos (rP A k (fun n => m * e n)%C false) (rU A k (fun n => m * e n)%C false) (rV A k (fun n => m * e n)%C false) N r th ph = true_H k0 m E0 false A N r th ph.
  Proof.
    intros Hr. pose proof (ks k knz r Hr) as Hz. assert (R0 : RtoC r <> RtoC 0) by (intros Q; injection Q; lra). assert (K0 : RtoC k0 <> RtoC 0) by (intros Q; injection Q; exact Hk0).
    assert (T : forall n, (c_r (seH n r th ph) = v1 (@H_region R ROps E0 m false (A n) (rad_vsh n false (k * RtoC r)%C th ph) (rad_vsh n true (k * RtoC r)%C th ph) n) /\
      c_th (seH n r th ph) = v2 (@H_region R ROps E0 m false (A n) (rad_vsh n false (k * RtoC r)%C th ph) (rad_vsh n true (k * RtoC r)%C th ph) n) /\
      c_ph (seH n r th ph) = v3 (@H_region R ROps E0 m false (A n) (rad_vsh n false (k * RtoC r)%C th ph) (rad_vsh n true (k * RtoC r)%C th ph) n))).
    { intros n. pose proof (H_hrf E0 m (k * RtoC r)%C A Hz n (th, ph)) as EE. cbn [fst snd] in EE. rewrite EE. clear EE. destruct (Hrf_parts E0 (m / (k * RtoC r))%C (RtoC 1) th ph n (true_rf n) (k * RtoC r)%C (A n) Hz one_nz) as (e1 & e2 & e3). rewrite e1, e2, e3. clear e1 e2 e3.
      replace (k * RtoC r * RtoC 1)%C with (k * RtoC r)%C by ring. unfold seH, sep, rU, rV, rP. cbn [c_r c_th c_ph fst snd negb].
      generalize (Fld (true_rf n) (pair_of true (A n)) (k * RtoC r)%C) (Fld (true_rf n) (pair_of false (A n)) (k * RtoC r)%C) (dFld (true_rf n) (pair_of false (A n)) (k * RtoC r)%C). change (cplx R) with C. generalize (e n). intros en f1 f2 g1. unfold nn. rewrite !RtoC_mult, RtoC_plus.
      split; [|split]; match goal with |- ?x = ?y => change (@eq C x y) end; field; repeat split; first [assumption|exact one_nz|idtac]. }
    unfold true_H, rad_H. apply cvec_eq; cbn [psum c_r c_th c_ph fst snd]; unfold psum; cbn [c_r c_th c_ph fst snd]; change c_r with (@v1 R); change c_th with (@v2 R); change c_ph with (@v3 R).
    - rewrite (proj1 (vsum_parts _ _)), csum_l_csum1. apply csum1_ext. intros n _. exact (proj1 (T n)).
    - rewrite (proj1 (proj2 (vsum_parts _ _))), csum_l_csum1. apply csum1_ext. intros n _. exact (proj1 (proj2 (T n))).
    - rewrite (proj2 (proj2 (vsum_parts _ _))), csum_l_csum1. apply csum1_ext. intros n _. exact (proj2 (proj2 (T n))).
  Qed.
  Hypothesis D1 : decays A (k * RtoC r1)%C.
  Hypothesis D2 : decays A (k * RtoC r2)%C.
  Variables E H : sph_field.
  Hypothesis HL : forall r, r1 < r < r2 -> series_limit k0 m E0 false A E H r.
  Theorem region_maxwell r th ph : r1 < r < r2 -> sin th <> 0 -> maxwell k0 m E H r th ph.
  Proof.
    intros Hr Hs. destruct (uniform_decay A k r1 r2 H1 H2 knz D1 D2) as (u & Hu & u0 & HB).
    assert (ds : forall p, is_derive (fun p => - sin p) p (- cos p)) by (intros p; apply (@is_derive_opp R_AbsRing R_NormedModule), is_derive_sin).
    assert (dc : forall p, is_derive cos p (- sin p)) by apply is_derive_cos.
    assert (cb : forall p, Rabs (cos p) <= 1) by (intros; apply Rabs_le, COS_bound). assert (sb : forall p, Rabs (sin p) <= 1) by (intros; apply Rabs_le, SIN_bound). assert (sb' : forall p, Rabs (- sin p) <= 1) by (intros; rewrite Rabs_Ropp; apply sb).
    assert (eE : forall n, (1 <= n)%nat -> Cmod (e n) <= Cmod E0 * (2 * INR n + 1)) by (intros; now apply pw_bound).
    assert (eH : forall n, (1 <= n)%nat -> Cmod (m * e n)%C <= Cmod m * Cmod E0 * (2 * INR n + 1)) by (intros n Hn; rewrite Cmod_mult, Rmult_assoc; apply Rmult_le_compat_l; [apply Cmod_ge_0|now apply pw_bound]).
    assert (cE : 0 <= Cmod E0) by apply Cmod_ge_0. assert (cH : 0 <= Cmod m * Cmod E0) by (apply Rmult_le_pos; apply Cmod_ge_0).
    assert (NE : nine (true_E k0 m E0 false A) E r th ph).
    { refine (nine_ext _ _ _ r th ph ltac:(lra) (fun N s t p => E_sep N s t p) _).
      refine (sep_nine cos (fun p => - sin p) _ _ _ (rdP A k (fun n => e n) true) (rdU A k (fun n => e n) true) (rdV A k (fun n => e n) true) (ru k r1 (Cmod E0) u) r1 r2 E dc ds cb sb' _ _ _ _ _ _ r th ph Hr).
      - intros n. apply ru0; first [assumption|exact knz]. - apply ru_rapid; first [assumption|exact knz]. - intros. apply P_ok with r2; first [assumption|exact knz]. - intros. apply U_ok with r2; first [assumption|exact knz]. - intros. apply V_ok with r2; first [assumption|exact knz].
      - intros s t p Hi. destruct (HL s Hi) as [L1 _]. destruct (field_tends _ _ t p L1) as (T1 & T2 & T3). split; [|split]; (eapply tends_ev; [exists O; intros N _; rewrite E_sep by lra; reflexivity|assumption]). }
    assert (NH : nine (true_H k0 m E0 false A) H r th ph).
    { refine (nine_ext _ _ _ r th ph ltac:(lra) (fun N s t p => H_sep N s t p) _).
      refine (sep_nine sin cos _ _ _ (rdP A k (fun n => m * e n)%C false) (rdU A k (fun n => m * e n)%C false) (rdV A k (fun n => m * e n)%C false) (ru k r1 (Cmod m * Cmod E0) u) r1 r2 H is_derive_sin dc sb cb _ _ _ _ _ _ r th ph Hr).
      - intros n. apply ru0; first [assumption|exact knz]. - apply ru_rapid; first [assumption|exact knz]. - intros. apply P_ok with r2; first [assumption|exact knz]. - intros. apply U_ok with r2; first [assumption|exact knz]. - intros. apply V_ok with r2; first [assumption|exact knz].
      - intros s t p Hi. destruct (HL s Hi) as [_ L1]. destruct (field_tends _ _ t p L1) as (T1 & T2 & T3). split; [|split]; (eapply tends_ev; [exists O; intros N _; rewrite H_sep by lra; reflexivity|assumption]). }
    destruct (HL r Hr) as [LE LH]. pose proof (field_tends _ _ th ph LE) as (TE1 & TE2 & TE3). pose proof (field_tends _ _ th ph LH) as (TH1 & TH2 & TH3).
    pose proof (fun N => fields_maxwell k0 m E0 false A N r th ph Hk0 Hm ltac:(lra) Hs) as MX.
    assert (SC : forall c u l, tends_vec u l -> tends_vec (fun N => scale3 c (u N)) (scale3 c l)).
    { intros c v l (X1 & X2 & X3). split; [|split]; apply tends_mult; first [apply tends_const|assumption]. }
    split; [|split; [|split]].
    - apply (curl_lim _ _ r th ph _ _ ltac:(lra) Hs NE (fun N => proj1 (MX N))). apply SC. split; [|split]; assumption.
    - apply (curl_lim _ _ r th ph _ _ ltac:(lra) Hs NH (fun N => proj1 (proj2 (MX N)))). apply SC. split; [|split]; assumption.
    - apply (div_lim _ _ r th ph ltac:(lra) Hs NE (fun N => proj1 (proj2 (proj2 (MX N))))).
    - apply (div_lim _ _ r th ph ltac:(lra) Hs NH (fun N => proj2 (proj2 (proj2 (MX N))))).
  Qed.
End Fields.
