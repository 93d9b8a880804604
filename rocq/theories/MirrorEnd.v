From Coq Require Import Reals ZArith List Bool String Arith Lra Lia.
From Coquelicot Require Import Complex.
From Verif Require Import Ops ROps Tensor ModelSpecial ModelMie ModelBatch BroadcastSpec BroadcastProofs BatchReal ModelObs ModelJn ModelNear ModelNearLegacy ModelNearPena NearLegacySpec NearPenaCall
  GeomProofs MirrorSpec MirrorProofs.
Import ListNotations.
Open Scope R_scope.

Definition at_xyz (e10 x y z : R) : @point R :=
  let s := @xyz_to_sph R ROps e10 x y z in {| pt_r := fst (fst s); pt_theta := snd (fst s); pt_phi := snd s |}.

Lemma atan2_cos_sin y x : x <> 0 -> cos (Ratan2 y x) = x / sqrt (x * x + y * y) /\ sin (Ratan2 y x) = y / sqrt (x * x + y * y).
Proof.
  intros Hx. destruct (atan2_polar y x Hx) as [H1 H2].
  assert (Hs : 0 < sqrt (x * x + y * y)) by (apply sqrt_lt_R0; nra). split; [rewrite <- H1 at 2|rewrite <- H2 at 2]; field; lra.
Qed.
Lemma norm3_signs x y z x' y' : x' * x' = x * x -> y' * y' = y * y -> @norm3 R ROps x' y' z = norm3 x y z.
Proof. intros Hx Hy. change (sqrt (x' * (x' * 1) + y' * (y' * 1) + z * (z * 1)) = sqrt (x * (x * 1) + y * (y * 1) + z * (z * 1))). rewrite !Rmult_1_r. now rewrite Hx, Hy. Qed.
Lemma safe_x e10 x : 0 < e10 -> @radd R ROps x (rmul (if @reqb R ROps x rzero then rone else rzero) e10) = if Reqb x 0 then e10 else x.
Proof. intros He. cbn [radd rmul reqb rone rzero ROps]. destruct (Reqb x 0) eqn:E; [apply Reqb_true in E; subst x|]; ring. Qed.
Lemma safe_nz e10 x : 0 < e10 -> (if Reqb x 0 then e10 else x) <> 0.
Proof. intros He. destruct (Reqb x 0) eqn:E; [lra|]. intros H. rewrite (proj2 (Reqb_true x 0) H) in E. discriminate. Qed.

Lemma reflected_y e10 x y z : 0 < e10 -> exists r th ph ph', at_xyz e10 x y z = {| pt_r := r; pt_theta := th; pt_phi := ph |} /\
  at_xyz e10 x (- y) z = {| pt_r := r; pt_theta := th; pt_phi := ph' |} /\ cos ph' = cos ph /\ sin ph' = - sin ph.
Proof.
  intros He. do 4 eexists. split; [reflexivity|]. unfold at_xyz, xyz_to_sph. cbn [fst snd]. rewrite (norm3_signs x y z x (- y)) by ring. split; [reflexivity|].
  rewrite !safe_x by exact He. cbn [ratan2 ROps]. destruct (atan2_cos_sin y _ (safe_nz e10 x He)) as [-> ->]. destruct (atan2_cos_sin (- y) _ (safe_nz e10 x He)) as [-> ->].
  replace (- y * - y) with (y * y) by ring. split; [reflexivity|]. unfold Rdiv. ring.
Qed.
Lemma reflected_x e10 x y z : 0 < e10 -> x <> 0 -> exists r th ph ph', at_xyz e10 x y z = {| pt_r := r; pt_theta := th; pt_phi := ph |} /\
  at_xyz e10 (- x) y z = {| pt_r := r; pt_theta := th; pt_phi := ph' |} /\ cos ph' = - cos ph /\ sin ph' = sin ph.
Proof.
  intros He Hx. do 4 eexists. split; [reflexivity|]. unfold at_xyz, xyz_to_sph. cbn [fst snd]. rewrite (norm3_signs x y z (- x) y) by ring. split; [reflexivity|].
  rewrite !safe_x by exact He.
  assert (N : forall t, t <> 0 -> Reqb t 0 = false). { intros t Ht. destruct (Reqb t 0) eqn:E; [|reflexivity]. apply Reqb_true in E. contradiction. }
  rewrite (N x Hx), (N (- x)) by lra. cbn [ratan2 ROps]. destruct (atan2_cos_sin y x Hx) as [-> ->]. destruct (atan2_cos_sin y (- x)) as [-> ->]; [lra|].
  replace (- x * - x) with (x * x) by ring. split; [|reflexivity]. unfold Rdiv. ring.
Qed.

Lemma signs_add a b c F G : @vadd R ROps (signs a b c F) (signs a b c G) = signs a b c (@vadd R ROps F G).
Proof. destruct F as [[[? ?] [? ?]] [? ?]], G as [[[? ?] [? ?]] [? ?]]. unfold vadd, signs, v1, v2, v3. cbn [fst snd]. (apply f_equal2; [apply f_equal2|]); apply injective_projections; cbn; ring. Qed.
Lemma e_signs c s u v w ph ph' : cos ph' = c * cos ph -> sin ph' = s * sin ph -> c * c = 1 -> s * s = 1 -> e_azimuth u v w ph' = signs 1 (s * c) c (e_azimuth u v w ph).
Proof.
  intros Hc Hs H1 H2. unfold e_azimuth, signs. cbn [fst snd]. rewrite Hc, Hs.
  replace (c * cos ph * (c * cos ph)) with (cos ph * cos ph) by (transitivity ((c * c) * (cos ph * cos ph)); [rewrite H1|]; ring).
  replace (s * sin ph * (s * sin ph)) with (sin ph * sin ph) by (transitivity ((s * s) * (sin ph * sin ph)); [rewrite H2|]; ring).
  replace (s * sin ph * (c * cos ph)) with (s * c * (sin ph * cos ph)) by ring. rewrite (RtoC_mult (s * c)), (RtoC_mult c (cos ph)). (apply f_equal2; [apply f_equal2|]); Cring.
Qed.
Lemma h_signs c s u v w ph ph' : cos ph' = c * cos ph -> sin ph' = s * sin ph -> c * c = 1 -> s * s = 1 -> h_azimuth u v w ph' = signs (s * c) 1 s (h_azimuth u v w ph).
Proof.
  intros Hc Hs H1 H2. unfold h_azimuth, signs. cbn [fst snd]. rewrite Hc, Hs.
  replace (c * cos ph * (c * cos ph)) with (cos ph * cos ph) by (transitivity ((c * c) * (cos ph * cos ph)); [rewrite H1|]; ring).
  replace (s * sin ph * (s * sin ph)) with (sin ph * sin ph) by (transitivity ((s * s) * (sin ph * sin ph)); [rewrite H2|]; ring).
  replace (s * sin ph * (c * cos ph)) with (s * c * (sin ph * cos ph)) by ring. rewrite (RtoC_mult (s * c)), (RtoC_mult s (sin ph)). (apply f_equal2; [apply f_equal2|]); Cring.
Qed.

Section Mirror.
  Variables (N n_add : nat) (k0 : R) (env : C) (core : R * C) (shells : list (R * C)) (E0 : C).
  Lemma fields_signs c s r th ph ph' : cos ph' = c * cos ph -> sin ph' = s * sin ph -> c * c = 1 -> s * s = 1 ->
    let P := {| pt_r := r; pt_theta := th; pt_phi := ph |} in let P' := {| pt_r := r; pt_theta := th; pt_phi := ph' |} in
    @E_i R ROps k0 env E0 P' = signs 1 (s * c) c (@E_i R ROps k0 env E0 P) /\ @H_i R ROps k0 env E0 P' = signs (s * c) 1 s (@H_i R ROps k0 env E0 P) /\
    @E_s R ROps N n_add k0 env core shells E0 P' = signs 1 (s * c) c (@E_s R ROps N n_add k0 env core shells E0 P) /\
    @H_s R ROps N n_add k0 env core shells E0 P' = signs (s * c) 1 s (@H_s R ROps N n_add k0 env core shells E0 P) /\
    @E_t R ROps N n_add k0 env core shells E0 P' = signs 1 (s * c) c (@E_t R ROps N n_add k0 env core shells E0 P) /\
    @H_t R ROps N n_add k0 env core shells E0 P' = signs (s * c) 1 s (@H_t R ROps N n_add k0 env core shells E0 P).
  Proof.
    intros Hc Hs H1 H2 P P'. destruct (azimuth N n_add k0 env core shells E0 r th) as [(u & v & w & HE) (u' & v' & w' & HH)].
    assert (Ei : @E_i R ROps k0 env E0 P' = signs 1 (s * c) c (@E_i R ROps k0 env E0 P)).
    { unfold E_i, signs. cbn [fst snd]. change (@ModelNear.phase R ROps k0 env P') with (@ModelNear.phase R ROps k0 env P). generalize (@ModelNear.phase R ROps k0 env P) (@csqrt R ROps env). intros [f f'] [q q']. (apply f_equal2; [apply f_equal2|]); apply injective_projections; cbn; ring. }
    assert (Hi : @H_i R ROps k0 env E0 P' = signs (s * c) 1 s (@H_i R ROps k0 env E0 P)).
    { unfold H_i, signs. cbn [fst snd]. change (@ModelNear.phase R ROps k0 env P') with (@ModelNear.phase R ROps k0 env P). generalize (@ModelNear.phase R ROps k0 env P) (@csqrt R ROps env). intros [f f'] [q q']. (apply f_equal2; [apply f_equal2|]); apply injective_projections; cbn; ring. }
    assert (Es : @E_s R ROps N n_add k0 env core shells E0 P' = signs 1 (s * c) c (@E_s R ROps N n_add k0 env core shells E0 P)) by (unfold P, P'; rewrite !HE; now apply e_signs).
    assert (Hs' : @H_s R ROps N n_add k0 env core shells E0 P' = signs (s * c) 1 s (@H_s R ROps N n_add k0 env core shells E0 P)) by (unfold P, P'; rewrite !HH; now apply h_signs).
    repeat split; try assumption.
    - unfold E_t. change (@ModelNear.outside R ROps core shells P') with (@ModelNear.outside R ROps core shells P). rewrite Es, Ei, signs_add. now destruct (ModelNear.outside core shells P).
    - unfold H_t. change (@ModelNear.outside R ROps core shells P') with (@ModelNear.outside R ROps core shells P). rewrite Hs', Hi, signs_add. now destruct (ModelNear.outside core shells P).
  Qed.
  Lemma mirrored_y e10 x y z : 0 < e10 -> let P := at_xyz e10 x y z in let P' := at_xyz e10 x (- y) z in
    @E_i R ROps k0 env E0 P' = signs 1 (-1) 1 (@E_i R ROps k0 env E0 P) /\ @H_i R ROps k0 env E0 P' = signs (-1) 1 (-1) (@H_i R ROps k0 env E0 P) /\
    @E_s R ROps N n_add k0 env core shells E0 P' = signs 1 (-1) 1 (@E_s R ROps N n_add k0 env core shells E0 P) /\
    @H_s R ROps N n_add k0 env core shells E0 P' = signs (-1) 1 (-1) (@H_s R ROps N n_add k0 env core shells E0 P) /\
    @E_t R ROps N n_add k0 env core shells E0 P' = signs 1 (-1) 1 (@E_t R ROps N n_add k0 env core shells E0 P) /\
    @H_t R ROps N n_add k0 env core shells E0 P' = signs (-1) 1 (-1) (@H_t R ROps N n_add k0 env core shells E0 P).
  Proof.
    intros He. cbv zeta. destruct (reflected_y e10 x y z He) as (r & th & ph & ph' & -> & -> & Hc & Hs).
    pose proof (fields_signs 1 (-1) r th ph ph') as H. replace (-1 * 1) with (-1) in H by ring. apply H; [rewrite Hc|rewrite Hs| |]; ring.
  Qed.
  Lemma mirrored_x e10 x y z : 0 < e10 -> x <> 0 -> let P := at_xyz e10 x y z in let P' := at_xyz e10 (- x) y z in
    @E_i R ROps k0 env E0 P' = signs 1 (-1) (-1) (@E_i R ROps k0 env E0 P) /\ @H_i R ROps k0 env E0 P' = signs (-1) 1 1 (@H_i R ROps k0 env E0 P) /\
    @E_s R ROps N n_add k0 env core shells E0 P' = signs 1 (-1) (-1) (@E_s R ROps N n_add k0 env core shells E0 P) /\
    @H_s R ROps N n_add k0 env core shells E0 P' = signs (-1) 1 1 (@H_s R ROps N n_add k0 env core shells E0 P) /\
    @E_t R ROps N n_add k0 env core shells E0 P' = signs 1 (-1) (-1) (@E_t R ROps N n_add k0 env core shells E0 P) /\
    @H_t R ROps N n_add k0 env core shells E0 P' = signs (-1) 1 1 (@H_t R ROps N n_add k0 env core shells E0 P).
  Proof.
    intros He Hx. cbv zeta. destruct (reflected_x e10 x y z He Hx) as (r & th & ph & ph' & -> & -> & Hc & Hs).
    pose proof (fields_signs (-1) 1 r th ph ph') as H. replace (1 * -1) with (-1) in H by ring. apply H; [rewrite Hc|rewrite Hs| |]; ring.
  Qed.
End Mirror.

Section Call.
  Variables (sj sy jr : @bessel_t R) (e10 : R) (E0 : C) (probe : tensor R) (Q : nat) (c : @call R) (o : @output R) (r : tensor R) (eps : tensor C) (K P L : nat)
    (ef : nat -> nat -> nat -> list nat) (vf : nat -> list nat).
  Hypothesis Hm : mie_coefficients sj sy jr (without_internal c) = Ok o.
  Hypothesis Hb : backend_is c "pena".
  Hypothesis Hin : inputs_of c = Ok (r, eps).
  Hypothesis Hv : valid (a_k0 c) r eps (a_env c) K P L ef vf.
  Hypothesis Hn : (1 <= o_n_max o)%Z.
  Hypothesis HP : (1 <= P)%nat.
  Hypothesis Hp : shp probe = [Q; 3]%nat.
  Hypothesis He : 0 < e10.
  Lemma rows_of : exists f, near_call_pena e10 sj sy jr E0 probe c = Ok f /\
    forall p k i, (p < P)%nat -> (k < K)%nat -> (i < Q)%nat ->
      let N := Z.to_nat (o_n_max o) in let e := element (a_k0 c) r eps (a_env c) ef vf L p k in
      let k0 := fst (fst e) in let env := snd (fst e) in let co := core_of e in let sh := shells_of e in
      let pt := at_xyz e10 (at_ probe [i; 0%nat]) (at_ probe [i; 1%nat]) (at_ probe [i; 2%nat]) in
      row (f_Ei f) p k i = @E_i R ROps k0 env E0 pt /\ row (f_Hi f) p k i = @H_i R ROps k0 env E0 pt /\
      row (f_Es f) p k i = @E_s R ROps N 15 k0 env co sh E0 pt /\ row (f_Hs f) p k i = @H_s R ROps N 15 k0 env co sh E0 pt /\
      row (f_Et f) p k i = @E_t R ROps N 15 k0 env co sh E0 pt /\ row (f_Ht f) p k i = @H_t R ROps N 15 k0 env co sh E0 pt.
  Proof.
    destruct (near_record sj sy jr e10 E0 probe Q c o r eps K P L ef vf Hm Hb Hin Hv Hn HP Hp) as (f & Hf & _ & H). exists f. split; [exact Hf|].
    intros p k i Hp' Hk Hi. cbv zeta.
    pose proof (H p k i 0%nat Hp' Hk Hi ltac:(lia)) as (A1 & A2 & A3 & A4 & A5 & A6). pose proof (H p k i 1%nat Hp' Hk Hi ltac:(lia)) as (B1 & B2 & B3 & B4 & B5 & B6).
    pose proof (H p k i 2%nat Hp' Hk Hi ltac:(lia)) as (C1 & C2 & C3 & C4 & C5 & C6). cbv zeta in *.
    assert (G : forall (F : tensor C) (v : C * C * C), at_ F [p; k; i; 0%nat] = fst (fst v) -> at_ F [p; k; i; 1%nat] = snd (fst v) -> at_ F [p; k; i; 2%nat] = snd v -> row F p k i = v).
    { intros F [[a b] d] Ea Eb Ed. cbn [fst snd] in *. unfold row. now rewrite Ea, Eb, Ed. }
    repeat split; apply G; assumption.
  Qed.
  Lemma call_mirror_y : exists f, near_call_pena e10 sj sy jr E0 probe c = Ok f /\
    forall p k i j, (p < P)%nat -> (k < K)%nat -> (i < Q)%nat -> (j < Q)%nat -> mirror_y probe i j ->
      row (f_Ei f) p k j = signs 1 (-1) 1 (row (f_Ei f) p k i) /\ row (f_Hi f) p k j = signs (-1) 1 (-1) (row (f_Hi f) p k i) /\
      row (f_Es f) p k j = signs 1 (-1) 1 (row (f_Es f) p k i) /\ row (f_Hs f) p k j = signs (-1) 1 (-1) (row (f_Hs f) p k i) /\
      row (f_Et f) p k j = signs 1 (-1) 1 (row (f_Et f) p k i) /\ row (f_Ht f) p k j = signs (-1) 1 (-1) (row (f_Ht f) p k i).
  Proof.
    destruct rows_of as (f & Hf & H). exists f. split; [exact Hf|]. intros p k i j Hp' Hk Hi Hj (M0 & M1 & M2).
    destruct (H p k i Hp' Hk Hi) as (-> & -> & -> & -> & -> & ->). destruct (H p k j Hp' Hk Hj) as (-> & -> & -> & -> & -> & ->). rewrite M0, M1, M2. now apply mirrored_y.
  Qed.
  Lemma call_mirror_x : exists f, near_call_pena e10 sj sy jr E0 probe c = Ok f /\
    forall p k i j, (p < P)%nat -> (k < K)%nat -> (i < Q)%nat -> (j < Q)%nat -> mirror_x probe i j -> at_ probe [i; 0%nat] <> 0 ->
      row (f_Ei f) p k j = signs 1 (-1) (-1) (row (f_Ei f) p k i) /\ row (f_Hi f) p k j = signs (-1) 1 1 (row (f_Hi f) p k i) /\
      row (f_Es f) p k j = signs 1 (-1) (-1) (row (f_Es f) p k i) /\ row (f_Hs f) p k j = signs (-1) 1 1 (row (f_Hs f) p k i) /\
      row (f_Et f) p k j = signs 1 (-1) (-1) (row (f_Et f) p k i) /\ row (f_Ht f) p k j = signs (-1) 1 1 (row (f_Ht f) p k i).
  Proof.
    destruct rows_of as (f & Hf & H). exists f. split; [exact Hf|]. intros p k i j Hp' Hk Hi Hj (M0 & M1 & M2) Hx.
    destruct (H p k i Hp' Hk Hi) as (-> & -> & -> & -> & -> & ->). destruct (H p k j Hp' Hk Hj) as (-> & -> & -> & -> & -> & ->). rewrite M0, M1, M2. now apply mirrored_x.
  Qed.
  Lemma self_neg (z : C) : z = (RtoC (-1) * z)%C -> z = RtoC 0.
  Proof. destruct z as [a b]. intros H. apply (f_equal (fun z => (fst z, snd z))) in H. cbn in H. injection H as H1 H2. apply injective_projections; cbn; lra. Qed.
  Lemma call_plane : exists f, near_call_pena e10 sj sy jr E0 probe c = Ok f /\
    forall p k i, (p < P)%nat -> (k < K)%nat -> (i < Q)%nat -> at_ probe [i; 1%nat] = 0 ->
      at_ (f_Es f) [p; k; i; 1%nat] = RtoC 0 /\ at_ (f_Et f) [p; k; i; 1%nat] = RtoC 0 /\
      at_ (f_Hs f) [p; k; i; 0%nat] = RtoC 0 /\ at_ (f_Ht f) [p; k; i; 0%nat] = RtoC 0 /\ at_ (f_Hs f) [p; k; i; 2%nat] = RtoC 0 /\ at_ (f_Ht f) [p; k; i; 2%nat] = RtoC 0.
  Proof.
    destruct call_mirror_y as (f & Hf & H). exists f. split; [exact Hf|]. intros p k i Hp' Hk Hi Hy.
    destruct (H p k i i Hp' Hk Hi Hi) as (_ & _ & H3 & H4 & H5 & H6); [repeat split; rewrite Hy; ring|]. unfold row, signs in *. cbn [fst snd] in *.
    injection H3 as _ E3 _. injection H4 as E4 _ E4'. injection H5 as _ E5 _. injection H6 as E6 _ E6'. repeat split; apply self_neg; assumption.
  Qed.
End Call.
