(** Scale invariance of the near fields (C102). *)
From Coq Require Import Reals ZArith List Bool String Arith Lra Lia.
From Coquelicot Require Import Complex.
From Verif Require Import Ops ROps Tensor ModelSpecial ModelMie ModelBatch BroadcastSpec BroadcastProofs BatchReal ScaleProofs ParticleFull ModelObs ModelJn ModelNear ModelNearLegacy ModelNearPena
  GeomProofs MirrorSpec MirrorProofs MirrorEnd.
Import ListNotations.
Open Scope R_scope.

Section Scale.
  Variable s : R.
  Hypothesis Hs : 0 < s.
  Definition larger (re : R * C) : R * C := (s * fst re, snd re).
  Definition farther (P : @point R) : @point R := {| pt_r := s * pt_r P; pt_theta := pt_theta P; pt_phi := pt_phi P |}.

  Lemma prod_up (k0 : R) (m : C) (r : R) : @cmul R ROps (cmul (cofr (k0 / s)) m) (cofr (s * r)) = cmul (cmul (cofr k0) m) (cofr r).
  Proof.
    toC. match goal with |- @eq _ ?a ?b => change (@eq C a b) end. replace k0 with (s * (k0 / s)) at 2 by (field; lra).
    rewrite !RtoC_mult. ring.
  Qed.
  Lemma layer_up k0 env re : @layer_of R ROps (k0 / s) env (larger re) = layer_of k0 env re.
  Proof. unfold layer_of, larger. cbn [fst snd]. now rewrite prod_up. Qed.
  Lemma rho_up k0 m r : @rho_at R ROps (k0 / s) m (s * r) = rho_at k0 m r.
  Proof. unfold rho_at. now rewrite prod_up. Qed.
  Lemma radii_up core shells : @radii R (larger core) (map larger shells) = map (up s) (radii core shells).
  Proof. unfold radii. rewrite !map_map. cbn [map]. rewrite map_map. reflexivity. Qed.
  Lemma nth_up l d i : d = 0 -> nth i (map (up s) l) d = up s (nth i l d).
  Proof. intros ->. rewrite <- (map_nth (up s)). f_equal. unfold up. ring. Qed.
  Lemma last_up l : last (map (up s) l) 0 = up s (last l 0).
  Proof. induction l as [|a [|b l] IH]; [unfold up; cbn; ring|reflexivity|exact IH]. Qed.
  Lemma rleb_up x y : @rleb R ROps (up s x) (up s y) = rleb x y.
  Proof.
    apply eq_true_iff_eq. cbn [rleb ROps]. rewrite !Rleb_true. unfold up. split; intros H; [apply (Rmult_le_reg_l s); assumption|apply Rmult_le_compat_l; lra].
  Qed.
  Lemma region_up l r i : @in_region R ROps (map (up s) l) (s * r) i = in_region l r i.
  Proof.
    unfold in_region. rewrite map_length. change (@rzero R ROps) with 0. change (s * r) with (up s r).
    destruct (Nat.eqb i (List.length l)); [rewrite last_up; apply (rltb_up s Hs)|]. destruct i as [|j].
    - rewrite nth_up by reflexivity. apply rleb_up.
    - rewrite !nth_up by reflexivity. now rewrite (rltb_up s Hs), rleb_up.
  Qed.

  Section Fields.
    Variables (N n_add : nat) (k0 : R) (env : C) (core : R * C) (shells : list (R * C)) (E0 : C) (P : @point R).
    Lemma length_up : List.length (@radii R (larger core) (map larger shells)) = List.length (radii core shells).
    Proof. rewrite radii_up. apply map_length. Qed.
    Lemma medium_up li : @n_medium R ROps env (larger core) (map larger shells) li = n_medium env core shells li.
    Proof.
      unfold n_medium. rewrite length_up. destruct (Nat.eqb li _); [reflexivity|].
      change (larger core :: map larger shells) with (map larger (core :: shells)). now rewrite map_nth.
    Qed.
    Lemma amplitudes_up n : @amplitudes R ROps N n_add (k0 / s) env (larger core) (map larger shells) n = amplitudes N n_add k0 env core shells n.
    Proof. unfold amplitudes. rewrite layer_up, map_map. f_equal. apply map_ext. intros a. apply layer_up. Qed.
    Lemma vsh_up m th ph b n : @vsh_pena R ROps N n_add (k0 / s) m (s * pt_r P) th ph b n = vsh_pena N n_add k0 m (pt_r P) th ph b n.
    Proof. unfold vsh_pena. now rewrite rho_up. Qed.
    Lemma E_order_up li n : @E_order R ROps N n_add (k0 / s) env (larger core) (map larger shells) E0 (farther P) li n = E_order N n_add k0 env core shells E0 P li n.
    Proof. unfold E_order. rewrite length_up, amplitudes_up, medium_up. cbn [farther pt_r pt_theta pt_phi]. now rewrite !vsh_up. Qed.
    Lemma H_order_up li n : @H_order R ROps N n_add (k0 / s) env (larger core) (map larger shells) E0 (farther P) li n = H_order N n_add k0 env core shells E0 P li n.
    Proof. unfold H_order. rewrite length_up, amplitudes_up, medium_up. cbn [farther pt_r pt_theta pt_phi]. now rewrite !vsh_up. Qed.
    Lemma fold_ext {A B} (f g : A -> B -> A) l a : (forall x y, f x y = g x y) -> fold_left f l a = fold_left g l a.
    Proof. intros H. revert a. induction l as [|b l IH]; intros a; [reflexivity|]. cbn. rewrite H. apply IH. Qed.
    Lemma masked_up f g : (forall li, f li = g li) -> @masked R ROps (larger core) (map larger shells) (farther P) f = masked core shells P g.
    Proof.
      intros H. unfold masked. rewrite length_up, radii_up. apply fold_ext. intros x li. cbn [farther pt_r]. now rewrite region_up, H.
    Qed.
    Lemma E_s_up : @E_s R ROps N n_add (k0 / s) env (larger core) (map larger shells) E0 (farther P) = E_s N n_add k0 env core shells E0 P.
    Proof. unfold E_s, to_cartesian. f_equal. apply map_ext. intros n. cbn [farther pt_theta pt_phi]. f_equal. apply masked_up. intros li. apply E_order_up. Qed.
    Lemma H_s_up : @H_s R ROps N n_add (k0 / s) env (larger core) (map larger shells) E0 (farther P) = H_s N n_add k0 env core shells E0 P.
    Proof. unfold H_s, to_cartesian. f_equal. apply map_ext. intros n. cbn [farther pt_theta pt_phi]. f_equal. apply masked_up. intros li. apply H_order_up. Qed.
    Lemma phase_up : @ModelNear.phase R ROps (k0 / s) env (farther P) = ModelNear.phase k0 env P.
    Proof.
      unfold ModelNear.phase, k_env. cbn [farther pt_r pt_theta]. f_equal. f_equal.
      assert (A : forall a b c : C, @cmul R ROps (cmul a b) c = cmul a (cmul b c)) by (intros a b c; toC; match goal with |- @eq _ ?u ?v => change (@eq C u v) end; ring).
      rewrite (A _ _ (cofr (s * pt_r P))), (A _ _ (cofr (pt_r P))). f_equal. apply prod_up.
    Qed.
    Lemma outside_up : @ModelNear.outside R ROps (larger core) (map larger shells) (farther P) = ModelNear.outside core shells P.
    Proof. unfold ModelNear.outside. rewrite length_up, radii_up. cbn [farther pt_r]. apply region_up. Qed.
    Lemma fields_up :
      @E_i R ROps (k0 / s) env E0 (farther P) = @E_i R ROps k0 env E0 P /\ @H_i R ROps (k0 / s) env E0 (farther P) = @H_i R ROps k0 env E0 P /\
      @E_s R ROps N n_add (k0 / s) env (larger core) (map larger shells) E0 (farther P) = E_s N n_add k0 env core shells E0 P /\
      @H_s R ROps N n_add (k0 / s) env (larger core) (map larger shells) E0 (farther P) = H_s N n_add k0 env core shells E0 P /\
      @E_t R ROps N n_add (k0 / s) env (larger core) (map larger shells) E0 (farther P) = E_t N n_add k0 env core shells E0 P /\
      @H_t R ROps N n_add (k0 / s) env (larger core) (map larger shells) E0 (farther P) = H_t N n_add k0 env core shells E0 P.
    Proof.
      assert (Ei : @E_i R ROps (k0 / s) env E0 (farther P) = @E_i R ROps k0 env E0 P) by (unfold E_i; now rewrite phase_up).
      assert (Hi : @H_i R ROps (k0 / s) env E0 (farther P) = @H_i R ROps k0 env E0 P) by (unfold H_i; now rewrite phase_up).
      unfold E_t, H_t. rewrite Ei, Hi, E_s_up, H_s_up, outside_up. repeat split.
    Qed.
  End Fields.

  Lemma norm3_up x y z : @norm3 R ROps (s * x) (s * y) (s * z) = s * norm3 x y z.
  Proof.
    unfold norm3. change (sqrt (s * x * (s * x * 1) + s * y * (s * y * 1) + s * z * (s * z * 1)) = s * sqrt (x * (x * 1) + y * (y * 1) + z * (z * 1))).
    replace (s * x * (s * x * 1) + s * y * (s * y * 1) + s * z * (s * z * 1)) with (s * s * (x * (x * 1) + y * (y * 1) + z * (z * 1))) by ring.
    rewrite sqrt_mult by nra. now rewrite sqrt_square by lra.
  Qed.
  Lemma atan2_up y x : x <> 0 -> Ratan2 (s * y) (s * x) = Ratan2 y x.
  Proof.
    intros Hx. unfold Ratan2. replace (s * y / (s * x)) with (y / x) by (field; lra).
    destruct (Rlt_dec 0 (s * x)), (Rlt_dec 0 x); try (exfalso; nra); [reflexivity|].
    destruct (Rlt_dec (s * x) 0), (Rlt_dec x 0); try (exfalso; nra). destruct (Rle_dec 0 (s * y)), (Rle_dec 0 y); try reflexivity; exfalso; nra.
  Qed.
  Lemma xyz_up e10 x y z : x <> 0 -> at_xyz e10 (s * x) (s * y) (s * z) = farther (at_xyz e10 x y z).
  Proof.
    intros Hx. unfold at_xyz, farther, xyz_to_sph. cbn [fst snd pt_r pt_theta pt_phi]. rewrite norm3_up.
    assert (Hn : @norm3 R ROps x y z <> 0).
    { change (sqrt (x * (x * 1) + y * (y * 1) + z * (z * 1)) <> 0). apply Rgt_not_eq, sqrt_lt_R0. nra. }
    assert (F : forall t, t <> 0 -> @reqb R ROps t rzero = false). { intros t Ht. change (Reqb t 0 = false). destruct (Reqb t 0) eqn:E; [|reflexivity]. apply Reqb_true in E. contradiction. }
    assert (Z : forall t, t <> 0 -> s * t <> 0) by (intros t Ht; apply Rmult_integral_contrapositive; split; lra).
    rewrite !F by auto. cbn [rdiv radd rmul rzero racos ratan2 ROps]. f_equal.
    - f_equal. f_equal. field. split; lra.
    - rewrite !Rmult_0_l, !Rplus_0_r. now apply atan2_up.
  Qed.

  (** the probe tensor with every coordinate multiplied by s *)
  Lemma inputs_up' (c : @call R) r eps : inputs_of c = Ok (r, eps) -> inputs_of (up_call s c) = Ok (tmap (up s) r, eps).
  Proof. intros H. unfold inputs_of in *. cbn [a_r_layers a_eps_layers a_r_c a_eps_c a_r_s a_eps_s up_call]. rewrite (inputs_up s Hs), H. reflexivity. Qed.
  Lemma valid_up k0 r eps env K P L ef vf : valid k0 r eps env K P L ef vf -> valid (tmap (down s) k0) (tmap (up s) r) eps env K P L ef vf.
  Proof. intros [H1 H2 H3 H4 H5]. split; try assumption. intros p l Hp Hl. cbn [shp at_ tmap]. unfold up. apply Rmult_lt_compat_l; [exact Hs|]. now apply H3. Qed.
  Lemma element_up k0 r eps env ef vf L p k :
    let e := element k0 r eps env ef vf L p k in let e' := element (tmap (down s) k0) (tmap (up s) r) eps env ef vf L p k in
    fst (fst e') = fst (fst e) / s /\ snd (fst e') = snd (fst e) /\ core_of e' = larger (core_of e) /\ shells_of e' = map larger (shells_of e).
  Proof.
    unfold element, core_of, shells_of. cbn [fst snd shp at_ tmap]. rewrite entries_tmap.
    replace 0 with (down s 0) at 1 by (unfold down, Rdiv; ring). rewrite map_nth. repeat split; destruct L as [|L]; cbn [seq map hd tl]; try reflexivity.
    - unfold larger. cbn [fst snd]. now rewrite Rmult_0_r.
    - rewrite map_map. reflexivity.
  Qed.

  Section Call.
    Variables (sj sy jr : @bessel_t R) (e10 : R) (E0 : C) (probe : tensor R) (Q : nat) (c : @call R) (o : @output R) (r : tensor R) (eps : tensor C) (K P L : nat)
      (ef : nat -> nat -> nat -> list nat) (vf : nat -> list nat).
    Hypothesis Hm : mie_coefficients sj sy jr (without_internal c) = Ok o.
    Hypothesis Hb : backend_is c "pena".
    Hypothesis Hin : inputs_of c = Ok (r, eps).
    Hypothesis Hv : valid (a_k0 c) r eps (a_env c) K P L ef vf.
    Hypothesis Hn : (1 <= o_n_max o)%Z.
    Hypothesis HP : (1 <= P)%nat.
    Hypothesis Hp : shp probe = [Q; 3]%nat.
    Lemma call_up : exists f f', near_call_pena e10 sj sy jr E0 probe c = Ok f /\ near_call_pena e10 sj sy jr E0 (tmap (Rmult s) probe) (up_call s c) = Ok f' /\
      forall p k i, (p < P)%nat -> (k < K)%nat -> (i < Q)%nat -> at_ probe [i; 0%nat] <> 0 ->
        row (f_Ei f') p k i = row (f_Ei f) p k i /\ row (f_Hi f') p k i = row (f_Hi f) p k i /\
        row (f_Es f') p k i = row (f_Es f) p k i /\ row (f_Hs f') p k i = row (f_Hs f) p k i /\
        row (f_Et f') p k i = row (f_Et f) p k i /\ row (f_Ht f') p k i = row (f_Ht f) p k i.
    Proof.
      destruct (rows_of sj sy jr e10 E0 probe Q c o r eps K P L ef vf Hm Hb Hin Hv Hn HP Hp) as (f & Hf & H).
      assert (Hm' : mie_coefficients sj sy jr (without_internal (up_call s c)) = Ok (up_out s o)).
      { change (without_internal (up_call s c)) with (up_call s (without_internal c)). rewrite (mie_up s Hs), Hm. reflexivity. }
      destruct (rows_of sj sy jr e10 E0 (tmap (Rmult s) probe) Q (up_call s c) (up_out s o) (tmap (up s) r) eps K P L ef vf Hm' Hb (inputs_up' c r eps Hin) (valid_up _ _ _ _ _ _ _ _ _ Hv) Hn HP Hp) as (f' & Hf' & H').
      exists f, f'. split; [exact Hf|]. split; [exact Hf'|]. intros p k i Hpp Hk Hi Hx.
      specialize (H p k i Hpp Hk Hi). specialize (H' p k i Hpp Hk Hi). cbv zeta in H, H'. cbn [at_ tmap a_k0 a_env up_call up_out o_n_max] in H'.
      destruct (element_up (a_k0 c) r eps (a_env c) ef vf L p k) as (E1 & E2 & E3 & E4). cbv zeta in E1, E2, E3, E4. rewrite E1, E2, E3, E4, (xyz_up _ _ _ _ Hx) in H'.
      destruct H as (-> & -> & -> & -> & -> & ->). destruct H' as (-> & -> & -> & -> & -> & ->). apply fields_up.
    Qed.
  End Call.
End Scale.

Lemma axis_changes s e10 y z : 0 < s -> s <> 1 -> 0 < e10 -> y <> 0 -> pt_phi (at_xyz e10 (s * 0) (s * y) (s * z)) <> pt_phi (at_xyz e10 0 y z).
Proof.
  intros Hs H1 He Hy. unfold at_xyz, xyz_to_sph. cbn [fst snd pt_phi]. rewrite !safe_x by exact He. rewrite Rmult_0_r.
  assert (E : Reqb 0 0 = true) by now apply Reqb_true. rewrite E. cbn [ratan2 ROps]. unfold Ratan2. destruct (Rlt_dec 0 e10); [|lra].
  intros H. apply (f_equal tan) in H. rewrite !tan_atan in H. assert (H2 : s * y = y) by (replace y with (y / e10 * e10) at 2 by (field; lra); rewrite <- H; field; lra). apply H1.
  apply (Rmult_eq_reg_r y); [|exact Hy]. lra.
Qed.
