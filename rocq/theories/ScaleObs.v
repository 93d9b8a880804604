(** Cross sections scale with the square of the size; efficiencies and
    scattering amplitudes do not change. *)
From Coq Require Import Reals ZArith List Bool String Arith Lia Lra.
From Coquelicot Require Import Coquelicot.
From Verif Require Import Ops ROps Tensor TensorProofs ModelSpecial ModelMie ModelBatch ModelObs ScaleProofs.
Import ListNotations.
Open Scope nat_scope.
Open Scope list_scope.

Lemma csum_scale (a : R) l : @csum R ROps (map (cmul (cofr a)) l) = cmul (cofr a) (csum l).
Proof.
  unfold csum. rewrite <- fold_left_rev_right, <- (fold_left_rev_right _ l), <- map_rev.
  induction (rev l) as [|x m IH]; cbn [map fold_right].
  - toC. match goal with |- ?x = ?y => change (@eq C x y) end. ring.
  - rewrite IH. toC. match goal with |- ?x = ?y => change (@eq C x y) end. ring.
Qed.
Lemma tsum01_sc a t : tsum01 (sc a t) = sc a (tsum01 t).
Proof.
  apply tensor_ext; [reflexivity|]. intros ix. unfold tsum01, sc. cbn [tmap shp at_].
  rewrite <- csum_scale, map_map. f_equal. apply map_ext. intros i. rewrite <- csum_scale, map_map. reflexivity.
Qed.
Lemma cre_sc a (t : tensor (cplx R)) : tmap cre (sc a t) = tmap (Rmult a) (tmap (@cre R) t).
Proof.
  apply tensor_ext; [reflexivity|]. intros ix. cbn [tmap sc at_]. destruct (at_ t ix) as [x y].
  unfold cmul, cofr, cre. cbn. ring.
Qed.
Lemma tbin_sub_sc (a : R) (t u : tensor (cplx R)) : tbin (@csub R ROps) (sc a t) (sc a u) = rmap (sc a) (tbin (@csub R ROps) t u).
Proof.
  unfold tbin. cbn [shp sc tmap]. destruct (bcast_shape _ _); [|reflexivity]. cbn [rmap]. f_equal. apply tensor_ext; [reflexivity|].
  intros ix. cbn [at_ tmap sc]. toC. match goal with |- ?x = ?y => change (@eq C x y) end. ring.
Qed.
Lemma tbin_div_sc (a : R) (t u : tensor R) : a <> 0%R -> tbin (@rdiv R ROps) (tmap (Rmult a) t) (tmap (Rmult a) u) = tbin (@rdiv R ROps) t u.
Proof.
  intros Ha. unfold tbin. cbn [shp tmap]. destruct (bcast_shape _ _); [|reflexivity]. f_equal. apply tensor_ext; [reflexivity|].
  intros ix. cbn [at_ tmap rdiv ROps]. unfold Rdiv. rewrite Rinv_mult.
  match goal with |- (a * ?x * (/ a * ?y))%R = _ => transitivity (x * y * (a * / a))%R; [ring|rewrite Rinv_r by exact Ha; ring] end.
Qed.

Section Scale.
  Variable s : R.
  Hypothesis Hs : (0 < s)%R.
  Definition up_x (x : @xsections R) : @xsections R :=
    {| x_k0 := tmap (down s) (x_k0 x); x_n := x_n x; x_n_max := x_n_max x; x_geo := tmap (Rmult (s * s)%R) (x_geo x);
       x_cs_ext := tmap (Rmult (s * s)%R) (x_cs_ext x); x_cs_sca := tmap (Rmult (s * s)%R) (x_cs_sca x); x_cs_abs := tmap (Rmult (s * s)%R) (x_cs_abs x);
       x_q_ext := x_q_ext x; x_q_sca := x_q_sca x; x_q_abs := x_q_abs x;
       x_cs_ext_mp := tmap (Rmult (s * s)%R) (x_cs_ext_mp x); x_cs_sca_mp := tmap (Rmult (s * s)%R) (x_cs_sca_mp x);
       x_cs_abs_mp := tmap (Rmult (s * s)%R) (x_cs_abs_mp x);
       x_q_ext_mp := x_q_ext_mp x; x_q_sca_mp := x_q_sca_mp x; x_q_abs_mp := x_q_abs_mp x |}.
  Lemma cdiv_sqr_scale (x z : cplx R) : cdiv x (csqr (cmul (cofr (/ s)) z)) = cmul (cofr (s * s)%R) (cdiv x (csqr z)).
  Proof.
    assert (Hs0 : s <> 0%R) by lra.
    unfold csqr. toC. match goal with |- ?x = ?y => change (@eq C x y) end.
    destruct (Ceq_dec z (RtoC 0)) as [->|Hz].
    - replace (RtoC (/ s) * RtoC 0 * (RtoC (/ s) * RtoC 0))%C with (RtoC 0) by ring. replace (RtoC 0 * RtoC 0)%C with (RtoC 0) by ring.
      unfold Cdiv. replace (/ RtoC 0)%C with (RtoC 0); [ring|].
      apply injective_projections; unfold Cinv; cbn; unfold Rdiv; ring.
    - rewrite RtoC_inv by exact Hs0. rewrite RtoC_mult. field. split; [exact Hz|]. intros E. apply Hs0. now injection E.
  Qed.
  Lemma squeeze_tmap {A B} (f : A -> B) t : squeeze (tmap f t) = tmap f (squeeze t). Proof. reflexivity. Qed.
  Theorem cross_sections_up o : cross_sections (up_out s o) = rmap up_x (cross_sections o).
  Proof.
    assert (Hss : (s * s)%R <> 0%R) by nra.
    unfold cross_sections, up_out, up_cfg. cbn [o_n_max o_k o_cfg c_k0 o_r_s o_a o_b].
    set (nn := unsqueeze_last (unsqueeze_last (arange1 _))).
    replace (tmap (fun k => cdiv (cofr (rmul rtwo rpi)) (csqr k)) (unsqueeze 0 (sc (/ s) (o_k o))))
      with (sc (s * s)%R (tmap (fun k => cdiv (cofr (rmul rtwo rpi)) (csqr k)) (unsqueeze 0 (o_k o)))).
    2:{ apply tensor_ext; [reflexivity|]. intros ix. cbn [tmap at_ sc unsqueeze]. now rewrite cdiv_sqr_scale. }
    replace (tmap (fun r => rmul rpi (rsqr r)) (unsqueeze 0 (tmap (up s) (o_r_s o))))
      with (tmap (Rmult (s * s)%R) (tmap (fun r => @rmul R ROps rpi (rsqr r)) (unsqueeze 0 (o_r_s o)))).
    2:{ apply tensor_ext; [reflexivity|]. intros ix. cbn [tmap at_ unsqueeze]. unfold rsqr, up. cbn [rmul ROps]. ring. }
    set (geo := tmap (fun r => rmul rpi (rsqr r)) (unsqueeze 0 (o_r_s o))).
    change (select 0 0 (tmap (Rmult (s * s)%R) geo)) with (tmap (Rmult (s * s)%R) (select 0 0 geo)).
    rewrite tbin_scl. destruct (tbin cmul _ _) as [pn|]; [|reflexivity]. cbn [rmap bind].
    destruct (stack 0 _) as [re|]; [|reflexivity]. cbn [bind].
    rewrite tbin_scl. destruct (tbin cmul pn re) as [ext|]; [|reflexivity]. cbn [rmap bind].
    destruct (stack 0 _) as [ab|]; [|reflexivity]. cbn [bind].
    rewrite tbin_scl. destruct (tbin cmul pn ab) as [sca|]; [|reflexivity]. cbn [rmap bind].
    rewrite tbin_sub_sc. destruct (tbin csub ext sca) as [abs|]; [|reflexivity]. cbn [rmap bind].
    rewrite !tsum01_sc, !cre_sc, !(tbin_div_sc (s * s)%R) by exact Hss.
    repeat (match goal with |- context [bind (tbin rdiv ?x ?y)] => destruct (tbin rdiv x y) end; [|reflexivity]; cbn [bind]).
    reflexivity.
  Qed.
  Lemma angular_up theta o : angular_scattering theta (up_out s o) = angular_scattering theta o.
  Proof. reflexivity. Qed.
End Scale.
