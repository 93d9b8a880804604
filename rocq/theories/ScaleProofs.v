(** Scale invariance of the whole pipeline (C15). *)
From Coq Require Import Reals ZArith List Bool String Arith Lia Lra FunctionalExtensionality.
From Coquelicot Require Import Coquelicot.
From Verif Require Import Ops ROps Tensor TensorProofs ModelSpecial ModelMie ModelBatch BroadcastSpec BroadcastProofs BatchProofs BatchReal.
Import ListNotations.
Open Scope nat_scope.
Open Scope list_scope.

Definition rmap {A B} (f : A -> B) (x : result A) : result B := match x with Ok a => Ok (f a) | Err e => Err e end.
Lemma tensor_ext {A} (t u : tensor A) : shp t = shp u -> (forall ix, at_ t ix = at_ u ix) -> t = u.
Proof. destruct t as [s f], u as [s' f']. cbn. intros -> H. f_equal. now apply functional_extensionality. Qed.

Section Maps.
  Context {A B : Type} (f : A -> B).
  Lemma atleast_tmap t : atleast_1d (tmap f t) = tmap f (atleast_1d t).
  Proof. unfold atleast_1d. cbn [shp tmap]. destruct (shp t) eqn:E; [reflexivity|]. reflexivity. Qed.
  Lemma stack_tmap i t u : stack i [tmap f t; tmap f u] = rmap (tmap f) (stack i [t; u]).
  Proof.
    unfold stack. cbn [forallb shp tmap]. destruct (_ && _); [|reflexivity]. cbn [rmap]. f_equal. apply tensor_ext; [reflexivity|].
    intros ix. cbn [at_ tmap List.length shp]. destruct (nth i ix 0) as [|[|[|n]]]; reflexivity.
  Qed.
  Lemma broadcast_to_tmap s t : broadcast_to s (tmap f t) = rmap (tmap f) (broadcast_to s t).
  Proof. unfold broadcast_to. cbn [shp tmap]. destruct (bcast_shape _ _); [|reflexivity]. destruct (shape_eqb _ _); reflexivity. Qed.
End Maps.

Section CMul.
  Notation C' := (cplx R).
  Definition sc (a : R) : tensor C' -> tensor C' := tmap (@cmul R ROps (@cofr R ROps a)).
  Lemma tbin_scl (a : R) (t u : tensor C') : tbin (@cmul R ROps) (sc a t) u = rmap (sc a) (tbin (@cmul R ROps) t u).
  Proof.
    unfold tbin. cbn [shp sc tmap]. destruct (bcast_shape _ _); [|reflexivity]. cbn [rmap]. f_equal. apply tensor_ext; [reflexivity|].
    intros ix. cbn [at_ tmap sc]. toC. match goal with |- ?x = ?y => change (@eq C x y) end. ring.
  Qed.
  Lemma tbin_scr (a : R) (t u : tensor C') : tbin (@cmul R ROps) t (sc a u) = rmap (sc a) (tbin (@cmul R ROps) t u).
  Proof.
    unfold tbin. cbn [shp sc tmap]. destruct (bcast_shape _ _); [|reflexivity]. cbn [rmap]. f_equal. apply tensor_ext; [reflexivity|].
    intros ix. cbn [at_ tmap sc]. toC. match goal with |- ?x = ?y => change (@eq C x y) end. ring.
  Qed.
  Lemma sc_inv (s : R) t : s <> 0%R -> sc s (sc (/ s) t) = t.
  Proof.
    intros Hs. apply tensor_ext; [reflexivity|]. intros ix. cbn [at_ tmap sc]. toC. match goal with |- ?x = ?y => change (@eq C x y) end.
    rewrite Cmult_assoc, <- RtoC_mult, Rinv_r by exact Hs. ring.
  Qed.
  (* (k/s n) (s r) = k n r *)
  Lemma bind_prod (s : R) (t u : tensor C') : s <> 0%R -> tbin (@cmul R ROps) (sc (/ s) t) (sc s u) = tbin (@cmul R ROps) t u.
  Proof.
    intros Hs. rewrite tbin_scr, tbin_scl. destruct (tbin _ t u); [|reflexivity]. cbn [rmap]. now rewrite sc_inv.
  Qed.
End CMul.

Section Scale.
  Variable s : R.
  Hypothesis Hs : (0 < s)%R.
  Definition up : R -> R := Rmult s.
  Definition down : R -> R := fun x => (x / s)%R.

  Lemma cofr_up t : tmap (@cofr R ROps) (tmap up t) = sc s (tmap (@cofr R ROps) t).
  Proof.
    apply tensor_ext; [reflexivity|]. intros ix. cbn [at_ tmap sc]. toC. unfold up. now rewrite RtoC_mult.
  Qed.
  Lemma cofr_down t : tmap (@cofr R ROps) (tmap down t) = sc (/ s) (tmap (@cofr R ROps) t).
  Proof.
    apply tensor_ext; [reflexivity|]. intros ix. cbn [at_ tmap sc]. toC. unfold down, Rdiv. rewrite Rmult_comm. now rewrite RtoC_mult.
  Qed.
  Lemma Hs0 : s <> 0%R. Proof. lra. Qed.
  Lemma reqb_up x y : reqb (up x) (up y) = reqb x y.
  Proof.
    apply eq_true_iff_eq. rewrite !reqb_eq. unfold up. split; [|intros ->; reflexivity]. intros E. apply (Rmult_eq_reg_l s); [exact E|lra].
  Qed.
  Lemma rltb_up x y : rltb (up x) (up y) = rltb x y.
  Proof.
    apply eq_true_iff_eq. rewrite !rltb_lt. unfold up. split; intros H; [apply (Rmult_lt_reg_l s); assumption|apply Rmult_lt_compat_l; assumption].
  Qed.
  Lemma tequal_up t u : tequal reqb (tmap up t) (tmap up u) = tequal reqb t u.
  Proof.
    unfold tequal. cbn [shp tmap]. do 2 f_equal. apply functional_extensionality. intros ix. cbn [at_ tmap]. apply reqb_up.
  Qed.

  Lemma inputs_up rc rs (ec es : option (tensor (cplx R))) rl el :
    as_layer_inputs (option_map (tmap up) rc) (option_map (tmap up) rs) ec es (option_map (tmap up) rl) el =
    rmap (fun re => (tmap up (fst re), snd re)) (as_layer_inputs rc rs ec es rl el).
  Proof.
    unfold as_layer_inputs. destruct rl as [rl|], el as [el|]; cbn [option_map]; try reflexivity.
    destruct rc as [rc|]; cbn [option_map]; [|reflexivity]. destruct ec as [ec|]; [|reflexivity].
    set (rs0 := match rs with Some r => r | None => rc end).
    replace (match option_map (tmap up) rs with Some r => r | None => tmap up rc end) with (tmap up rs0) by (unfold rs0; destruct rs; reflexivity).
    rewrite !atleast_tmap. cbn [shp tmap]. destruct (negb _); [reflexivity|].
    rewrite tequal_up. unfold numel. cbn [shp tmap].
    destruct (tequal reqb (atleast_1d rc) (atleast_1d rs0)).
    - cbn [rmap fst snd]. reflexivity.
    - unfold ndim at 1. cbn [shp tmap]. fold (ndim (atleast_1d rc)). rewrite stack_tmap.
      destruct (stack (ndim (atleast_1d rc)) _); [|reflexivity]. cbn [rmap bind].
      match goal with |- bind ?X _ = _ => destruct X; reflexivity end.
  Qed.

  Definition up_cfg (b : @config R) : config :=
    {| c_k0 := tmap down (c_k0 b); c_r := tmap up (c_r b); c_eps := c_eps b; c_env := c_env b; c_n_env := c_n_env b |}.
  Lemma increasing_up r P L : increasing (tmap up r) P L = increasing r P L.
  Proof.
    unfold increasing. f_equal. f_equal. apply functional_extensionality. intros ix. cbn [at_ tmap]. apply rltb_up.
  Qed.
  Lemma r2_up r : r2 (tmap up r) = tmap up (r2 r).
  Proof. unfold r2. rewrite atleast_tmap. cbn [shp tmap]. destruct (shp (atleast_1d r)) as [|? [|? ?]]; reflexivity. Qed.
  Lemma broadcast_up k0 r eps env :
    broadcast_mie_layers (tmap down k0) (tmap up r) eps env = rmap up_cfg (broadcast_mie_layers k0 r eps env).
  Proof.
    rewrite !broadcast_unfold. cbv zeta. rewrite r2_up.
    change (squeeze (tmap down k0)) with (tmap down (squeeze k0)). rewrite atleast_tmap.
    change (shp (tmap down (atleast_1d (squeeze k0)))) with (shp (atleast_1d (squeeze k0))).
    destruct (shp (atleast_1d (squeeze k0))) as [|K [|? ?]]; try reflexivity.
    change (shp (tmap up (r2 r))) with (shp (r2 r)).
    destruct (shp (r2 r)) as [|P [|L [|? ?]]]; try reflexivity. rewrite increasing_up.
    destruct (_ && _); [reflexivity|]. destruct (broadcast_eps P L K eps); [|reflexivity]. cbn [bind].
    destruct (env_step K env); reflexivity.
  Qed.

  Lemma pena2009_up k0 r eps env : @pena2009 R ROps (tmap down k0) (tmap up r) eps env = pena2009 k0 r eps env.
  Proof.
    unfold pena2009. change (ndim (tmap up r)) with (ndim r).
    destruct (guard_err _ _); [|reflexivity]. cbn [bind]. destruct (guard_err _ _); [|reflexivity]. cbn [bind].
    rewrite cofr_down, cofr_up.
    change (unsqueeze 1 (sc (/ s) (tmap cofr k0))) with (sc (/ s) (unsqueeze 1 (tmap (@cofr R ROps) k0))).
    change (unsqueeze_last (sc s (tmap cofr r))) with (sc s (unsqueeze_last (tmap (@cofr R ROps) r))).
    rewrite tbin_scl. destruct (tbin cmul (unsqueeze 1 (tmap cofr k0)) (unsqueeze 1 (tmap csqrt env))) as [kn|]; [|reflexivity]. cbn [rmap bind].
    rewrite (bind_prod s) by exact Hs0. destruct (tbin cmul kn _) as [x|]; [|reflexivity]. cbn [bind].
    destruct (tmax _) as [xo|]; [|reflexivity]. cbn [bind].
    rewrite tbin_scl. destruct (tbin cmul (unsqueeze 1 (tmap cofr k0)) (tmap csqrt eps)) as [kl|]; [|reflexivity]. cbn [rmap bind].
    rewrite (bind_prod s) by exact Hs0. destruct (tbin cmul kl _) as [mx|]; [|reflexivity]. cbn [bind].
    set (rp' := mkT (A := R) (shp (tmap up r)) _). set (rp := mkT (A := R) (shp r) _).
    assert (Erp : rp' = tmap up rp).
    { apply tensor_ext; [reflexivity|]. intros ix. unfold rp', rp. cbn [at_ tmap]. destruct (nth 1 ix 0); [|reflexivity].
      unfold up. cbn [rzero ROps]. now rewrite Rmult_0_r. }
    rewrite Erp, cofr_up.
    change (unsqueeze_last (sc s (tmap cofr rp))) with (sc s (unsqueeze_last (tmap (@cofr R ROps) rp))).
    rewrite (bind_prod s) by exact Hs0. reflexivity.
  Qed.

  Lemma miecoef_pena_up k r eps n_env n i : @miecoef_pena_t R ROps (sc (/ s) k) (tmap up r) eps n_env n i = miecoef_pena_t k r eps n_env n i.
  Proof.
    unfold miecoef_pena_t. destruct i; [reflexivity|]. destruct (n <? 1)%Z; [reflexivity|]. rewrite cofr_up.
    change (unsqueeze 1 (sc (/ s) k)) with (sc (/ s) (unsqueeze 1 k)).
    change (unsqueeze_last (sc s (tmap cofr r))) with (sc s (unsqueeze_last (tmap (@cofr R ROps) r))).
    rewrite (bind_prod s) by exact Hs0. reflexivity.
  Qed.

  Definition up_call (c : @call R) : @call R :=
    {| a_k0 := tmap down (a_k0 c); a_r_layers := option_map (tmap up) (a_r_layers c); a_eps_layers := a_eps_layers c;
       a_r_c := option_map (tmap up) (a_r_c c); a_eps_c := a_eps_c c;
       a_r_s := option_map (tmap up) (a_r_s c); a_eps_s := a_eps_s c;
       a_env := a_env c; a_internal := a_internal c; a_backend := a_backend c; a_which_jn := a_which_jn c; a_n_max := a_n_max c |}.
  Definition up_out (o : @output R) : @output R :=
    {| o_cfg := up_cfg (o_cfg o); o_n_max := o_n_max o; o_k := sc (/ s) (o_k o);
       o_r_c := tmap up (o_r_c o); o_r_s := tmap up (o_r_s o); o_eps_c := o_eps_c o; o_eps_s := o_eps_s o;
       o_a := o_a o; o_b := o_b o; o_internal := o_internal o |}.

  Lemma rk_up ro k0 : tbin rmul (tmap up ro) (tmap down k0) = @tbin R R R (@rmul R ROps) ro k0.
  Proof.
    unfold tbin. cbn [shp tmap]. destruct (bcast_shape _ _); [|reflexivity]. f_equal. apply tensor_ext; [reflexivity|].
    intros ix. cbn [at_ tmap]. unfold up, down. cbn [rmul ROps]. field. exact Hs0.
  Qed.

  Theorem mie_up sj sy jr c : mie_coefficients sj sy jr (up_call c) = rmap up_out (mie_coefficients sj sy jr c).
  Proof.
    unfold mie_coefficients. cbn [a_k0 a_r_layers a_eps_layers a_r_c a_eps_c a_r_s a_eps_s a_env a_internal a_backend a_which_jn a_n_max up_call].
    destruct (negb _); [reflexivity|]. rewrite inputs_up.
    destruct (as_layer_inputs _ _ _ _ _ _) as [[r eps]|]; [|reflexivity]. cbn [rmap bind fst snd].
    rewrite broadcast_up. destruct (broadcast_mie_layers _ _ _ _) as [b|]; [|reflexivity]. cbn [rmap bind].
    cbn [up_cfg c_k0 c_r c_eps c_env c_n_env].
    change (dim_size 0 (tmap up (c_r b))) with (dim_size 0 (c_r b)). change (dim_size 1 (tmap up (c_r b))) with (dim_size 1 (c_r b)).
    change (dim_size 1 (tmap down (c_k0 b))) with (dim_size 1 (c_k0 b)).
    set (P := dim_size 0 (c_r b)). set (L := dim_size 1 (c_r b)). set (K := dim_size 1 (c_k0 b)).
    destruct (guard_err _ _); [|reflexivity]. cbn [bind].
    change (unsqueeze_last (select 1 0 (tmap up (c_r b)))) with (tmap up (unsqueeze_last (select 1 0 (c_r b)))).
    change (unsqueeze_last (select 1 (L - 1) (tmap up (c_r b)))) with (tmap up (unsqueeze_last (select 1 (L - 1) (c_r b)))).
    rewrite !broadcast_to_tmap. destruct (broadcast_to [P; K] (unsqueeze_last (select 1 0 (c_r b)))) as [rc|]; [|reflexivity]. cbn [rmap bind].
    replace (if 1 <? L then rmap (tmap up) (broadcast_to [P; K] (unsqueeze_last (select 1 (L - 1) (c_r b)))) else Ok (tmap up rc))
      with (rmap (tmap up) (if 1 <? L then broadcast_to [P; K] (unsqueeze_last (select 1 (L - 1) (c_r b))) else Ok rc)) by (destruct (1 <? L); reflexivity).
    destruct (if 1 <? L then _ else Ok rc) as [rs|]; [|reflexivity]. cbn [rmap bind].
    rewrite pena2009_up.
    match goal with |- bind ?X _ = rmap _ (bind ?Y _) => assert (EXY : X = Y) end.
    { destruct (a_n_max c); [reflexivity|]. destruct (String.eqb _ _); [reflexivity|].
      destruct (broadcast_to [P; K] (unsqueeze_last (select 1 (L - 1) (c_r b)))) as [ro|]; [|reflexivity]. cbn [rmap bind]. now rewrite rk_up. }
    rewrite EXY. match goal with |- bind ?X _ = _ => destruct X as [n|] end; [|reflexivity]. cbn [bind].
    destruct (n <? 0)%Z; [reflexivity|].
    rewrite cofr_down, tbin_scl. destruct (tbin cmul (tmap cofr (c_k0 b)) (c_n_env b)) as [k|]; [|reflexivity]. cbn [rmap bind].
    rewrite miecoef_pena_up, !cofr_up. rewrite !(bind_prod s) by exact Hs0.
    match goal with |- bind ?X _ = _ => destruct X as [[[aa bb] ii]|] end; reflexivity.
  Qed.
End Scale.
