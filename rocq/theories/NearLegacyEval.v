(** The near fields of the torch and scipy backends for one particle: values
    for one wavelength, and the incident magnetic field for three. *)
From Coq Require Import Reals ZArith List Bool String Arith Lia Lra.
From Coquelicot Require Import Coquelicot.
From Verif Require Import Ops ROps Tensor TensorProofs TensorView ModelSpecial ModelMie CLemmas ModelBatch ModelObs ModelJn JnProofs ModelNear ModelNearLegacy NearLegacySpec NearLegacyProofs.
Import ListNotations.
Open Scope nat_scope.
Open Scope list_scope.

Lemma mask_put_ok {A} full (idx : tensor bool) (src dst : tensor A) B S D : rp full idx full B -> rp full src full S -> rp full dst full D ->
  exists t, mask_put idx src dst = Ok t /\ rp full t full (fun ix => if B ix then S ix else D ix).
Proof.
  intros [Si Ri] [Ss Rs] [Sd Rd]. unfold mask_put. rewrite Si, Ss, Sd, shape_eqb_refl. cbn [andb]. eexists. split; [reflexivity|]. split; [reflexivity|].
  split; [exact (eq_ind _ (fun s => fits s full) (proj1 Rd) _ Sd)|]. intros ix Hix. cbn [shp at_].
  assert (E : bcast_ix full ix = ix) by (unfold bcast_ix; rewrite (in_bounds_length _ _ Hix), Nat.sub_diag; cbn [skipn]; now apply clip_id).
  rewrite E. now rewrite (rep_full_at full idx B Ri Si ix Hix), (rep_full_at full src S Rs Ss ix Hix), (rep_full_at full dst D Rd Sd ix Hix).
Qed.
Lemma broadcast_rp {A} full (t : tensor A) s F : rp full t s F -> exists v, broadcast_to full t = Ok v /\ rp full v full F.
Proof. intros [_ R0]. destruct (broadcast_rep full t F R0) as (v & E & S & Rv & _). exists v. split; [exact E|]. split; assumption. Qed.
Lemma fits_refl s : fits s s.
Proof. unfold fits. generalize (rev s). induction l; cbn; auto. Qed.
Lemma rp_const {A} full (a : A) : rp full (mkT full (fun _ => a)) full (fun _ => a).
Proof. split; [reflexivity|]. split; [apply fits_refl|reflexivity]. Qed.
Lemma assign4 K Q : K = 1 \/ K = 3 -> assignable [1; K; Q] [1; 1; K; Q] = true.
Proof.
  intros [-> | ->]; unfold assignable.
  - destruct Q as [|[|Q]]; [reflexivity|reflexivity|]. change (drop_ones [1; 1; 1; S (S Q)]) with [S (S Q)]. generalize (S (S Q)). intros q.
    unfold bcast_shape. cbn [rev app bcast_rev]. rewrite bd_same. cbn [option_map rev app]. apply shape_eqb_refl.
  - change (drop_ones [1; 1; 3; Q]) with [3; Q]. unfold bcast_shape. cbn [rev app bcast_rev]. rewrite !bd_same. cbn [option_map rev app]. apply shape_eqb_refl.
Qed.
Lemma assign4_ix K Q p k i : K = 1 \/ K = 3 -> p < 1 -> k < K -> i < Q ->
  repeat 0 (4 - List.length (drop_ones [1; 1; K; Q])) ++ bcast_ix (drop_ones [1; 1; K; Q]) [p; k; i] = [0; 0; k; i].
Proof.
  intros HK Hp Hk Hi. destruct HK as [-> | ->].
  - assert (k = 0) as -> by lia. destruct Q as [|[|Q]]; [lia|assert (i = 0) as -> by lia; reflexivity|]. change (drop_ones [1; 1; 1; S (S Q)]) with [S (S Q)].
    unfold bcast_ix. cbn [List.length Nat.sub repeat app skipn]. cbn [clip]. revert Hi. generalize (S (S Q)). intros q Hi. now rewrite cl.
  - change (drop_ones [1; 1; 3; Q]) with [3; Q]. unfold bcast_ix. cbn [List.length Nat.sub repeat app skipn]. cbn [clip]. rewrite (cl Q) by exact Hi. reflexivity.
Qed.
Lemma ix4 P K Q D ix : in_bounds [P; K; Q; D] ix -> exists p k i c, ix = [p; k; i; c] /\ p < P /\ k < K /\ i < Q /\ c < D.
Proof. destruct ix as [|p [|k [|i [|c [|? ?]]]]]; cbn; try tauto. intros H. exists p, k, i, c. tauto. Qed.

Lemma put_last_ok K Q c (src : tensor (cplx R)) : K = 1 \/ K = 3 -> shp src = [1; 1; K; Q] ->
  exists t, put_last [1; K; Q] c src = Ok t /\ rp [1; K; Q; 3] t [1; K; Q; 3] (fun ix => if ax 3 ix =? c then at_ src [0; 0; ax 1 ix; ax 2 ix] else czero).
Proof.
  intros HK S. unfold put_last. rewrite S, (assign4 K Q HK). eexists. split; [reflexivity|]. split; [reflexivity|]. split; [apply fits_refl|].
  intros ix Hix. destruct (ix4 _ _ _ _ _ Hix) as (p & k & i & c' & -> & Hp & Hk & Hi & Hc). cbn [shp at_ app].
  assert (E : bcast_ix [1; K; Q; 3] [p; k; i; c'] = [p; k; i; c']) by (unfold bcast_ix; cbn [List.length Nat.sub skipn]; now apply clip_id).
  rewrite E. cbn [last removelast ax nth]. unfold ndim. rewrite S. cbn [List.length]. now rewrite assign4_ix by assumption.
Qed.
Lemma select4_ok N K Q d (t : tensor (cplx R)) F : 1 <= N -> d = 1 \/ d = K -> K = 1 \/ K = 3 -> rp [N; 1; K; Q; 3] t [1; 1; K; Q; d] F ->
  shp (select (ndim t - 1) 0 t) = [1; 1; K; Q] /\ forall k i, k < K -> i < Q -> at_ (select (ndim t - 1) 0 t) [0; 0; k; i] = F [0; 0; k; i; 0].
Proof.
  intros HN Hd HK [S [_ V]]. unfold ndim, select. rewrite S. cbn [List.length Nat.sub shp at_ remove_at]. split; [reflexivity|]. intros k i Hk Hi. cbn [insert_at].
  assert (Hb : in_bounds [N; 1; K; Q; 3] [0; 0; k; i; 0]) by (cbn; lia). specialize (V _ Hb). rewrite S, bix5 in V. rewrite (cl K), (cl Q) in V by lia. cbn [Nat.eqb] in V.
  rewrite <- V. destruct (d =? 1); reflexivity.
Qed.

Section Fields.
  Variables (N K Q : nat) (jn yn : @bessel_t R) (J : nat -> cplx R -> nat -> cplx R) (Y : cplx R -> nat -> cplx R).
  Hypotheses (HN : 1 <= N) (HK : K = 1 \/ K = 3) (Hj : bessel_ok N jn J) (Hy : bessel_ok N yn (fun _ => Y)).
  Variables (e10 : R) (E0 : cplx R) (probe : tensor R) (o : @output R) (co : tensor (@coeffs R)).
  Hypotheses (Hint : o_internal o = Some co) (Hn : o_n_max o = Z.of_nat N) (Sco : shp co = [N; 1; K]) (Spr : shp probe = [Q; 3]).
  Hypotheses (Sk : shp (o_k o) = [1; K]) (Sk0 : shp (c_k0 (o_cfg o)) = [1; K]) (Sne : shp (c_n_env (o_cfg o)) = [1; K])
    (Src : shp (o_r_c o) = [1; K]) (Srs : shp (o_r_s o) = [1; K]) (Sec : shp (o_eps_c o) = [1; K]) (Ses : shp (o_eps_s o) = [1; K]).
  Notation full := [N; 1; K; Q; 3].
  Notation rp' := (rp [N; 1; K; Q; 3]).
  Notation rr' := (rr [N; 1; K; Q; 3]).
  Definition R_ i : R := fst (fst (at_ (spherical e10 probe) [i])).
  Definition T_ i : R := snd (fst (at_ (spherical e10 probe) [i])).
  Definition P_ i : R := snd (at_ (spherical e10 probe) [i]).
  Definition rc_ k : R := at_ (o_r_c o) [0; k].
  Definition rs_ k : R := at_ (o_r_s o) [0; k].
  Definition k0_ k : R := at_ (c_k0 (o_cfg o)) [0; k].
  Definition nc_ k : cplx R := @csqrt R ROps (at_ (o_eps_c o) [0; k]).
  Definition ns_ k : cplx R := @csqrt R ROps (at_ (o_eps_s o) [0; k]).
  Definition ne_ k : cplx R := at_ (c_n_env (o_cfg o)) [0; k].
  Hypothesis Hk : forall k, k < K -> at_ (o_k o) [0; k] = cmul (cofr (k0_ k)) (ne_ k).
  (* away from zero arguments *)
  Hypothesis Hbig : forall k k' i, k < K -> k' < K -> i < Q ->
    (/ 100000000 <= Cmod (rho_at (k0_ k) (nc_ k') (R_ i)))%R /\ (/ 100000000 <= Cmod (rho_at (k0_ k) (ns_ k') (R_ i)))%R /\ (/ 100000000 <= Cmod (rho_at (k0_ k) (ne_ k') (R_ i)))%R.
  Hypothesis Hrad : forall k, k < K -> (rc_ k <= rs_ k)%R.
  (* the optical data of wavelength k *)
  Definition optics_of k : optics := {| w_k0 := k0_ k; w_core := nc_ k; w_shell := ns_ k; w_env := ne_ k; w_rc := rc_ k; w_rs := rs_ k |}.
  Definition co_of k (n : nat) : @coeffs R := at_ co [pred n; 0; k].
  Definition result_of (f : @fields R) (E H : nat -> nat -> V3) : Prop :=
    shp (f_Es f) = [1; K; Q; 3] /\ shp (f_Hs f) = [1; K; Q; 3] /\ shp (f_Et f) = [1; K; Q; 3] /\ shp (f_Ht f) = [1; K; Q; 3] /\
    shp (f_Ei f) = [1; K; Q; 3] /\ shp (f_Hi f) = [1; K; Q; 3] /\
    forall i c, i < Q -> c < 3 ->
      at_ (f_Es f) [0; 0; i; c] = total (T_ i) (P_ i) (E i) N c /\ at_ (f_Hs f) [0; 0; i; c] = total (T_ i) (P_ i) (H i) N c /\
      ((w_rs (optics_of 0) < R_ i)%R ->
        at_ (f_Et f) [0; 0; i; c] = cadd (total (T_ i) (P_ i) (E i) N c) (comp c (E_inc (optics_of 0) (R_ i) (T_ i) E0)) /\
        at_ (f_Ht f) [0; 0; i; c] = cadd (total (T_ i) (P_ i) (H i) N c) (comp c (H_inc (optics_of 0) (R_ i) (T_ i) E0))) /\
      ((R_ i <= w_rs (optics_of 0))%R -> at_ (f_Et f) [0; 0; i; c] = total (T_ i) (P_ i) (E i) N c /\ at_ (f_Ht f) [0; 0; i; c] = total (T_ i) (P_ i) (H i) N c).

  (* what each entry sees: the media of wavelength [col c], the wavelength and environment of k *)
  Definition W (ix : list nat) : optics := {| w_k0 := k0_ (ax 2 ix); w_core := nc_ (col K (ax 4 ix)); w_shell := ns_ (col K (ax 4 ix)); w_env := ne_ (ax 2 ix);
    w_rc := rc_ (col K (ax 4 ix)); w_rs := rs_ (col K (ax 4 ix)) |}.
  Definition at_ix (f : optics -> R -> R -> R -> cplx R -> (nat -> @coeffs R) -> nat -> V3) (ix : list nat) : cplx R :=
    comp (ax 4 ix) (f (W ix) (R_ (ax 3 ix)) (T_ (ax 3 ix)) (P_ (ax 3 ix)) E0 (co_of (ax 2 ix)) (S (ax 0 ix))).
  (* the magnetic field outside is multiplied by the index of wavelength [col c] *)
  Definition H_out_p (p : cplx R) (w : optics) (r theta phi : R) (E0 : cplx R) (co : nat -> @coeffs R) (jo : cplx R -> nat -> cplx R) (n : nat) : V3 :=
    let V := vsh_s K3 jo Y (rho_at (w_k0 w) (w_env w) r) theta phi n in
    vscale (cmul (pw_factor n E0) p) (vadd (vscale (cmul ci (bn (co n))) (N_o V)) (vscale (an (co n)) (M_e V))).
  Lemma col_lt c : c < 3 -> col K c < K.
  Proof. intros Hc. unfold col. destruct HK as [-> | ->]; cbn; lia. Qed.
  Lemma sph_shape : shp (spherical e10 probe) = [Q].
  Proof. unfold spherical, dim_size. cbn [shp]. now rewrite Spr. Qed.

  Lemma HK3 : bcast_dim K 3 = Some 3.
  Proof. clear - HK. destruct HK as [-> | ->]; reflexivity. Qed.
  Ltac bs3 := unfold bcast_shape; cbn [rev app bcast_rev]; rewrite ?bd_1l, ?bd_1r, ?bd_same, ?HK3; cbn [rev app option_map]; reflexivity.
  Ltac ev := match goal with
    | |- rr _ (lift2 _ _ _) _ _ => eapply lift2_rr; [ev|ev|bs3]
    | |- rr _ (tbin _ _ _) _ _ => eapply tbin_rr; [eassumption|eassumption|bs3]
    | |- rr _ (Ok _) _ _ => apply rr_ok; eassumption
    end.
  Ltac step nm Hnm := match goal with |- context [bind ?x _] =>
    let X := fresh in assert (X : exists s F, rr' x s F) by (eexists; eexists; ev); destruct X as (? & ? & nm & ? & Hnm) end.

  Lemma legacy_eval : exists f, nearfields_legacy e10 jn yn E0 probe o = Ok f /\
    (forall k i, k < K -> i < Q -> at_ (f_Hi f) [0; k; i; 1] = cmul (cmul E0 (ne_ 0)) (phase (optics_of k) (R_ i) (T_ i))) /\
    (K = 1 -> exists dc ds do,
      result_of f (fun i n => E_sph (optics_of 0) (R_ i) (T_ i) (P_ i) E0 (co_of 0) (J dc) (J ds) (J do) Y n)
                  (fun i n => H_sph (optics_of 0) (R_ i) (T_ i) (P_ i) E0 (co_of 0) (J dc) (J ds) (J do) Y n)).
  Proof.
    unfold nearfields_legacy. rewrite Hint, Spr, Hn. cbv zeta. rewrite Nat2Z.id.
    unfold dim_size. rewrite Src, Sk0. cbn [nth].
    assert (Spos : forall A (g : R * R * R -> A), shp (tmap g (spherical e10 probe)) = [Q]) by (intros; exact sph_shape).
    pose proof (rp_pos N K Q _ (Spos _ (fun s : R * R * R => fst (fst s)))) as Rr. pose proof (rp_pos N K Q _ (Spos _ (fun s : R * R * R => snd (fst s)))) as Rt.
    pose proof (rp_raw N K Q _ HK Src) as Rrc. pose proof (rp_raw N K Q _ HK Srs) as Rrs.
    assert (HKc : forall ix, in_bounds full ix -> col K (ax 4 ix) < K /\ ax 2 ix < K /\ ax 3 ix < Q).
    { intros ix Hix. destruct (ix5 _ _ _ _ _ _ Hix) as (n & p & k & i & c & -> & H1 & H2 & H3 & H4 & H5). cbn [ax nth]. split; [now apply col_lt|auto]. }
    match goal with |- context [bind ?x _] => assert (X : exists t, x = Ok t /\ rp' t [1; 1; 1; Q; K] (fun ix => rleb (R_ (ax 3 ix)) (at_ (o_r_c o) [0; col K (ax 4 ix)]))) by (eapply rr_conv; [ev|reflexivity]); destruct X as (idx1 & -> & Ri1) end. cbn [bind].
    match goal with |- context [bind ?x _] => assert (X : exists t, x = Ok t /\ rp' t [1; 1; 1; Q; K] (fun ix => rltb (at_ (o_r_c o) [0; col K (ax 4 ix)]) (R_ (ax 3 ix)))) by (eapply rr_conv; [ev|reflexivity]); destruct X as (i2a & -> & Ri2a) end. cbn [bind].
    match goal with |- context [bind ?x _] => assert (X : exists t, x = Ok t /\ rp' t [1; 1; 1; Q; K] (fun ix => rleb (R_ (ax 3 ix)) (at_ (o_r_s o) [0; col K (ax 4 ix)]))) by (eapply rr_conv; [ev|reflexivity]); destruct X as (i2b & -> & Ri2b) end. cbn [bind].
    match goal with |- context [bind ?x _] => assert (X : exists t, x = Ok t /\ rp' t [1; 1; 1; Q; K] (fun ix => andb (rltb (at_ (o_r_c o) [0; col K (ax 4 ix)]) (R_ (ax 3 ix))) (rleb (R_ (ax 3 ix)) (at_ (o_r_s o) [0; col K (ax 4 ix)])))) by (eapply rr_conv; [ev|reflexivity]); destruct X as (idx2 & -> & Ri2) end. cbn [bind].
    match goal with |- context [bind ?x _] => assert (X : exists t, x = Ok t /\ rp' t [1; 1; 1; Q; K] (fun ix => rltb (at_ (o_r_s o) [0; col K (ax 4 ix)]) (R_ (ax 3 ix)))) by (eapply rr_conv; [ev|reflexivity]); destruct X as (idx3 & -> & Ri3) end. cbn [bind].
    clear Ri2a Ri2b i2a i2b.
    assert (Rnc : rp' (tmap csqrt (o_eps_c o)) [1; K] (fun ix => nc_ (col K (ax 4 ix)))) by exact (rp_tmap _ (@csqrt R ROps) _ _ _ (rp_raw N K Q _ HK Sec)).
    assert (Rns : rp' (tmap csqrt (o_eps_s o)) [1; K] (fun ix => ns_ (col K (ax 4 ix)))) by exact (rp_tmap _ (@csqrt R ROps) _ _ _ (rp_raw N K Q _ HK Ses)).
    assert (Rno : rp' (expand_cfg (c_n_env (o_cfg o))) [1; 1; K; 1; 1] (fun ix => ne_ (ax 2 ix))) by exact (rp_cfg N K Q _ Sne).
    assert (Rne : rp' (c_n_env (o_cfg o)) [1; K] (fun ix => ne_ (col K (ax 4 ix)))) by exact (rp_raw N K Q _ HK Sne).
    assert (B1 : bcast_shape [1; 1; K; 1; 1] [1; K] = Some [1; 1; K; 1; K]) by bs3.
    assert (B2 : bcast_shape [1; 1; K; 1; 1] [1; 1; K; 1; 1] = Some [1; 1; K; 1; 1]) by bs3.
    destruct (vsh_ok N K Q HN jn yn J (fun _ => Y) Hj Hy K (c_k0 (o_cfg o)) _ [1; K] _ _ _ _ HK Sk0 (Spos _ (fun s : R * R * R => fst (fst s))) (Spos _ (fun s : R * R * R => snd (fst s))) (Spos _ snd) Rnc B1
      (fun ix Hix => proj1 (Hbig _ _ _ (proj1 (proj2 (HKc ix Hix))) (proj1 (HKc ix Hix)) (proj2 (proj2 (HKc ix Hix))))) K1) as (dc & e1 & Vc & -> & Vc1 & Vc2 & Vc3 & Vc4). cbn [bind].
    destruct (vsh_ok N K Q HN jn yn J (fun _ => Y) Hj Hy K (c_k0 (o_cfg o)) _ [1; K] _ _ _ _ HK Sk0 (Spos _ (fun s : R * R * R => fst (fst s))) (Spos _ (fun s : R * R * R => snd (fst s))) (Spos _ snd) Rns B1
      (fun ix Hix => proj1 (proj2 (Hbig _ _ _ (proj1 (proj2 (HKc ix Hix))) (proj1 (HKc ix Hix)) (proj2 (proj2 (HKc ix Hix)))))) K1) as (ds & e2 & Vs & -> & Vs1 & Vs2 & Vs3 & Vs4). cbn [bind].
    destruct (vsh_ok N K Q HN jn yn J (fun _ => Y) Hj Hy K (c_k0 (o_cfg o)) _ [1; K] _ _ _ _ HK Sk0 (Spos _ (fun s : R * R * R => fst (fst s))) (Spos _ (fun s : R * R * R => snd (fst s))) (Spos _ snd) Rns B1
      (fun ix Hix => proj1 (proj2 (Hbig _ _ _ (proj1 (proj2 (HKc ix Hix))) (proj1 (HKc ix Hix)) (proj2 (proj2 (HKc ix Hix)))))) K2) as (dw & e3 & Ws & -> & Ws1 & Ws2 & Ws3 & Ws4). cbn [bind].
    destruct (vsh_ok N K Q HN jn yn J (fun _ => Y) Hj Hy 1 (c_k0 (o_cfg o)) _ [1; 1; K; 1; 1] _ _ _ _ (or_introl eq_refl) Sk0 (Spos _ (fun s : R * R * R => fst (fst s))) (Spos _ (fun s : R * R * R => snd (fst s))) (Spos _ snd) Rno B2
      (fun ix Hix => proj2 (proj2 (Hbig _ _ _ (proj1 (proj2 (HKc ix Hix))) (proj1 (proj2 (HKc ix Hix))) (proj2 (proj2 (HKc ix Hix)))))) K3) as (d_o & e4 & Vo & -> & Vo1 & Vo2 & Vo3 & Vo4). cbn [bind].
    destruct (broadcast_rp _ _ _ _ Ri1) as (m1 & -> & Rm1). cbn [bind].
    destruct (broadcast_rp _ _ _ _ Ri2) as (m2 & -> & Rm2). cbn [bind].
    destruct (broadcast_rp _ _ _ _ Ri3) as (m3 & -> & Rm3). cbn [bind].
    clear Ri1 Ri2 Ri3 idx1 idx2 idx3.
    assert (Rcf : forall g : @coeffs R -> cplx R, rp' (expand_coef (tmap g co)) [N; 1; K; 1; 1] (fun ix => g (at_ co [ax 0 ix; 0; ax 2 ix]))).
    { intros g. exact (rp_coef N K Q (tmap g co) Sco). }
    assert (Ric : forall g : @coeffs R -> cplx R, rp' (tmap (cmul ci) (expand_coef (tmap g co))) [N; 1; K; 1; 1] (fun ix => cmul ci (g (at_ co [ax 0 ix; 0; ax 2 ix])))).
    { intros g. apply rp_tmap. apply Rcf. }
    pose proof (rp_En N K Q (fun n => pw_factor n E0)) as Ren.
    pose proof (Rcf (@an R)). pose proof (Rcf (@bn R)). pose proof (Rcf (@cn R)). pose proof (Rcf (@dn R)). pose proof (Rcf (@fn R)). pose proof (Rcf (@gn R)). pose proof (Rcf (@vn R)). pose proof (Rcf (@wn R)).
    pose proof (Ric (@an R)). pose proof (Ric (@bn R)). pose proof (Ric (@cn R)). pose proof (Ric (@dn R)). pose proof (Ric (@fn R)). pose proof (Ric (@gn R)). pose proof (Ric (@vn R)). pose proof (Ric (@wn R)).
    pose proof (rp_tmap _ (@copp R ROps) _ _ _ Rnc) as Rmc. pose proof (rp_tmap _ (@copp R ROps) _ _ _ Rns) as Rms.
    Ltac pt := intros ix Hix; destruct (ix5 _ _ _ _ _ _ Hix) as (n & p & k & i & c & -> & _ & _ & _ & _ & Hc); destruct c as [|[|[|c]]]; [reflexivity|reflexivity|reflexivity|lia].
    match goal with |- context [bind ?x _] => assert (X : exists t, x = Ok t /\ rp' t full (at_ix (fun w r t p E c n => E_core w r t p E c (J dc) Y n))) by (eapply rr_conv; [ev|pt]) end; destruct X as (E1 & -> & RE1); cbn [bind].
    match goal with |- context [bind ?x _] => assert (X : exists t, x = Ok t /\ rp' t full (at_ix (fun w r t p E c n => E_shell w r t p E c (J ds) Y n))) by (eapply rr_conv; [ev|pt]) end; destruct X as (E2 & -> & RE2); cbn [bind].
    match goal with |- context [bind ?x _] => assert (X : exists t, x = Ok t /\ rp' t full (at_ix (fun w r t p E c n => E_out w r t p E c (J d_o) Y n))) by (eapply rr_conv; [ev|pt]) end; destruct X as (E3 & -> & RE3); cbn [bind].
    destruct (mask_put_ok _ _ _ _ _ _ _ Rm1 RE1 (rp_const _ czero)) as (S1 & -> & RS1). cbn [bind].
    destruct (mask_put_ok _ _ _ _ _ _ _ Rm2 RE2 RS1) as (S2 & -> & RS2). cbn [bind].
    destruct (mask_put_ok _ _ _ _ _ _ _ Rm3 RE3 RS2) as (S3 & -> & RS3). cbn [bind].
    match goal with |- context [bind ?x _] => assert (X : exists t, x = Ok t /\ rp' t full (at_ix (fun w r t p E c n => H_core w r t p E c (J dc) Y n))) by (eapply rr_conv; [ev|pt]) end; destruct X as (H1_ & -> & RH1); cbn [bind].
    match goal with |- context [bind ?x _] => assert (X : exists t, x = Ok t /\ rp' t full (at_ix (fun w r t p E c n => H_shell w r t p E c (J ds) Y n))) by (eapply rr_conv; [ev|pt]) end; destruct X as (H2_ & -> & RH2); cbn [bind].
    match goal with |- context [bind ?x _] => assert (X : exists t, x = Ok t /\ rp' t full (fun ix => at_ix (fun w r t p E c n => H_out_p (ne_ (col K (ax 4 ix))) w r t p E c (J d_o) n) ix)) by (eapply rr_conv; [ev|pt]) end; destruct X as (H3_ & -> & RH3); cbn [bind].
    destruct (mask_put_ok _ _ _ _ _ _ _ Rm1 RH1 (rp_const _ czero)) as (U1 & -> & RU1). cbn [bind].
    destruct (mask_put_ok _ _ _ _ _ _ _ Rm2 RH2 RU1) as (U2 & -> & RU2). cbn [bind].
    destruct (mask_put_ok _ _ _ _ _ _ _ Rm3 RH3 RU2) as (U3 & -> & RU3). cbn [bind].
    clear RS1 RS2 RU1 RU2 S1 S2 U1 U2 RE1 RE2 RE3 RH1 RH2 RH3 E1 E2 E3 H1_ H2_ H3_ Rm1 Rm2 m1 m2.
    clear H H0 H1 H2 H3 H4 H5 H6 H7 H8 H9 H10 H11 H12 H13 H14 Vc1 Vc2 Vc3 Vc4 Vs1 Vs2 Vs3 Vs4 Ws1 Ws2 Ws3 Ws4 Vo1 Vo2 Vo3 Vo4 Vc Vs Ws Vo.
    assert (Rik : rp' (tmap (cmul ci) (expand_cfg (o_k o))) [1; 1; K; 1; 1] (fun ix => cmul ci (at_ (o_k o) [0; ax 2 ix]))) by exact (rp_tmap _ (cmul ci) _ _ _ (rp_cfg N K Q _ Sk)).
    pose proof (rp_tmap _ (@cofr R ROps) _ _ _ Rr) as Rcr. fold (cten (expand_pos (tmap (fun s : R * R * R => fst (fst s)) (spherical e10 probe)))) in Rcr.
    pose proof (rp_tmap _ (@cofr R ROps) _ _ _ (rp_tmap _ (@rcos R ROps) _ _ _ Rt)) as Rct. fold (cten (tmap rcos (expand_pos (tmap (fun s : R * R * R => snd (fst s)) (spherical e10 probe))))) in Rct.
    match goal with |- context [bind ?x _] => assert (X : exists t, x = Ok t /\ rp' t [1; 1; K; Q; 1] (fun ix => cmul (cmul (cmul ci (at_ (o_k o) [0; ax 2 ix])) (cofr (R_ (ax 3 ix)))) (cofr (rcos (T_ (ax 3 ix)))))) by (eapply rr_conv; [ev|reflexivity]) end;
      destruct X as (phs & -> & Rph); cbn [bind].
    pose proof (rp_tmap _ (@cexp R ROps) _ _ _ Rph) as Rex.
    assert (Rhx : exists Hx, lift2 cmul (Ok (tmap (cmul E0) (c_n_env (o_cfg o)))) (Ok (tmap cexp phs)) = Ok Hx /\
      rp' Hx [1; 1; K; Q; K] (fun ix => cmul (cmul E0 (ne_ (col K (ax 4 ix)))) (cexp (cmul (cmul (cmul ci (at_ (o_k o) [0; ax 2 ix])) (cofr (R_ (ax 3 ix)))) (cofr (rcos (T_ (ax 3 ix)))))))).
    { pose proof (rp_tmap _ (cmul E0) _ _ _ Rne) as Rn0. eapply rr_conv; [ev|reflexivity]. }
    destruct Rhx as (Hx & EHx & RHx).
    destruct (select4_ok N K Q 1 _ _ HN (or_introl eq_refl) HK (rp_tmap _ (cmul E0) _ _ _ Rex)) as [SEx VEx].
    destruct (select4_ok N K Q K _ _ HN (or_intror eq_refl) HK RHx) as [SHx VHx].
    destruct (put_last_ok K Q 0 _ HK SEx) as (Ei & -> & REi). cbn [bind]. rewrite EHx. cbn [bind].
    destruct (put_last_ok K Q 1 _ HK SHx) as (Hi & -> & RHi). cbn [bind].
    assert (Rcart : forall F G, rp' F full G -> rp [1; K; Q; 3] (cartesian (spherical e10 probe) F) [1; K; Q; 3] (fun ix =>
       csum (map (fun n => comp (ax 3 ix) (field_to_xyz (T_ (ax 2 ix)) (P_ (ax 2 ix)) (G [n; 0; ax 1 ix; ax 2 ix; 0], G [n; 0; ax 1 ix; ax 2 ix; 1], G [n; 0; ax 1 ix; ax 2 ix; 2]))) (seq 0 N)))).
    { intros F G [SF RF]. unfold cartesian, dim_size. rewrite SF. cbn [skipn nth]. split; [reflexivity|]. split; [apply fits_refl|].
      intros ix Hix. destruct (ix4 _ _ _ _ _ Hix) as (p & k & i & c & -> & Hp & Hk' & Hi' & Hc). cbn [shp at_].
      assert (E : bcast_ix [1; K; Q; 3] [p; k; i; c] = [p; k; i; c]) by (unfold bcast_ix; cbn [List.length Nat.sub skipn]; now apply clip_id).
      rewrite E. cbn [nth ax]. unfold T_, P_. assert (p = 0) as -> by lia. destruct (at_ (spherical e10 probe) [i]) as [[r th] ph]. cbn [fst snd].
      f_equal. apply map_ext_in. intros n Hn'. apply in_seq in Hn'.
      rewrite !(rep_full_at full F G RF SF) by (cbn; lia). reflexivity. }
    pose proof (Rcart _ _ RS3) as CE. pose proof (Rcart _ _ RU3) as CH. clear Rcart.
    set (ES := cartesian _ S3) in *. set (HS := cartesian _ U3) in *. clearbody ES HS.
    assert (Rout : rp [1; K; Q; 3] (select 0 0 m3) [1; K; Q; 3] (fun ix => rltb (at_ (o_r_s o) [0; col K (ax 3 ix)]) (R_ (ax 2 ix)))).
    { destruct Rm3 as [S3' R3']. unfold select. rewrite S3'. cbn [remove_at]. split; [reflexivity|]. split; [apply fits_refl|].
      intros ix Hix. destruct (ix4 _ _ _ _ _ Hix) as (p & k & i & c & -> & Hp & Hk' & Hi' & Hc). cbn [shp at_].
      assert (E : bcast_ix [1; K; Q; 3] [p; k; i; c] = [p; k; i; c]) by (unfold bcast_ix; cbn [List.length Nat.sub skipn]; now apply clip_id).
      rewrite E. cbn [insert_at]. rewrite (rep_full_at full m3 _ R3' S3') by (cbn; lia). reflexivity. }
    assert (B4 : bcast_shape [1; K; Q; 3] [1; K; Q; 3] = Some [1; K; Q; 3]) by bs3.
    destruct (tbin_rr [1; K; Q; 3] cadd ES Ei _ _ _ _ _ CE REi B4) as (X1 & -> & RX1). cbn [bind].
    destruct (mask_put_ok _ _ _ _ _ _ _ Rout RX1 CE) as (Et & -> & REt). cbn [bind].
    destruct (tbin_rr [1; K; Q; 3] cadd HS Hi _ _ _ _ _ CH RHi B4) as (X2 & -> & RX2). cbn [bind].
    destruct (mask_put_ok _ _ _ _ _ _ _ Rout RX2 CH) as (Ht & -> & RHt). cbn [bind].
    eexists. split; [reflexivity|]. cbn [f_Hi].
    assert (Hph : forall k i, k < K -> cexp (cmul (cmul (cmul ci (at_ (o_k o) [0; k])) (cofr (R_ i))) (cofr (rcos (T_ i)))) = phase (optics_of k) (R_ i) (T_ i)).
    { intros k i Hlt. unfold phase. cbn [optics_of w_k0 w_env]. now rewrite Hk. }
    split.
    { intros k i Hk' Hi'. assert (Hb : in_bounds [1; K; Q; 3] [0; k; i; 1]) by (cbn; lia).
      rewrite (rep_full_at _ _ _ (proj2 RHi) (proj1 RHi) _ Hb). cbn [ax nth Nat.eqb]. rewrite VHx by assumption. cbn [ax nth].
      rewrite Hph by assumption. unfold col. now destruct (K =? 1). }
    intros HK1. assert (Hc0 : forall c, col K c = 0) by (intros c; unfold col; now rewrite HK1). assert (HK0 : 0 < K) by lia.
    exists dc, ds, d_o. unfold result_of. cbn [f_Es f_Hs f_Et f_Ht f_Ei f_Hi].
    split; [exact (proj1 CE)|]. split; [exact (proj1 CH)|]. split; [exact (proj1 REt)|]. split; [exact (proj1 RHt)|]. split; [exact (proj1 REi)|]. split; [exact (proj1 RHi)|].
    intros i c Hi' Hc. assert (Hb : in_bounds [1; K; Q; 3] [0; 0; i; c]) by (cbn; lia).
    assert (HW : forall n c', W [n; 0; 0; i; c'] = optics_of 0) by (intros n c'; unfold W, optics_of; cbn [ax nth]; now rewrite Hc0).
    assert (Hr0 : (rc_ 0 <= rs_ 0)%R) by (now apply Hrad).
    assert (VE : at_ ES [0; 0; i; c] = total (T_ i) (P_ i) (fun n => E_sph (optics_of 0) (R_ i) (T_ i) (P_ i) E0 (co_of 0) (J dc) (J ds) (J d_o) Y n) N c).
    { rewrite (rep_full_at _ _ _ (proj2 CE) (proj1 CE) _ Hb). unfold total. f_equal. apply map_ext. intros n. f_equal. f_equal.
      unfold at_ix. rewrite !HW. cbn [ax nth]. rewrite !Hc0. fold (rc_ 0) (rs_ 0). unfold E_sph. cbn [optics_of w_rc w_rs].
      change (@rltb R ROps) with Rltb. change (@rleb R ROps) with Rleb. unfold Rltb, Rleb.
      destruct (Rlt_dec (rs_ 0) (R_ i)), (Rlt_dec (rc_ 0) (R_ i)), (Rle_dec (R_ i) (rs_ 0)), (Rle_dec (R_ i) (rc_ 0)); try lra; cbn [andb];
        match goal with |- context [comp 0 ?v] => destruct v as [[? ?] ?]; reflexivity end. }
    assert (VH : at_ HS [0; 0; i; c] = total (T_ i) (P_ i) (fun n => H_sph (optics_of 0) (R_ i) (T_ i) (P_ i) E0 (co_of 0) (J dc) (J ds) (J d_o) Y n) N c).
    { rewrite (rep_full_at _ _ _ (proj2 CH) (proj1 CH) _ Hb). unfold total. f_equal. apply map_ext. intros n. f_equal. f_equal.
      unfold at_ix. rewrite !HW. cbn [ax nth]. rewrite !Hc0. fold (rc_ 0) (rs_ 0). unfold H_sph. cbn [optics_of w_rc w_rs].
      change (H_out_p (ne_ 0) (optics_of 0)) with (fun r t p E c j n => H_out (optics_of 0) r t p E c j Y n). cbv beta.
      change (@rltb R ROps) with Rltb. change (@rleb R ROps) with Rleb. unfold Rltb, Rleb.
      destruct (Rlt_dec (rs_ 0) (R_ i)), (Rlt_dec (rc_ 0) (R_ i)), (Rle_dec (R_ i) (rs_ 0)), (Rle_dec (R_ i) (rc_ 0)); try lra; cbn [andb];
        match goal with |- context [comp 0 ?v] => destruct v as [[? ?] ?]; reflexivity end. }
    split; [exact VE|]. split; [exact VH|].
    assert (VEi : at_ Ei [0; 0; i; c] = comp c (E_inc (optics_of 0) (R_ i) (T_ i) E0)).
    { rewrite (rep_full_at _ _ _ (proj2 REi) (proj1 REi) _ Hb). cbn [ax nth]. rewrite VEx by assumption. cbn [ax nth]. rewrite Hph by assumption.
      destruct c as [|[|[|c]]]; [reflexivity|reflexivity|reflexivity|lia]. }
    assert (VHi : at_ Hi [0; 0; i; c] = comp c (H_inc (optics_of 0) (R_ i) (T_ i) E0)).
    { rewrite (rep_full_at _ _ _ (proj2 RHi) (proj1 RHi) _ Hb). cbn [ax nth]. rewrite VHx by assumption. cbn [ax nth]. rewrite Hph by assumption. rewrite Hc0.
      destruct c as [|[|[|c]]]; [reflexivity|reflexivity|reflexivity|lia]. }
    rewrite (rep_full_at _ _ _ (proj2 CE) (proj1 CE) _ Hb) in VE. rewrite (rep_full_at _ _ _ (proj2 CH) (proj1 CH) _ Hb) in VH.
    rewrite (rep_full_at _ _ _ (proj2 REi) (proj1 REi) _ Hb) in VEi. rewrite (rep_full_at _ _ _ (proj2 RHi) (proj1 RHi) _ Hb) in VHi.
    rewrite (rep_full_at _ _ _ (proj2 REt) (proj1 REt) _ Hb), (rep_full_at _ _ _ (proj2 RHt) (proj1 RHt) _ Hb).
    assert (Eo : rltb (at_ (o_r_s o) [0; col K (ax 3 [0; 0; i; c])]) (R_ (ax 2 [0; 0; i; c])) = Rltb (rs_ 0) (R_ i)) by (cbn [ax nth]; now rewrite Hc0).
    rewrite Eo. cbn [optics_of w_rs]. unfold Rltb. split.
    - intros Ho. destruct (Rlt_dec (rs_ 0) (R_ i)) as [_|]; [|lra]. split; [exact (f_equal2 cadd VE VEi)|exact (f_equal2 cadd VH VHi)].
    - intros Ho. destruct (Rlt_dec (rs_ 0) (R_ i)) as [|_]; [lra|]. split; [exact VE|exact VH].
  Qed.
End Fields.
