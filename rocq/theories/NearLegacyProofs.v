(** Near fields of the torch and scipy backends on tensors. *)
From Coq Require Import Reals ZArith List Bool String Arith Lia Lra.
From Coquelicot Require Import Coquelicot.
From Verif Require Import Ops ROps Tensor TensorProofs TensorView ModelSpecial ModelMie CLemmas ModelBatch ModelObs ModelJn JnProofs ModelNear ModelNearLegacy NearLegacySpec.
Import ListNotations.
Open Scope nat_scope.
Open Scope list_scope.

(** ** A. the number of wavelengths must be 1 or 3 *)
Definition ld (s : list nat) : nat := hd 1 (rev s).
Lemma bcast_ld s1 s2 s : bcast_shape s1 s2 = Some s -> bcast_dim (ld s1) (ld s2) = Some (ld s).
Proof.
  unfold bcast_shape, ld. destruct (bcast_rev (rev s1) (rev s2)) as [r|] eqn:E; [|discriminate]. cbn. intros H. injection H as <-. rewrite rev_involutive.
  destruct (rev s1) as [|a l1], (rev s2) as [|b l2]; cbn [bcast_rev] in E.
  - injection E as <-. reflexivity.
  - injection E as <-. cbn [hd]. apply bd_1l.
  - injection E as <-. cbn [hd]. apply bd_1r.
  - cbn [hd]. destruct (bcast_dim a b); [|discriminate]. destruct (bcast_rev l1 l2); [|discriminate]. injection E as <-. reflexivity.
Qed.
Lemma tbin_ld {A B D} (f : A -> B -> D) t u v : tbin f t u = Ok v -> bcast_dim (ld (shp t)) (ld (shp u)) = Some (ld (shp v)).
Proof. unfold tbin. destruct (bcast_shape (shp t) (shp u)) eqn:E; [|discriminate]. intros H. apply bcast_ld in E. assert (Hs : shp v = l) by (now inversion H). now rewrite Hs. Qed.
Lemma lift2_inv {A B D} (f : A -> B -> D) x y v : lift2 f x y = Ok v -> exists a b, x = Ok a /\ y = Ok b /\ tbin f a b = Ok v.
Proof. unfold lift2. destruct x as [a|]; [|discriminate]. destruct y as [b|]; [|discriminate]. cbn. eauto. Qed.
Lemma bd_big a b m : bcast_dim a b = Some m -> (a <> 1 -> m = a) /\ (b <> 1 -> m = b).
Proof.
  unfold bcast_dim. destruct (Nat.eqb_spec a b); [intros H; injection H as <-; auto|].
  destruct (Nat.eqb_spec a 1); [intros H; injection H as <-; tauto|]. destruct (Nat.eqb_spec b 1); [intros H; injection H as <-; tauto|discriminate].
Qed.
Lemma bind_inv {A B} (x : result A) (f : A -> result B) v : bind x f = Ok v -> exists a, x = Ok a /\ f a = Ok v.
Proof. destruct x; [cbn; eauto|discriminate]. Qed.
Lemma ld_snoc s a : ld (s ++ [a]) = a.
Proof. unfold ld. rewrite rev_app_distr. reflexivity. Qed.

Lemma vsh_last (jn yn : @bessel_t R) n k0 nm r th ph kd V : vsh jn yn n k0 nm r th ph kd = Ok V -> ld (shp nm) = 1 \/ ld (shp nm) = 3.
Proof.
  intros H. destruct (Nat.eq_dec (ld (shp nm)) 1) as [|H1]; [now left|right].
  unfold vsh in H. cbv zeta in H.
  apply bind_inv in H. destruct H as (rho & Hr & H).
  apply bind_inv in H. destruct H as (pt & _ & H).
  apply bind_inv in H. destruct H as (f & _ & H).
  apply bind_inv in H. destruct H as (der & _ & H).
  apply bind_inv in H. destruct H as (zn & Hz & H).
  apply bind_inv in H. destruct H as (zr & _ & H).
  apply bind_inv in H. destruct H as (M & HM & _).
  apply lift2_inv in Hr. destruct Hr as (a & b & Ha & Hb & Hr). injection Hb as <-.
  apply lift2_inv in Ha. destruct Ha as (a' & b' & Ha' & Hb' & Ha). injection Ha' as <-. injection Hb' as <-.
  apply tbin_ld in Ha. apply bd_big in Ha. destruct Ha as [_ Ha]. specialize (Ha H1).
  apply tbin_ld in Hr. apply bd_big in Hr. destruct Hr as [Hr _]. rewrite Ha in Hr. specialize (Hr H1).
  apply lift2_inv in Hz. destruct Hz as (z1 & z2 & _ & Hb & Hz). injection Hb as <-.
  apply tbin_ld in Hz. apply bd_big in Hz. destruct Hz as [_ Hz]. cbn [tmap shp] in Hz. rewrite Hr in Hz. specialize (Hz H1).
  apply lift2_inv in HM. destruct HM as (m1 & m2 & HM & _ & _).
  apply lift2_inv in HM. destruct HM as (m3 & e & HM & He & Hm). injection He as <-.
  apply lift2_inv in HM. destruct HM as (m4 & m5 & _ & He & Hm3). injection He as <-.
  apply tbin_ld in Hm3. apply bd_big in Hm3. destruct Hm3 as [_ Hm3]. rewrite Hz in Hm3. specialize (Hm3 H1).
  apply tbin_ld in Hm. unfold unit_vec in Hm. cbn [shp] in Hm. rewrite ld_snoc, Hm3 in Hm. apply bd_big in Hm. destruct Hm as [A B].
  specialize (A H1). specialize (B ltac:(lia)). congruence.
Qed.
Lemma legacy_last e10 (jn yn : @bessel_t R) E0 probe o v :
  nearfields_legacy e10 jn yn E0 probe o = Ok v -> ld (shp (o_eps_c o)) = 1 \/ ld (shp (o_eps_c o)) = 3.
Proof.
  unfold nearfields_legacy. destruct (o_internal o) as [co|]; [|discriminate].
  destruct (shp probe) as [|n_pos [|[|[|[|[|q]]]] [|? ?]]]; try discriminate. cbv zeta. intros H.
  apply bind_inv in H. destruct H as (? & _ & H).
  apply bind_inv in H. destruct H as (? & _ & H).
  apply bind_inv in H. destruct H as (? & _ & H).
  apply bind_inv in H. destruct H as (? & _ & H).
  apply bind_inv in H. destruct H as (? & _ & H).
  apply bind_inv in H. destruct H as (Vc & HV & _). apply vsh_last in HV. exact HV.
Qed.

(** ** B. evaluation of the tensors for one particle and 1 or 3 wavelengths *)
Definition rr {A} (full : list nat) (x : result (tensor A)) (s : list nat) (F : list nat -> A) : Prop :=
  exists t, x = Ok t /\ shp t = s /\ rep full t F.
Definition rp {A} (full : list nat) (t : tensor A) (s : list nat) (F : list nat -> A) : Prop := shp t = s /\ rep full t F.
Lemma rr_ok {A} full (t : tensor A) s F : rp full t s F -> rr full (Ok t) s F.
Proof. intros [E H]. exists t. auto. Qed.
Lemma lift2_rr {A B D} full (op : A -> B -> D) x y s1 s2 s F G : rr full x s1 F -> rr full y s2 G -> bcast_shape s1 s2 = Some s ->
  rr full (lift2 op x y) s (fun ix => op (F ix) (G ix)).
Proof.
  intros (t & -> & E1 & R1) (u & -> & E2 & R2) Hs. cbn [lift2 bind].
  destruct (tbin_rep full op t u F G R1 R2) as (v & -> & Ev & Rv). exists v. split; [reflexivity|]. split; [|exact Rv].
  rewrite E1, E2, Hs in Ev. now injection Ev as ->.
Qed.
Lemma tbin_rr {A B D} full (op : A -> B -> D) t u s1 s2 s F G : rp full t s1 F -> rp full u s2 G -> bcast_shape s1 s2 = Some s ->
  rr full (tbin op t u) s (fun ix => op (F ix) (G ix)).
Proof. intros H1 H2. exact (lift2_rr full op (Ok t) (Ok u) s1 s2 s F G (rr_ok _ _ _ _ H1) (rr_ok _ _ _ _ H2)). Qed.
Lemma rp_tmap {A B} full (h : A -> B) t s F : rp full t s F -> rp full (tmap h t) s (fun ix => h (F ix)).
Proof. intros [E H]. split; [exact E|now apply rep_tmap]. Qed.
Lemma rp_ext {A} full (t : tensor A) s F G : (forall ix, in_bounds full ix -> F ix = G ix) -> rp full t s F -> rp full t s G.
Proof. intros E [H R]. split; [exact H|]. eapply rep_ext; eauto. Qed.

Ltac bs := unfold bcast_shape; cbn [rev app bcast_rev]; rewrite ?bd_1l, ?bd_1r, ?bd_same; cbn [rev app option_map]; reflexivity.

(* index functions of the five axes *)
Definition ax (j : nat) (ix : list nat) : nat := nth j ix 0.
Lemma ix5 N P K Q D ix : in_bounds [N; P; K; Q; D] ix -> exists n p k i c, ix = [n; p; k; i; c] /\ n < N /\ p < P /\ k < K /\ i < Q /\ c < D.
Proof.
  destruct ix as [|n [|p [|k [|i [|c [|? ?]]]]]]; cbn; try tauto. intros H. exists n, p, k, i, c. tauto.
Qed.
Lemma fits5 N K Q s4 s3 s2 s1 s0 : (s0 = 1 \/ s0 = N) -> s1 = 1 -> (s2 = 1 \/ s2 = K) -> (s3 = 1 \/ s3 = Q) -> (s4 = 1 \/ s4 = 3) ->
  fits [s0; s1; s2; s3; s4] [N; 1; K; Q; 3].
Proof. unfold fits. cbn. intuition. Qed.
Lemma bix5 s0 s1 s2 s3 s4 n p k i c : bcast_ix [s0; s1; s2; s3; s4] [n; p; k; i; c] =
  [if s0 =? 1 then 0 else n; if s1 =? 1 then 0 else p; if s2 =? 1 then 0 else k; if s3 =? 1 then 0 else i; if s4 =? 1 then 0 else c].
Proof. reflexivity. Qed.
Lemma bix2 s3 s4 n p k i c : bcast_ix [s3; s4] [n; p; k; i; c] = [if s3 =? 1 then 0 else i; if s4 =? 1 then 0 else c].
Proof. reflexivity. Qed.

Lemma rr_conv {A} full (x : result (tensor A)) s F G : rr full x s F -> (forall ix, in_bounds full ix -> F ix = G ix) -> exists t, x = Ok t /\ rp full t s G.
Proof. intros (t & E & S & H) X. exists t. split; [exact E|]. split; [exact S|]. eapply rep_ext; eauto. Qed.
Lemma q1 (a : cplx R) : cmul a cone = a.
Proof. destruct a as [x y]. unfold cmul, cone. apply injective_projections; cbn; ring. Qed.
Lemma q0 (a : cplx R) : cmul a czero = czero.
Proof. destruct a as [x y]. unfold cmul, czero. apply injective_projections; cbn; ring. Qed.
Lemma qs0 (a : cplx R) : csub a czero = a.
Proof. destruct a as [x y]. unfold csub, czero. apply injective_projections; cbn; ring. Qed.
Lemma q0s (a : cplx R) : csub czero a = copp a.
Proof. destruct a as [x y]. unfold csub, czero, copp. apply injective_projections; cbn; ring. Qed.
Lemma qa0 (a : cplx R) : cadd a czero = a.
Proof. destruct a as [x y]. unfold cadd, czero. apply injective_projections; cbn; ring. Qed.
Lemma q0a (a : cplx R) : cadd czero a = a.
Proof. destruct a as [x y]. unfold cadd, czero. apply injective_projections; cbn; ring. Qed.
Lemma qss : @csub R ROps czero czero = czero.
Proof. unfold csub, czero. apply injective_projections; cbn; ring. Qed.
Lemma qaa : @cadd R ROps czero czero = czero.
Proof. apply qa0. Qed.
Lemma qas (a b c : cplx R) : cmul a (cmul b c) = cmul (cmul a b) c.
Proof. destruct a, b, c. unfold cmul. apply injective_projections; cbn; ring. Qed.

Section Eval.
  Variables N K Q : nat.
  Hypothesis HN : 1 <= N.
  Notation full := [N; 1; K; Q; 3].
  Notation rp' := (rp [N; 1; K; Q; 3]).
  Notation rr' := (rr [N; 1; K; Q; 3]).

  (* the shapes that occur *)
  Lemma rp_cfg {A} (t : tensor A) : shp t = [1; K] -> rp' (expand_cfg t) [1; 1; K; 1; 1] (fun ix => at_ t [0; ax 2 ix]).
  Proof.
    intros E. unfold expand_cfg, unsqueeze_last, unsqueeze, ndim. cbn [shp]. rewrite E. cbn [insert_at List.length]. split; [reflexivity|].
    split; [apply fits5; auto|]. intros ix Hix. destruct (ix5 _ _ _ _ _ _ Hix) as (n & p & k & i & c & -> & Hn & Hp & Hk & Hi & Hc).
    cbn [shp at_]. rewrite bix5. cbn [remove_at Nat.eqb ax nth]. now rewrite cl.
  Qed.
  Lemma rp_pos {A} (t : tensor A) : shp t = [Q] -> rp' (expand_pos t) [1; 1; 1; Q; 1] (fun ix => at_ t [ax 3 ix]).
  Proof.
    intros E. unfold expand_pos, unsqueeze_last, unsqueeze, ndim. cbn [shp]. rewrite E. cbn [insert_at List.length]. split; [reflexivity|].
    split; [apply fits5; auto|]. intros ix Hix. destruct (ix5 _ _ _ _ _ _ Hix) as (n & p & k & i & c & -> & Hn & Hp & Hk & Hi & Hc).
    cbn [shp at_]. rewrite bix5. cbn [remove_at Nat.eqb ax nth]. now rewrite cl.
  Qed.
  Lemma rp_coef {A} (t : tensor A) : shp t = [N; 1; K] -> rp' (expand_coef t) [N; 1; K; 1; 1] (fun ix => at_ t [ax 0 ix; 0; ax 2 ix]).
  Proof.
    intros E. unfold expand_coef, unsqueeze_last, unsqueeze, ndim. cbn [shp]. rewrite E. cbn [insert_at List.length]. split; [reflexivity|].
    split; [apply fits5; auto|]. intros ix Hix. destruct (ix5 _ _ _ _ _ _ Hix) as (n & p & k & i & c & -> & Hn & Hp & Hk & Hi & Hc).
    cbn [shp at_]. rewrite bix5. cbn [remove_at Nat.eqb ax nth]. now rewrite !cl.
  Qed.
  (* tensors of shape (1, K) used without expansion land on the last two axes *)
  Definition col (c : nat) : nat := if K =? 1 then 0 else c.
  Lemma rp_raw {A} (t : tensor A) : K = 1 \/ K = 3 -> shp t = [1; K] -> rp' t [1; K] (fun ix => at_ t [0; col (ax 4 ix)]).
  Proof.
    intros HK E. split; [exact E|]. split; [rewrite E; unfold fits; cbn; tauto|].
    intros ix Hix. destruct (ix5 _ _ _ _ _ _ Hix) as (n & p & k & i & c & -> & Hn & Hp & Hk & Hi & Hc).
    rewrite E, bix2. reflexivity.
  Qed.
  Lemma rp_unit j : rp' (@unit_vec R ROps 5 j) [1; 1; 1; 1; 3] (fun ix => if ax 4 ix =? j then cone else czero).
  Proof.
    split; [reflexivity|]. split; [apply fits5; auto|]. intros ix Hix. destruct (ix5 _ _ _ _ _ _ Hix) as (n & p & k & i & c & -> & _). reflexivity.
  Qed.
  Lemma rp_order : rp' (@order_axis R ROps 5 N) [N; 1; 1; 1; 1] (fun ix => cofn (S (ax 0 ix))).
  Proof.
    split; [reflexivity|]. split; [apply fits5; auto|]. intros ix Hix. destruct (ix5 _ _ _ _ _ _ Hix) as (n & p & k & i & c & -> & Hn & _).
    unfold order_axis. cbn [shp at_ repeat Nat.sub]. rewrite bix5. cbn [hd ax nth]. now rewrite cl.
  Qed.
  Lemma rp_En (g : nat -> cplx R) : rp' (mkT [N; 1; 1; 1; 1] (fun ix => g (S (hd 0 ix)))) [N; 1; 1; 1; 1] (fun ix => g (S (ax 0 ix))).
  Proof.
    split; [reflexivity|]. split; [apply fits5; auto|]. intros ix Hix. destruct (ix5 _ _ _ _ _ _ Hix) as (n & p & k & i & c & -> & Hn & _).
    cbn [shp at_]. rewrite bix5. cbn [hd ax nth]. now rewrite cl.
  Qed.

  (** *** the radial functions *)
  Variables (jn yn : @bessel_t R) (J Y : nat -> cplx R -> nat -> cplx R).
  Definition bessel_ok (f : @bessel_t R) (F : nat -> cplx R -> nat -> cplx R) : Prop := forall z, fine z ->
    exists e v, f N z = Ok v /\ shp v = S N :: shp (atleast_1d z) /\ forall i ix, in_bounds (shp (atleast_1d z)) ix -> at_ v (i :: ix) = F e (at_ (atleast_1d z) ix) i.
  Hypotheses (Hj : bessel_ok jn J) (Hy : bessel_ok yn Y).
  Definition radial_t (kd : kind) (z : tensor (cplx R)) : result (tensor (cplx R * cplx R)) :=
    match kd with K1 => psi_torch jn N z | K2 => chi_torch yn N z | K3 => xi_torch jn yn N z end.
  Lemma radial_ok kd z : fine z -> 1 <= ndim z -> exists e e' f, radial_t kd z = Ok f /\ shp f = S N :: shp z /\
    forall n ix, n <= N -> in_bounds (shp z) ix -> at_ f (n :: ix) = rad kd (J e (at_ z ix)) (Y e' (at_ z ix)) (at_ z ix) n.
  Proof.
    intros Hf Hd. assert (Ez : atleast_1d z = z) by (unfold atleast_1d, ndim in *; destruct (shp z); [cbn in Hd; lia|reflexivity]).
    destruct (Hj z Hf) as (e & tj & Ej & Sj & Vj). destruct (Hy z Hf) as (e' & ty & Ey & Sy & Vy). rewrite Ez in *.
    exists e, e'. assert (Hg : guard_err (0 <? N) IndexError = Ok tt) by (destruct (Nat.ltb_spec 0 N); [reflexivity|lia]).
    assert (Hfun : forall (g : cplx R -> (nat -> cplx R) -> nat -> cplx R * cplx R), (forall x u v n, (forall m, u m = v m) -> g x u n = g x v n) -> True) by auto.
    clear Hfun.
    assert (X : forall x u v n, (forall m, u m = v m) -> @psi_of R ROps x u n = psi_of x v n).
    { intros x u v n H. unfold psi_of, f_der_at. destruct n; rewrite !H; reflexivity. }
    assert (X' : forall x u v n, (forall m, u m = v m) -> @chi_of R ROps x u n = chi_of x v n).
    { intros x u v n H. unfold chi_of, f_der_at. destruct n; rewrite !H; reflexivity. }
    destruct kd; cbn [radial_t rad].
    - unfold psi_torch, riccati_t. rewrite Ej. cbn [bind]. rewrite Hg, Ez. cbn [bind]. eexists. split; [reflexivity|]. split; [exact Sj|].
      intros n ix _ Hix. cbn [at_ tl hd]. apply X. intros m. now apply Vj.
    - unfold chi_torch, riccati_t. rewrite Ey. cbn [bind]. rewrite Hg, Ez. cbn [bind]. eexists. split; [reflexivity|]. split; [exact Sy|].
      intros n ix _ Hix. cbn [at_ tl hd]. apply X'. intros m. now apply Vy.
    - unfold xi_torch, riccati_t. rewrite Ej, Ey. cbn [bind]. unfold tbin. rewrite Sj, Sy.
      assert (Eb : bcast_shape (S N :: shp z) (S N :: shp z) = Some (S N :: shp z)).
      { unfold bcast_shape. rewrite <- (app_nil_r (rev (S N :: shp z))) at 2. rewrite bcast_rev_same, app_nil_r. cbn [option_map]. now rewrite rev_involutive. }
      rewrite Eb. cbn [bind]. rewrite Hg, Ez. cbn [bind]. eexists. split; [reflexivity|]. split; [reflexivity|].
      intros n ix Hn Hix. cbn [at_ tl hd].
      (* orders above N do not occur *)
      unfold psi_of, f_der_at. cbn [at_].
      assert (B : forall m, m < S N -> bcast_ix (S N :: shp z) (m :: ix) = m :: ix).
      { intros m Hm. unfold bcast_ix. cbn [List.length]. rewrite (in_bounds_length _ _ Hix), Nat.sub_diag. cbn [skipn]. rewrite clip_id; [reflexivity|]. cbn. split; [lia|exact Hix]. }
      destruct n as [|n]; rewrite ?B by lia; rewrite ?Vj, ?Vy by exact Hix; reflexivity.
  Qed.

  (** *** vector harmonics *)
  Section Vsh.
    Variables (d : nat) (k0 : tensor R) (nm : tensor (cplx R)) (sm : list nat) (m : list nat -> cplx R) (r th ph : tensor R).
    Hypotheses (Hd : d = 1 \/ d = 3) (Sk : shp k0 = [1; K]) (Sr : shp r = [Q]) (St : shp th = [Q]) (Sp : shp ph = [Q]).
    Hypotheses (Hm : rp' nm sm m) (Hs : bcast_shape [1; 1; K; 1; 1] sm = Some [1; 1; K; 1; d]).
    Definition RHO (ix : list nat) : cplx R := rho_at (at_ k0 [0; ax 2 ix]) (m ix) (at_ r [ax 3 ix]).
    Hypothesis Hbig : forall ix, in_bounds full ix -> (/ 100000000 <= Cmod (RHO ix))%R.

    Lemma Hd3 : bcast_dim d 3 = Some 3. Proof. clear - Hd. destruct Hd as [-> | ->]; reflexivity. Qed.
    Ltac bs3 := unfold bcast_shape; cbn [rev app bcast_rev]; rewrite ?bd_1l, ?bd_1r, ?bd_same, ?Hd3; cbn [rev app option_map]; reflexivity.
    Ltac ev := match goal with
      | |- rr _ (lift2 _ _ _) _ _ => eapply lift2_rr; [ev|ev|first [exact Hs|bs3]]
      | |- rr _ (Ok _) _ _ => apply rr_ok; eassumption
      end.

    Lemma rho_ok : exists rho, lift2 cmul (lift2 cmul (Ok (cten (expand_cfg k0))) (Ok nm)) (Ok (cten (expand_pos r))) = Ok rho /\
      rp' (tmap (fun z => cadd z (@cofr R ROps (rtenth 8))) rho) [1; 1; K; Q; d] RHO.
    Proof.
      pose proof (rp_tmap _ (@cofr R ROps) _ _ _ (rp_cfg k0 Sk)) as Rk. pose proof (rp_tmap _ (@cofr R ROps) _ _ _ (rp_pos r Sr)) as Rr.
      fold (cten (expand_cfg k0)) in Rk. fold (cten (expand_pos r)) in Rr.
      assert (X : rr' (lift2 cmul (lift2 cmul (Ok (cten (expand_cfg k0))) (Ok nm)) (Ok (cten (expand_pos r)))) [1; 1; K; Q; d]
                (fun ix => cmul (cmul (cofr (at_ k0 [0; ax 2 ix])) (m ix)) (cofr (at_ r [ax 3 ix])))) by ev.
      destruct X as (rho & E & S & R0). exists rho. split; [exact E|].
      exact (rp_tmap _ (fun z => cadd z (@cofr R ROps (rtenth 8))) rho _ _ (conj S R0)).
    Qed.
    Lemma rad_rep rho kd : rp' rho [1; 1; K; Q; d] RHO ->
      exists e e' f, radial_t kd (select 0 0 rho) = Ok f /\
        rp' (narrow 0 1 N f) [N; 1; K; Q; d] (fun ix => rad kd (J e (RHO ix)) (Y e' (RHO ix)) (RHO ix) (S (ax 0 ix))).
    Proof.
      intros [Sρ [_ Vρ]]. assert (Ss : shp (select 0 0 rho) = [1; K; Q; d]) by (unfold select; cbn [shp]; now rewrite Sρ).
      assert (Hf : fine (select 0 0 rho)).
      { right. rewrite Ss. intros ix Hix. destruct ix as [|p [|k [|i [|c [|? ?]]]]]; cbn in Hix; try tauto.
        assert (p = 0) as -> by lia. unfold select. cbn [at_ insert_at].
        assert (Hb : in_bounds full [0; 0; k; i; c]) by (cbn; lia).
        specialize (Vρ _ Hb). rewrite Sρ, bix5 in Vρ. rewrite !cl in Vρ by lia. cbn [Nat.eqb] in Vρ. rewrite Vρ. now apply Hbig. }
      destruct (radial_ok kd _ Hf) as (e & e' & f & Ef & Sf & Vf); [unfold ndim; rewrite Ss; cbn; lia|].
      exists e, e', f. split; [exact Ef|]. rewrite Ss in Sf, Vf. split; [unfold narrow; cbn [shp]; rewrite Sf; reflexivity|].
      assert (Sn : shp (narrow 0 1 N f) = [N; 1; K; Q; d]) by (unfold narrow; cbn [shp]; now rewrite Sf).
      split; [rewrite Sn; apply fits5; auto|].
      intros ix Hix. destruct (ix5 _ _ _ _ _ _ Hix) as (n & p & k & i & c & -> & Hn & Hp & Hk & Hi & Hc).
      specialize (Vρ _ Hix). rewrite Sn. rewrite Sρ in Vρ. rewrite bix5 in *. rewrite (cl K), (cl Q) in * by lia. rewrite (cl N) by lia. cbn [Nat.eqb] in *.
      set (c' := if d =? 1 then 0 else c) in *. unfold narrow. cbn [at_ set_at nth]. rewrite (Vf (n + 1) [0; k; i; c']).
      - unfold select. cbn [at_ insert_at]. rewrite Vρ. cbn [ax nth]. now replace (n + 1) with (S n) by lia.
      - lia.
      - cbn. repeat split; try lia. unfold c'. destruct Hd as [-> | ->]; cbn; lia.
    Qed.

    Definition HARM kd e e' (ix : list nat) : @vsh_t R :=
      vsh_s kd (J e) (Y e') (RHO ix) (at_ th [ax 3 ix]) (at_ ph [ax 3 ix]) (S (ax 0 ix)).
    Lemma vsh_ok kd : exists e e' V, vsh jn yn N (expand_cfg k0) nm (expand_pos r) (expand_pos th) (expand_pos ph) kd = Ok V /\
      rp' (VM_o V) full (fun ix => comp (ax 4 ix) (M_o (HARM kd e e' ix))) /\
      rp' (VM_e V) full (fun ix => comp (ax 4 ix) (M_e (HARM kd e e' ix))) /\
      rp' (VN_o V) full (fun ix => comp (ax 4 ix) (N_o (HARM kd e e' ix))) /\
      rp' (VN_e V) full (fun ix => comp (ax 4 ix) (N_e (HARM kd e e' ix))).
    Proof.
      destruct rho_ok as (rho0 & Er & Rr). destruct (rad_rep _ kd Rr) as (e & e' & f & Ef & Rf). exists e, e'.
      unfold vsh. cbv zeta. rewrite Er. cbn [bind]. set (rho := tmap _ rho0) in *. clearbody rho. clear Er rho0.
      assert (Nd : ndim (expand_pos r) = 5) by (unfold ndim; rewrite (proj1 (rp_pos r Sr)); reflexivity). rewrite Nd. clear Nd.
      unfold pi_tau_t. destruct (Z.ltb_spec (Z.of_nat N) 1); [lia|]. cbn [bind fst snd]. rewrite Nat2Z.id.
      assert (Ex : match kd with K1 => psi_torch jn N (select 0 0 rho) | K2 => chi_torch yn N (select 0 0 rho) | K3 => xi_torch jn yn N (select 0 0 rho) end = Ok f)
        by (destruct kd; exact Ef).
      rewrite Ex. cbn [bind]. clear Ex Ef.
      set (F := narrow 0 1 N f) in *. clearbody F. clear f.
      pose proof (rp_tmap _ fst _ _ _ Rf) as R1. pose proof (rp_tmap _ snd _ _ _ Rf) as R2.
      pose proof (rp_unit 0) as U0. pose proof (rp_unit 1) as U1. pose proof (rp_unit 2) as U2. pose proof rp_order as RN.
      pose proof (rp_tmap _ (fun z => cadd z (@cone R ROps)) _ _ _ RN) as RN1.
      assert (Rt : forall g : R -> R, rp' (cten (tmap g (expand_pos th))) [1; 1; 1; Q; 1] (fun ix => cofr (g (at_ th [ax 3 ix])))).
      { intros g. exact (rp_tmap _ (@cofr R ROps) _ _ _ (rp_tmap _ g _ _ _ (rp_pos th St))). }
      assert (Rp : forall g : R -> R, rp' (cten (tmap g (expand_pos ph))) [1; 1; 1; Q; 1] (fun ix => cofr (g (at_ ph [ax 3 ix])))).
      { intros g. exact (rp_tmap _ (@cofr R ROps) _ _ _ (rp_tmap _ g _ _ _ (rp_pos ph Sp))). }
      pose proof (Rt (@rsin R ROps)) as Rst. pose proof (Rp (@rcos R ROps)) as Rcp. pose proof (Rp (@rsin R ROps)) as Rsp.
      pose proof (rp_tmap _ (@copp R ROps) _ _ _ Rsp) as Rmp.
      assert (Rang : forall g : R -> nat -> R, rp' (cten (narrow 0 1 N (mkT (S N :: shp (select 0 0 (tmap rcos (expand_pos th)))) (fun ix => g (at_ (select 0 0 (tmap rcos (expand_pos th))) (tl ix)) (hd 0 ix)))))
          [N; 1; 1; Q; 1] (fun ix => cofr (g (rcos (at_ th [ax 3 ix])) (S (ax 0 ix))))).
      { intros g. apply rp_tmap. pose proof (proj1 (rp_pos th St)) as Se. unfold narrow, select, tmap. cbn [shp at_]. rewrite Se. cbn [remove_at set_at].
        split; [reflexivity|]. split; [apply fits5; auto|]. intros ix Hix. destruct (ix5 _ _ _ _ _ _ Hix) as (n & p & k & i & c & -> & Hn & Hp & Hk & Hi & Hc).
        cbn [shp at_]. rewrite bix5. rewrite (cl N), (cl Q) by lia. cbn [Nat.eqb nth set_at tl hd insert_at ax].
        unfold expand_pos, unsqueeze_last, unsqueeze, ndim. cbn [shp at_]. rewrite St. cbn [insert_at List.length remove_at]. now replace (n + 1) with (S n) by lia. }
      pose proof (Rang (@pi_n R ROps)) as Rpi. pose proof (Rang (@tau_n R ROps)) as Rta. clear Rang.
      set (PI := cten (narrow 0 1 N (mkT _ (fun ix => pi_n _ _)))) in *. set (TA := cten (narrow 0 1 N (mkT _ (fun ix => tau_n _ _)))) in *. clearbody PI TA.
      set (st := cten (tmap rsin (expand_pos th))) in *. set (cp := cten (tmap rcos (expand_pos ph))) in *. set (sp := cten (tmap rsin (expand_pos ph))) in *.
      set (msp := tmap copp sp) in *. set (n1 := tmap _ (order_axis 5 N)) in *. set (n0 := order_axis 5 N) in *.
      set (f1 := tmap fst F) in *. set (f2 := tmap snd F) in *.
      set (u0 := unit_vec 5 0) in *. set (u1 := unit_vec 5 1) in *. set (u2 := unit_vec 5 2) in *.
      clearbody st msp n1 f1 f2 u0 u1 u2. clearbody cp sp n0. clear Rt Rp Rf F.
      assert (X : rr' (lift2 cdiv (Ok f2) (Ok rho)) [N; 1; K; Q; d] (fun ix => cdiv (snd (rad kd (J e (RHO ix)) (Y e' (RHO ix)) (RHO ix) (S (ax 0 ix)))) (RHO ix))) by ev.
      destruct X as (der & -> & Rd). cbn [bind]. fold (rp' der [N; 1; K; Q; d] (fun ix => cdiv (snd (rad kd (J e (RHO ix)) (Y e' (RHO ix)) (RHO ix) (S (ax 0 ix)))) (RHO ix))) in Rd.
      assert (X : rr' (lift2 cdiv (Ok f1) (Ok rho)) [N; 1; K; Q; d] (fun ix => cdiv (fst (rad kd (J e (RHO ix)) (Y e' (RHO ix)) (RHO ix) (S (ax 0 ix)))) (RHO ix))) by ev.
      destruct X as (zn & -> & Rz). cbn [bind]. fold (rp' zn [N; 1; K; Q; d] (fun ix => cdiv (fst (rad kd (J e (RHO ix)) (Y e' (RHO ix)) (RHO ix) (S (ax 0 ix)))) (RHO ix))) in Rz.
      set (DZ := fun ix => cdiv (snd (rad kd (J e (RHO ix)) (Y e' (RHO ix)) (RHO ix) (S (ax 0 ix)))) (RHO ix)) in *.
      set (ZN := fun ix => cdiv (fst (rad kd (J e (RHO ix)) (Y e' (RHO ix)) (RHO ix) (S (ax 0 ix)))) (RHO ix)) in *.
      assert (X : rr' (lift2 cdiv (Ok zn) (Ok rho)) [N; 1; K; Q; d] (fun ix => cdiv (ZN ix) (RHO ix))) by ev.
      destruct X as (zr & -> & Rzr). cbn [bind]. fold (rp' zr [N; 1; K; Q; d] (fun ix => cdiv (ZN ix) (RHO ix))) in Rzr.
      clear R1 R2 Rr.
      Ltac pw ZN DZ := let ix := fresh "ix" in let Hix := fresh in intros ix Hix;
        destruct (ix5 _ _ _ _ _ _ Hix) as (n & p & k & i & c & -> & _ & _ & _ & _ & Hc);
        unfold HARM, vsh_s, vsh_of; cbv zeta; cbn [M_o M_e N_o N_e];
        match goal with |- context [[?n; ?p; ?k; ?i; ?c]] =>
          change (cdiv (fst (rad _ _ _ _ _)) _) with (ZN [n; p; k; i; c]); change (cdiv (snd (rad _ _ _ _ _)) _) with (DZ [n; p; k; i; c]) end;
        cbn [ax nth];
        repeat match goal with |- context [ZN ?l] => generalize (ZN l); intros end; repeat match goal with |- context [DZ ?l] => generalize (DZ l); intros end;
        destruct c as [|[|[|c]]]; [| | |lia]; cbn [Nat.eqb comp v1 v2 v3 fst snd]; rewrite ?q1, ?q0, ?qs0, ?q0s, ?qa0, ?q0a, ?qss, ?qaa; try reflexivity; now rewrite ?qas.
      assert (X : exists t, lift2 csub (lift2 cmul (lift2 cmul (lift2 cmul (Ok cp) (Ok PI)) (Ok zn)) (Ok u1)) (lift2 cmul (lift2 cmul (lift2 cmul (Ok sp) (Ok TA)) (Ok zn)) (Ok u2)) = Ok t /\
        rp' t full (fun ix => comp (ax 4 ix) (M_o (HARM kd e e' ix)))) by (eapply rr_conv; [ev|pw ZN DZ]).
      destruct X as (Mo & -> & RMo). cbn [bind].
      match goal with |- context [bind ?x _] => assert (X : exists t, x = Ok t /\ rp' t full (fun ix => comp (ax 4 ix) (N_o (HARM kd e e' ix)))) by (eapply rr_conv; [ev|pw ZN DZ]) end.
      destruct X as (No & -> & RNo). cbn [bind].
      match goal with |- context [bind ?x _] => assert (X : exists t, x = Ok t /\ rp' t full (fun ix => comp (ax 4 ix) (M_e (HARM kd e e' ix)))) by (eapply rr_conv; [ev|pw ZN DZ]) end.
      destruct X as (Me & -> & RMe). cbn [bind].
      match goal with |- context [bind ?x _] => assert (X : exists t, x = Ok t /\ rp' t full (fun ix => comp (ax 4 ix) (N_e (HARM kd e e' ix)))) by (eapply rr_conv; [ev|pw ZN DZ]) end.
      destruct X as (Ne & -> & RNe). cbn [bind].
      eexists. split; [reflexivity|]. cbn [VM_o VM_e VN_o VN_e]. auto.
    Qed.
  End Vsh.
End Eval.
