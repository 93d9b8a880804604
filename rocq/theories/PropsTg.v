(** C58-C63, C76: helpers for torchgdm. *)
From Coq Require Import Reals ZArith List Bool String Arith Lia Lra.
From Coquelicot Require Import Complex.
From Verif Require Import Ops ROps Tensor TensorProofs BroadcastProofs BatchReal ModelMaterial ModelSpecial ModelMie ModelBatch BroadcastSpec ModelParticle ParticleSpec
  ModelTg TgSpec TgProofs TgPola TgCombine ExampleTg TgEnd.
Import ListNotations.
Open Scope nat_scope.
Open Scope list_scope.

(** C58: the automatic choice treats any number of layers. *)
Theorem C58_automatic_supported : forall sj sy jr d p h wls is L rs lf v, setting sj sy jr d p h wls is L rs lf v -> forall n, (1 <= n)%Z ->
  exists h' o fa fb, run_call sj sy jr p (k0_of wls) None (tg_kwargs p None n) h = (h', Ok o) /\
    is3 (o_a o) (Z.to_nat n) 1 (List.length wls) fa /\ is3 (o_b o) (Z.to_nat n) 1 (List.length wls) fb.
Proof. exact automatic_supported. Qed.
Print Assumptions C58_automatic_supported.
Theorem C58_explicit_respected : forall (p : @particle R) s n, resolve_backend p (Some s) = s /\ k_backend (tg_kwargs p (Some s) n) = s.
Proof. exact explicit_respected. Qed.
Print Assumptions C58_explicit_respected.
(** C58: without the choice, the other two backends refuse such particles. *)
Theorem C58_others_refuse : forall sj sy jr d p h wls is L rs lf v, setting sj sy jr d p h wls is L rs lf v ->
  forall b n, 2 < L -> lower b = "torch"%string \/ lower b = "scipy"%string -> (0 <= n)%Z ->
  snd (mie_ab sj sy jr p wls NNone n (Some b) h) = Err ValueError.
Proof. exact explicit_rejected. Qed.
Print Assumptions C58_others_refuse.
Theorem C58_settings_exist : forall sj sy jr (rs : list R) (ns : list C) (n_env : C) (wls : list R),
  List.length ns = List.length rs -> rs <> [] -> (forall l, S l < List.length rs -> (nth l rs 0 < nth (S l) rs 0)%R) ->
  wls <> [] -> (forall k, k < List.length wls -> (0 < nth k wls 0)%R) ->
  exists h p is, new_particle (layered rs ns n_env) [] = (h, Ok p) /\
    setting sj sy jr "cpu"%string p h wls is (List.length rs) rs (fun l _ => (nth l ns (RtoC 0) * nth l ns (RtoC 0))%C) (n_env * n_env)%C.
Proof. exact layered_setting. Qed.
Print Assumptions C58_settings_exist.
Example C58_three_layers : forall sj sy jr, exists p h h' o, lower (resolve_backend p None) = "pena"%string /\
  run_call sj sy jr p (k0_of [500; 600]%R) None (tg_kwargs p None 3) h = (h', Ok o).
Proof.
  intros sj sy jr. destruct (C58_settings_exist sj sy jr [50; 80; 100]%R [RtoC 2; RtoC 3; RtoC 2] (RtoC 1) [500; 600]%R) as (h & p & is & _ & St); try easy.
  - intros [|[|[|l]]] H; cbn in *; lra || lia.
  - intros [|[|k]] H; cbn in *; lra || lia.
  - destruct (C58_automatic_supported _ _ _ _ _ _ _ _ _ _ _ _ St 3%Z ltac:(lia)) as (h' & o & _ & _ & E & _). exists p, h, h', o. split; [|exact E].
    unfold resolve_backend. now rewrite (numel_r _ _ _ _ _ _ _ _ _ _ _ _ St).
Qed.

(** C59: a number equal to the index of the medium is refused. *)
Theorem C59_number_accepted_refuted : forall sj sy jr, exists p h wls is rs lf v z,
  setting sj sy jr "cpu"%string p h wls is 1 rs lf v /\ (z * z)%C = v /\ snd (mie_ab sj sy jr p wls (NNum z) 10 None h) = Err TypeError.
Proof. exact number_witness. Qed.
Print Assumptions C59_number_accepted_refuted.
Theorem C59_every_number_refused : forall sj sy jr d p h wls is L rs lf v, setting sj sy jr d p h wls is L rs lf v -> forall z n b,
  ((z * z)%C = v -> snd (mie_ab sj sy jr p wls (NNum z) n b h) = Err TypeError) /\
  ((z * z)%C <> v -> snd (mie_ab sj sy jr p wls (NNum z) n b h) = Err AssertionError).
Proof. exact override_number. Qed.
Print Assumptions C59_every_number_refused.
Theorem C59_scalar_tensor_refused : forall sj sy jr d p h wls is L rs lf v, setting sj sy jr d p h wls is L rs lf v ->
  forall (u : tensor (cplx R)) n b, shp u = [] -> (at_ u [] * at_ u [])%C = v -> snd (mie_ab sj sy jr p wls (NTen u) n b h) = Err IndexError.
Proof. exact override_scalar. Qed.
Print Assumptions C59_scalar_tensor_refused.
(** C59: only a tensor of one entry is accepted, and then changes nothing in the coefficients. *)
Theorem C59_one_entry_accepted : forall sj sy jr d p h wls is L rs lf v, setting sj sy jr d p h wls is L rs lf v ->
  forall (u : tensor (cplx R)) n b, shp u = [1] -> (at_ u [0] * at_ u [0])%C = v -> (2 <= n)%Z -> backend_fits b L ->
  exists h1 h2 m1 m2, mie_ab sj sy jr p wls (NTen u) n b h = (h1, Ok m1) /\ mie_ab sj sy jr p wls NNone n b h = (h2, Ok m2) /\
    shp (m_a m1) = shp (m_a m2) /\ shp (m_b m1) = shp (m_b m2) /\
    (forall k i, k < List.length wls -> i < Z.to_nat n -> at_ (m_a m1) [k; i] = at_ (m_a m2) [k; i] /\ at_ (m_b m1) [k; i] = at_ (m_b m2) [k; i]) /\
    shp (m_eps m1) = [1] /\ at_ (m_eps m1) [0] = v.
Proof. exact one_entry_same. Qed.
Print Assumptions C59_one_entry_accepted.
(** C59: the same preparation in extract_GPM_sphere_miediff. *)
Theorem C59_preparation : forall sj sy jr d p h wls is L rs lf v, setting sj sy jr d p h wls is L rs lf v -> forall z er,
  snd (tg_env p wls (NNum z) h) = Err er -> er = TypeError /\ (z * z)%C = v \/ er = AssertionError /\ (z * z)%C <> v.
Proof. exact preparation_number. Qed.
Print Assumptions C59_preparation.
Theorem C59_preparation_fails : forall sj sy jr d p h wls is L rs lf v, setting sj sy jr d p h wls is L rs lf v -> forall z, exists er,
  snd (tg_env p wls (NNum z) h) = Err er.
Proof. exact preparation_fails. Qed.
Print Assumptions C59_preparation_fails.

(** C60 *)
Theorem C60_polarizability : forall sj sy jr d p h wls is L rs lf v, setting sj sy jr d p h wls is L rs lf v -> v <> RtoC 0 ->
  forall ne b tol r0 r, env_arg v ne -> backend_fits b L -> centre_ok r0 r ->
  exists h' h3 E o, eff_pola sj sy jr p wls ne b tol r0 h = (h', Ok E) /\
    run_call sj sy jr p (k0_of wls) None (tg_kwargs p b 2) h = (h3, Ok o) /\
    is3 (ep_alpha E) (List.length wls) 6 6
      (alpha6 (fun k => alpha_e (at_ (o_a o) [0; 0; k]) (2 * PI / nth k wls 0)%R (csqrt v))
              (fun k => alpha_m (at_ (o_b o) [0; 0; k]) (2 * PI / nth k wls 0)%R (csqrt v))) /\
    (lower (resolve_backend p b) = "pena"%string -> forall k, k < List.length wls ->
      (at_ (o_a o) [0; 0; k], at_ (o_b o) [0; 0; k]) = scalar_pena 2 (sphere_at wls rs lf v k) 1) /\
    ep_r0 E = r /\ shp (ep_radius E) = [] /\ at_ (ep_radius E) [] = nth (L - 1) rs 0%R /\
    ep_warn_a E = exceeding tol (fun k => at_ (o_a o) [1; 0; k]) wls /\ ep_warn_b E = exceeding tol (fun k => at_ (o_b o) [1; 0; k]) wls.
Proof. exact eff_pola_ok. Qed.
Print Assumptions C60_polarizability.
(** C60: extinction of the two dipoles. *)
Theorem C60_electric_extinction : forall (a b : nat -> C) (k0 n : R), k0 <> 0%R -> n <> 0%R ->
  (4 * PI * k0 / n * snd (alpha_e (a 1%nat) k0 (RtoC n)))%R = @cs_ext_multipole R ROps (RtoC (k0 * n)) a b false 1.
Proof. exact extinction_e. Qed.
Print Assumptions C60_electric_extinction.
Theorem C60_magnetic_extinction : forall (a b : nat -> C) (k0 n : R), k0 <> 0%R -> n <> 0%R ->
  (4 * PI * k0 * n * snd (alpha_m (b 1%nat) k0 (RtoC n)))%R = @cs_ext_multipole R ROps (RtoC (k0 * n)) a b true 1.
Proof. exact extinction_m. Qed.
Print Assumptions C60_magnetic_extinction.
(** C60: a coefficient of a lossless sphere (Re a = |a|^2) gives a dipole obeying the optical theorem, and conversely. *)
Theorem C60_electric_radiation_reaction : forall (a1 : C) (k0 n : R), k0 <> 0%R -> n <> 0%R ->
  (fst a1 = Cmod a1 * Cmod a1 <-> snd (alpha_e a1 k0 (RtoC n)) = 2 / 3 * (k0 * k0 * k0 * n) * (Cmod (alpha_e a1 k0 (RtoC n)) * Cmod (alpha_e a1 k0 (RtoC n))))%R.
Proof. exact reaction_e. Qed.
Print Assumptions C60_electric_radiation_reaction.
Theorem C60_magnetic_radiation_reaction : forall (b1 : C) (k0 n : R), k0 <> 0%R -> n <> 0%R ->
  (fst b1 = Cmod b1 * Cmod b1 <-> snd (alpha_m b1 k0 (RtoC n)) = 2 / 3 * (k0 * k0 * k0 * (n * n * n)) * (Cmod (alpha_m b1 k0 (RtoC n)) * Cmod (alpha_m b1 k0 (RtoC n))))%R.
Proof. exact reaction_m. Qed.
Print Assumptions C60_magnetic_radiation_reaction.
Example C60_instance : forall sj sy jr, exists p h h' E, eff_pola sj sy jr p [500; 600]%R (NTen (vec_t (RtoC 0) [RtoC (4/3)])) None (15/100)%R (Some (mkT [1; 3] (fun _ => 7%R))) h = (h', Ok E) /\
  at_ (ep_radius E) [] = 100%R /\ at_ (ep_alpha E) [1; 0; 5] = RtoC 0.
Proof.
  intros sj sy jr. destruct (C58_settings_exist sj sy jr [50; 100]%R [RtoC 2; RtoC 3] (RtoC (4/3)) [500; 600]%R) as (h & p & is & _ & St); try easy.
  - intros [|[|l]] H; cbn in *; lra || lia.
  - intros [|[|k]] H; cbn in *; lra || lia.
  - destruct (C60_polarizability _ _ _ _ _ _ _ _ _ _ _ _ St) with (ne := @NTen R (vec_t (RtoC 0) [RtoC (4/3)])) (b := @None string) (tol := (15/100)%R) (r0 := Some (mkT [1; 3] (fun _ => 7%R)))
      (r := squeeze (mkT [1; 3] (fun _ => 7%R))) as (h' & h3 & E & o & HE & _ & [_ Ha] & _ & _ & _ & Hr & _).
    + rewrite <- RtoC_mult. intros H. apply RtoC_inj in H. lra.
    + split; reflexivity.
    + exact I.
    + split; reflexivity.
    + exists p, h, h', E. split; [exact HE|]. split; [exact Hr|]. rewrite Ha by (cbn; lia). reflexivity.
Qed.

(** C61: with two or more orders the layout is (wavelengths, orders). *)
Theorem C61_layout : forall sj sy jr d p h wls is L rs lf v, setting sj sy jr d p h wls is L rs lf v ->
  forall n b, (2 <= n)%Z -> backend_fits b L ->
  exists h' h3 m o, mie_ab sj sy jr p wls NNone n b h = (h', Ok m) /\ run_call sj sy jr p (k0_of wls) None (tg_kwargs p b n) h = (h3, Ok o) /\
    is2 (m_a m) (List.length wls) (Z.to_nat n) (fun k i => at_ (o_a o) [i; 0; k]) /\ is2 (m_b m) (List.length wls) (Z.to_nat n) (fun k i => at_ (o_b o) [i; 0; k]) /\
    (lower (resolve_backend p b) = "pena"%string ->
      is2 (m_a m) (List.length wls) (Z.to_nat n) (fun k i => fst (scalar_pena (Z.to_nat n) (sphere_at wls rs lf v k) (S i))) /\
      is2 (m_b m) (List.length wls) (Z.to_nat n) (fun k i => snd (scalar_pena (Z.to_nat n) (sphere_at wls rs lf v k) (S i)))) /\
    shp (m_r m) = [] /\ at_ (m_r m) [] = nth (L - 1) rs 0%R /\ m_wls m = wls.
Proof. exact layout_two_or_more. Qed.
Print Assumptions C61_layout.
(** C61: with a single order it is (1, wavelengths), or an IndexError for a single wavelength. *)
Theorem C61_single_order : forall sj sy jr d p h wls is L rs lf v, setting sj sy jr d p h wls is L rs lf v -> forall b, backend_fits b L ->
  (2 <= List.length wls -> exists h' h3 m o, mie_ab sj sy jr p wls NNone 1 b h = (h', Ok m) /\ run_call sj sy jr p (k0_of wls) None (tg_kwargs p b 1) h = (h3, Ok o) /\
     is2 (m_a m) 1 (List.length wls) (fun _ k => at_ (o_a o) [0; 0; k]) /\ is2 (m_b m) 1 (List.length wls) (fun _ k => at_ (o_b o) [0; 0; k])) /\
  (List.length wls = 1 -> snd (mie_ab sj sy jr p wls NNone 1 b h) = Err IndexError).
Proof. exact mie_ab_single. Qed.
Print Assumptions C61_single_order.
Theorem C61_any_order_refuted : forall sj sy jr, exists p h wls is rs lf v h' m,
  setting sj sy jr "cpu"%string p h wls is 1 rs lf v /\ mie_ab sj sy jr p wls NNone 1 None h = (h', Ok m) /\ List.length wls = 3 /\ shp (m_a m) <> [3; 1].
Proof. exact one_order_witness. Qed.
Print Assumptions C61_any_order_refuted.

(** C62 *)
Theorem C62_order_kept : forall (T G E D : Type) (ss : list (@gpm T G E D)) s0 env dev (gs : list G),
  nth_error ss 0 = Some s0 -> (forall s, In s ss -> shp (gp_r0 s) = shp (gp_r0 s0)) ->
  List.length gs = List.length ss -> (forall i s g, nth_error ss i = Some s -> nth_error gs i = Some g -> gp_dict s = One g \/ gp_dict s = Several [g]) ->
  exists c, combine_gpm ss env dev = Ok c /\ cb_dicts c = gs /\ shp (cb_pos c) = List.length ss :: shp (gp_r0 s0) /\
    (forall i s ix, nth_error ss i = Some s -> at_ (cb_pos c) (i :: ix) = at_ (gp_r0 s) ix) /\
    cb_env c = match env with Some e => e | None => gp_env s0 end /\ cb_dev c = match dev with Some d => d | None => gp_dev s0 end.
Proof. exact @combine_ok. Qed.
Print Assumptions C62_order_kept.
Theorem C62_rejections : forall (T G E D : Type) (ss : list (@gpm T G E D)) env dev,
  (ss = [] -> combine_gpm ss env dev = Err ValueError) /\
  ((exists s l, In s ss /\ gp_dict s = Several l /\ List.length l <> 1) ->
   (forall s s', In s ss -> In s' ss -> shp (gp_r0 s) = shp (gp_r0 s')) -> combine_gpm ss env dev = Err ValueError) /\
  (forall s s', In s ss -> In s' ss -> shp (gp_r0 s) <> shp (gp_r0 s') -> combine_gpm ss env dev = Err RuntimeError).
Proof. exact @combine_rejects. Qed.
Print Assumptions C62_rejections.
Example C62_instance : exists c, combine_gpm [ {| gp_r0 := vec_t 0 [1; 2; 3]; gp_dict := One 7; gp_env := 1; gp_dev := 2 |};
                                               {| gp_r0 := vec_t 0 [4; 5; 6]; gp_dict := Several [8]; gp_env := 3; gp_dev := 4 |} ] None (Some 9) = Ok c /\
  cb_dicts c = [7; 8] /\ at_ (cb_pos c) [1; 2] = 6 /\ cb_env c = 1 /\ cb_dev c = 9.
Proof. eexists. split; [reflexivity|]. repeat split. Qed.

(** C63: [rank mask j] counts the slots before j. *)
Theorem C63_zero_fill : forall n mask (vals : list C), List.length mask <= n -> count_occ bool_dec mask true <= List.length vals ->
  exists r, @zero_fill R ROps n mask vals = Ok r /\ List.length r = n /\
    forall j, j < n -> nth j r (RtoC 0) = if nth j mask false then nth (rank mask j) vals (RtoC 0) else RtoC 0.
Proof. exact zero_fill_ok. Qed.
Print Assumptions C63_zero_fill.
(** C63: read back through the mask, the values are the given ones, in order. *)
Theorem C63_read_back : forall mask (vals : list C), count_occ bool_dec mask true = List.length vals ->
  exists r, @zero_fill R ROps (List.length mask) mask vals = Ok r /\ map snd (filter fst (combine mask r)) = vals.
Proof. exact zero_fill_back. Qed.
Print Assumptions C63_read_back.
Theorem C63_too_few_values : forall n mask (vals : list C), List.length vals < count_occ bool_dec mask true -> @zero_fill R ROps n mask vals = Err RuntimeError.
Proof. exact zero_fill_short. Qed.
Print Assumptions C63_too_few_values.
Example C63_instance : @zero_fill R ROps 4 [true; false; false; true] [RtoC 5; RtoC 6] = Ok [RtoC 5; RtoC 0; RtoC 0; RtoC 6].
Proof. reflexivity. Qed.

(** C76: the block (i, j) of the patched interaction matrix is G_ij alpha_j, with the self term in place of G_ii. *)
Theorem C76_blocks : forall (alphas selfs : list (@sqmat R)) (G : @sqmat R), sizes selfs = sizes alphas -> sq_n G = total alphas ->
  exists M, @g_dot_alpha R ROps alphas selfs G = Ok M /\ sq_n M = total alphas /\
    forall i j r c, i < List.length alphas -> j < List.length alphas -> r < sq_n (nth i alphas zero_block) -> c < sq_n (nth j alphas zero_block) ->
      sq_at M (offset alphas i + r) (offset alphas j + c) =
      sumC (sq_n (nth j alphas zero_block)) (fun t =>
        ((if (i =? j)%nat then sq_at (nth i selfs zero_block) r t else sq_at G (offset alphas i + r)%nat (offset alphas j + t)%nat) * sq_at (nth j alphas zero_block) t c)%C).
Proof. exact gda_ok. Qed.
Print Assumptions C76_blocks.
(** C76: every entry belongs to one block. *)
Theorem C76_blocks_cover : forall (bs : list (@sqmat R)) t, t < total bs -> exists i r, i < List.length bs /\ r < sq_n (nth i bs zero_block) /\ t = offset bs i + r.
Proof. exact locate. Qed.
Print Assumptions C76_blocks_cover.
Example C76_instance : exists M, @g_dot_alpha R ROps [{| sq_n := 1; sq_at := fun _ _ => RtoC 2 |}; {| sq_n := 2; sq_at := fun i j => if (i =? j)%nat then RtoC 3 else RtoC 0 |}]
    [{| sq_n := 1; sq_at := fun _ _ => RtoC 10 |}; {| sq_n := 2; sq_at := fun _ _ => RtoC 20 |}] {| sq_n := 3; sq_at := fun i j => RtoC (INR (i + j)) |} = Ok M /\
  sq_at M 0 0 = RtoC 20 /\ sq_at M 0 2 = RtoC 6.
Proof.
  destruct (C76_blocks [{| sq_n := 1; sq_at := fun _ _ => RtoC 2 |}; {| sq_n := 2; sq_at := fun i j => if (i =? j)%nat then RtoC 3 else RtoC 0 |}]
    [{| sq_n := 1; sq_at := fun _ _ => RtoC 10 |}; {| sq_n := 2; sq_at := fun _ _ => RtoC 20 |}] {| sq_n := 3; sq_at := fun i j => RtoC (INR (i + j)) |} eq_refl eq_refl) as (M & E & _ & H).
  exists M. split; [exact E|]. split.
  - etransitivity; [apply (H 0 0 0 0); cbn; lia|]. cbn. apply injective_projections; cbn; ring.
  - etransitivity; [apply (H 0 1 0 1); cbn; lia|]. cbn. apply injective_projections; cbn; ring.
Qed.
