(** Properties C15, C27, C29-C36, C69-C71: batching, broadcasting, truncation. *)
From Coq Require Import Reals ZArith List Bool String Arith Lia Lra.
From Coquelicot Require Import Complex.
From Verif Require Import Ops ROps Tensor TensorProofs ModelSpecial ModelMie ModelBatch ModelObs BroadcastSpec BroadcastProofs
  BatchReal LegacyProofs TruncProofs TruncReal ScaleProofs ScaleObs ObsProofs AngleProofs ExampleBatch.
Import ListNotations.
Open Scope nat_scope.
Open Scope list_scope.

(** C15: scaling radii by s and wavenumbers by 1/s.  [up_call], [up_out], [up_x]
    multiply lengths by s, k and k0 by 1/s, cross sections by s*s and leave
    everything else alone; [rmap] leaves errors alone. *)
Theorem C15_scale_invariance : forall (s : R), (0 < s)%R -> forall sj sy jr (c : @call R) (theta : tensor R),
  mie_coefficients sj sy jr (up_call s c) = rmap (up_out s) (mie_coefficients sj sy jr c) /\
  forall o : @output R,
    (o_n_max (up_out s o), o_a (up_out s o), o_b (up_out s o)) = (o_n_max o, o_a o, o_b o) /\
    cross_sections (up_out s o) = rmap (up_x s) (cross_sections o) /\
    angular_scattering theta (up_out s o) = angular_scattering theta o.
Proof.
  exact (fun s Hs sj sy jr c theta => conj (mie_up s Hs sj sy jr c)
    (fun o => conj eq_refl (conj (cross_sections_up s Hs o) (angular_up s theta o)))).
Qed.
Print Assumptions C15_scale_invariance.
Theorem C15_scale_entries : forall (s : R) (x : @xsections R) (ix : list nat),
  at_ (x_cs_ext (up_x s x)) ix = (s * s * at_ (x_cs_ext x) ix)%R /\
  at_ (x_cs_sca (up_x s x)) ix = (s * s * at_ (x_cs_sca x) ix)%R /\
  at_ (x_cs_abs (up_x s x)) ix = (s * s * at_ (x_cs_abs x) ix)%R /\
  x_q_ext (up_x s x) = x_q_ext x /\ x_q_sca (up_x s x) = x_q_sca x /\ x_q_abs (up_x s x) = x_q_abs x.
Proof. exact (fun s x ix => conj eq_refl (conj eq_refl (conj eq_refl (conj eq_refl (conj eq_refl eq_refl))))). Qed.
Print Assumptions C15_scale_entries.
Example C15_instance : at_ (match a_r_layers (up_call 5 (ex_call "pena" None)) with Some t => t | None => ex_r end) [1; 1] = (5 * 3)%R /\
  at_ (a_k0 (up_call 5 (ex_call "pena" None))) [1] = (2 / 5)%R.
Proof. exact (conj eq_refl eq_refl). Qed.

(** C27: each particle/wavelength of a batched call is computed as if alone. *)
Theorem C27_batch_is_elementwise : forall sj sy jr (c : @call R) r eps K P L ef vf n,
  backend_is c "pena" -> a_internal c = false -> a_n_max c = Some n -> (1 <= n)%Z ->
  inputs_of c = Ok (r, eps) -> valid (a_k0 c) r eps (a_env c) K P L ef vf -> 1 <= L ->
  exists o, mie_coefficients sj sy jr c = Ok o /\ shp (o_a o) = [Z.to_nat n; P; K] /\ shp (o_b o) = [Z.to_nat n; P; K] /\
    forall p k, p < P -> k < K ->
      exists o', mie_coefficients sj sy jr (single_call c (element (a_k0 c) r eps (a_env c) ef vf L p k)) = Ok o' /\
        shp (o_a o') = [Z.to_nat n; 1; 1] /\ shp (o_b o') = [Z.to_nat n; 1; 1] /\
        forall i, i < Z.to_nat n ->
          at_ (o_a o) [i; p; k] = at_ (o_a o') [i; 0; 0] /\ at_ (o_b o) [i; p; k] = at_ (o_b o') [i; 0; 0].
Proof. exact pena_batch_single. Qed.
Print Assumptions C27_batch_is_elementwise.
Example C27_instance : backend_is (ex_call "PENA" (Some 4%Z)) "pena" /\ inputs_of (ex_call "PENA" (Some 4%Z)) = Ok (ex_r, ex_eps) /\
  valid (a_k0 (ex_call "PENA" (Some 4%Z))) ex_r ex_eps (a_env (ex_call "PENA" (Some 4%Z))) 3 2 2 (fun p l _ => [p; l]) (fun _ => []).
Proof. exact (conj eq_refl (conj eq_refl (ex_valid _ _))). Qed.

(** C29: accepted layouts are exactly the documented ones, with the documented
    meaning ([valid], [eps_layout], [env_layout] in BroadcastSpec). *)
Theorem C29_layouts_accepted : forall k0 r eps env K P L ef vf, valid k0 r eps env K P L ef vf ->
  exists b, broadcast_mie_layers k0 r eps env = Ok b /\
    is2 (c_k0 b) 1 K (fun _ k => nth k (entries k0) 0%R) /\
    is2 (c_r b) P L (fun p l => at_ r (r_ix (shp r) p l)) /\
    is3 (c_eps b) P L K (fun p l k => at_ eps (ef p l k)) /\
    is2 (c_env b) 1 K (fun _ k => at_ env (vf k)) /\
    is2 (c_n_env b) 1 K (fun _ k => csqrt (at_ env (vf k))).
Proof. exact broadcast_accepts. Qed.
Print Assumptions C29_layouts_accepted.
Theorem C29_layouts_rejected : forall k0 r eps env, (forall K P L ef vf, ~ valid k0 r eps env K P L ef vf) ->
  broadcast_mie_layers k0 r eps env = Err ValueError.
Proof. exact broadcast_rejects. Qed.
Print Assumptions C29_layouts_rejected.
Example C29_instance : eps_layout 2 3 5 [2; 3] <> None /\ eps_layout 2 3 5 [3; 5] <> None /\ eps_layout 2 3 5 [1; 3; 5] <> None /\
  eps_layout 2 3 5 [2; 3; 1] <> None /\ eps_layout 2 3 5 [3] <> None /\ eps_layout 2 3 5 [3; 2] = None /\ eps_layout 2 3 5 [2] = None.
Proof. cbn. repeat split; discriminate. Qed.

(** C30: false as stated.  When N_part = L = N_k0 a spectral (L, N_k0) table is
    read as per-particle constants; in all other cases it is read correctly. *)
Theorem C30_spectral_layout_refuted : exists (k0 r : tensor R) (eps env : tensor (cplx R)) (b : @config R),
  shp k0 = [2] /\ shp r = [2; 2] /\ shp eps = [2; 2] /\ broadcast_mie_layers k0 r eps env = Ok b /\
  at_ (c_eps b) [0; 1; 0] = RtoC 3 /\ at_ eps [1; 0] = RtoC 4 /\ RtoC 3 <> RtoC 4.
Proof. exact (let (b, H) := square_ambiguous in ex_intro _ sq_k0 (ex_intro _ ex_r (ex_intro _ ex_eps (ex_intro _ (cs 1) (ex_intro _ b (conj eq_refl (conj eq_refl (conj eq_refl H)))))))). Qed.
Print Assumptions C30_spectral_layout_refuted.
Theorem C30_spectral_layout_otherwise : forall k0 r eps env K P L vf,
  k0_len (shp k0) = Some K -> r_dims (shp r) = Some (P, L) -> env_layout K (shp env) = Some vf ->
  (forall p l, p < P -> S l < L -> (at_ r (r_ix (shp r) p l) < at_ r (r_ix (shp r) p (S l)))%R) ->
  shp eps = [L; K] -> ~ (P = L /\ L = K) ->
  exists b, broadcast_mie_layers k0 r eps env = Ok b /\ is3 (c_eps b) P L K (fun _ l k => at_ eps [l; k]).
Proof. exact layout_2d_spectral. Qed.
Print Assumptions C30_spectral_layout_otherwise.
Theorem C30_square_layout : forall k0 r eps env K vf,
  k0_len (shp k0) = Some K -> r_dims (shp r) = Some (K, K) -> env_layout K (shp env) = Some vf ->
  (forall p l, p < K -> S l < K -> (at_ r (r_ix (shp r) p l) < at_ r (r_ix (shp r) p (S l)))%R) ->
  shp eps = [K; K] ->
  exists b, broadcast_mie_layers k0 r eps env = Ok b /\ is3 (c_eps b) K K K (fun p l _ => at_ eps [p; l]).
Proof. exact layout_2d_square. Qed.
Print Assumptions C30_square_layout.
Example C30_instance : r_dims (shp ex_r) = Some (2, 2) /\ k0_len (shp ex_k0) = Some 3 /\ ~ (2 = 2 /\ 2 = 3).
Proof. split; [reflexivity|]. split; [reflexivity|lia]. Qed.

(** C31: invalid calls raise ValueError and never return coefficients. *)
Theorem C31_invalid_rejected : forall sj sy jr (c : @call R),
  (~ known (lower (a_backend c)) -> mie_coefficients sj sy jr c = Err ValueError) /\
  (known (lower (a_backend c)) ->
    ((a_r_layers c = None <-> a_eps_layers c <> None) \/
     (a_r_layers c = None /\ a_eps_layers c = None /\ (a_r_c c = None \/ a_eps_c c = None)) ->
       mie_coefficients sj sy jr c = Err ValueError) /\
    (forall r eps, inputs_of c = Ok (r, eps) -> (forall K P L ef vf, ~ valid (a_k0 c) r eps (a_env c) K P L ef vf) ->
       mie_coefficients sj sy jr c = Err ValueError)) /\
  (forall o, mie_coefficients sj sy jr c = Ok o -> known (lower (a_backend c)) /\
     exists r eps K P L ef vf, inputs_of c = Ok (r, eps) /\ valid (a_k0 c) r eps (a_env c) K P L ef vf).
Proof.
  exact (fun sj sy jr c => conj (mie_bad_backend sj sy jr c) (conj (fun Hk => conj (missing_layers sj sy jr c Hk)
    (fun r eps => mie_bad_config sj sy jr c r eps Hk)) (mie_ok_sane sj sy jr c))).
Qed.
Print Assumptions C31_invalid_rejected.
Example C31_instance : ~ known (lower "numpy") /\ known (lower "Torch") /\
  forall K P L ef vf, ~ valid (rv [1]%R) (rv [2; 1]%R) (cv [2; 3]%R) (cs 1) K P L ef vf.
Proof.
  split; [cbn; unfold known; intuition discriminate|]. split; [left; reflexivity|].
  intros K P L ef vf [_ H1 H2 _ _]. injection H1 as <- <-. specialize (H2 0 0 ltac:(lia) ltac:(lia)). cbn in H2. lra.
Qed.

(** C32: legacy core/shell arguments give the same configuration. *)
Theorem C32_legacy_core_shell : forall N K (rc rs : tensor R) (ec es : tensor (cplx R)) k0 env vf (r : tensor R) (e : tensor (cplx R)), 1 <= N ->
  shp rc = [N] -> shp rs = [N] -> shp ec = [N; K] -> shp es = [N; K] -> (forall p, p < N -> (at_ rc [p] < at_ rs [p])%R) ->
  k0_len (shp k0) = Some K -> env_layout K (shp env) = Some vf ->
  shp r = [N; 2] -> (forall p, p < N -> at_ r [p; 0] = at_ rc [p] /\ at_ r [p; 1] = at_ rs [p]) ->
  shp e = [N; 2; K] -> (forall p k, p < N -> k < K -> at_ e [p; 0; k] = at_ ec [p; k] /\ at_ e [p; 1; k] = at_ es [p; k]) ->
  exists r1 e1 b1 b2, as_layer_inputs (Some rc) (Some rs) (Some ec) (Some es) None None = Ok (r1, e1) /\
    broadcast_mie_layers k0 r1 e1 env = Ok b1 /\ broadcast_mie_layers k0 r e env = Ok b2 /\ config_eq b1 b2.
Proof. exact legacy_shell_same. Qed.
Print Assumptions C32_legacy_core_shell.
Theorem C32_legacy_sphere : forall N K (rc : tensor R) (ec : tensor (cplx R)) k0 env vf (r : tensor R) (e : tensor (cplx R)),
  shp rc = [N] -> shp ec = [N; K] -> k0_len (shp k0) = Some K -> env_layout K (shp env) = Some vf ->
  shp r = [N; 1] -> (forall p, p < N -> at_ r [p; 0] = at_ rc [p]) ->
  shp e = [N; 1; K] -> (forall p k, p < N -> k < K -> at_ e [p; 0; k] = at_ ec [p; k]) ->
  exists r1 e1 b1 b2, as_layer_inputs (Some rc) None (Some ec) None None None = Ok (r1, e1) /\
    broadcast_mie_layers k0 r1 e1 env = Ok b1 /\ broadcast_mie_layers k0 r e env = Ok b2 /\ config_eq b1 b2.
Proof. exact legacy_sphere_same. Qed.
Print Assumptions C32_legacy_sphere.
Example C32_instance : shp (rv [1; 1])%R = [2] /\ shp (cm [[2; 2; 2]; [3; 3; 3]])%R = [2; 3] /\ k0_len (shp ex_k0) = Some 3 /\
  env_layout 3 (shp (cs 1)) <> None /\ (forall p, p < 2 -> (at_ (rv [1; 1]) [p] < at_ (rv [2; 3]) [p])%R).
Proof.
  split; [reflexivity|]. split; [reflexivity|]. split; [reflexivity|]. split; [discriminate|].
  intros [|[|p]] Hp; cbn; lra || lia.
Qed.

(** C33: false for one particle, true for two or more. *)
Theorem C33_legacy_constants_refuted : exists c : @call R,
  shp (match a_r_c c with Some t => t | None => a_k0 c end) = [1] /\ k0_len (shp (a_k0 c)) = Some 2 /\
  option_map shp (a_eps_c c) = Some [1] /\ option_map shp (a_eps_s c) = Some [1] /\
  forall sj sy jr, mie_coefficients sj sy jr c = Err ValueError.
Proof. exact (ex_intro _ (one_call "pena" None) (conj eq_refl (conj eq_refl (conj eq_refl (conj eq_refl (fun sj sy jr => one_rejected sj sy jr "pena" None (or_intror (or_intror eq_refl)))))))). Qed.
Print Assumptions C33_legacy_constants_refuted.
Theorem C33_legacy_constants_one : forall K (rc rs : tensor R) (ec es : tensor (cplx R)) k0 env, 2 <= K ->
  shp rc = [1] -> shp rs = [1] -> shp ec = [1] -> shp es = [1] -> (at_ rc [0%nat] < at_ rs [0%nat])%R -> k0_len (shp k0) = Some K ->
  exists r e, as_layer_inputs (Some rc) (Some rs) (Some ec) (Some es) None None = Ok (r, e) /\
    broadcast_mie_layers k0 r e env = Err ValueError.
Proof. exact legacy_const_one. Qed.
Print Assumptions C33_legacy_constants_one.
Theorem C33_legacy_constants_many : forall N K (rc rs : tensor R) (ec es : tensor (cplx R)) k0 env vf, 2 <= N ->
  shp rc = [N] -> shp rs = [N] -> shp ec = [N] -> shp es = [N] -> (forall p, p < N -> (at_ rc [p] < at_ rs [p])%R) ->
  k0_len (shp k0) = Some K -> env_layout K (shp env) = Some vf ->
  exists r e b, as_layer_inputs (Some rc) (Some rs) (Some ec) (Some es) None None = Ok (r, e) /\
    broadcast_mie_layers k0 r e env = Ok b /\ shp (c_eps b) = [N; 2; K] /\
    forall p k, p < N -> k < K -> at_ (c_eps b) [p; 0; k] = at_ ec [p] /\ at_ (c_eps b) [p; 1; k] = at_ es [p].
Proof. exact legacy_const_many. Qed.
Print Assumptions C33_legacy_constants_many.
Example C33_instance : forall p, p < 2 -> (at_ (rv [1; 1]) [p] < at_ (rv [2; 3]) [p])%R.
Proof. intros [|[|p]] Hp; cbn; lra || lia. Qed.

(** C34: false; a mixed batch is rejected, always. *)
Theorem C34_mixed_batch_refuted : exists c : @call R,
  (exists rc rs, a_r_c c = Some rc /\ a_r_s c = Some rs /\ shp rc = [2] /\ shp rs = [2] /\
     forall p, p < 2 -> (0 < at_ rc [p] <= at_ rs [p])%R) /\
  forall sj sy jr, mie_coefficients sj sy jr c = Err ValueError.
Proof.
  refine (ex_intro _ (mixed_call "pena" None) (conj _ (fun sj sy jr => mixed_rejected sj sy jr "pena" None (or_intror (or_intror eq_refl))))).
  exists (rv [1; 1]%R), (rv [1; 2]%R). repeat split; try reflexivity; destruct p as [|[|p]]; cbn; lra || lia.
Qed.
Print Assumptions C34_mixed_batch_refuted.
Theorem C34_mixed_batch_always : forall N (rc rs : tensor R), shp rc = [N] -> shp rs = [N] ->
  forall k0 (ec es env : tensor (cplx R)) p q r e, p < N -> q < N -> at_ rc [p] = at_ rs [p] -> at_ rc [q] <> at_ rs [q] ->
  as_layer_inputs (Some rc) (Some rs) (Some ec) (Some es) None None = Ok (r, e) -> broadcast_mie_layers k0 r e env = Err ValueError.
Proof. exact legacy_mixed. Qed.
Print Assumptions C34_mixed_batch_always.

(** C35: automatic truncation. [covers b n e L]: n >= Wiscombe count, n >= 1, and for
    'pena' n >= 16, n >= count + 15 and n >= |m_l x_l| + 14 for every layer. *)
Theorem C35_truncation_covers : forall sj sy jr (c : @call R) o r eps K P L ef vf,
  mie_coefficients sj sy jr c = Ok o -> a_n_max c = None -> inputs_of c = Ok (r, eps) -> valid (a_k0 c) r eps (a_env c) K P L ef vf ->
  0 < P -> 0 < L -> 0 < K ->
  forall p k, p < P -> k < K -> covers (lower (a_backend c)) (o_n_max o) (element (a_k0 c) r eps (a_env c) ef vf L p k) L.
Proof. exact auto_covers. Qed.
Print Assumptions C35_truncation_covers.
Theorem C35_truncation_monotone : forall sj sy jr (c c' : @call R) o o' r eps K P L ef vf r' eps' K' P' ef' vf',
  mie_coefficients sj sy jr c = Ok o -> mie_coefficients sj sy jr c' = Ok o' ->
  lower (a_backend c) = lower (a_backend c') -> a_n_max c = None -> a_n_max c' = None ->
  inputs_of c = Ok (r, eps) -> valid (a_k0 c) r eps (a_env c) K P L ef vf ->
  inputs_of c' = Ok (r', eps') -> valid (a_k0 c') r' eps' (a_env c') K' P' L ef' vf' ->
  0 < P -> 0 < L -> 0 < K ->
  (forall p k, p < P -> k < K -> exists p' k', p' < P' /\ k' < K' /\
     element (a_k0 c) r eps (a_env c) ef vf L p k = element (a_k0 c') r' eps' (a_env c') ef' vf' L p' k') ->
  (o_n_max o <= o_n_max o')%Z.
Proof. exact auto_monotone. Qed.
Print Assumptions C35_truncation_monotone.
Theorem C35_pena_returns : forall sj sy jr (c : @call R) r eps K P L ef vf,
  backend_is c "pena" -> a_internal c = false -> a_n_max c = None -> inputs_of c = Ok (r, eps) ->
  valid (a_k0 c) r eps (a_env c) K P L ef vf -> 0 < P -> 0 < L -> 0 < K ->
  exists o, mie_coefficients sj sy jr c = Ok o.
Proof. exact auto_pena_returns. Qed.
Print Assumptions C35_pena_returns.
Example C35_instance : a_n_max (ex_call "pena" None) = None /\
  valid (a_k0 (ex_call "pena" None)) ex_r ex_eps (a_env (ex_call "pena" None)) 3 2 2 (fun p l _ => [p; l]) (fun _ => []).
Proof. exact (conj eq_refl (ex_valid _ _)). Qed.

(** C36: the Wiscombe count is monotone. *)
Theorem C36_wiscombe_monotone : forall x y : R, (0 <= x <= y)%R ->
  (Rround (@wiscombe_raw R ROps x) <= Rround (@wiscombe_raw R ROps y))%Z.
Proof. exact wiscombe_mono. Qed.
Print Assumptions C36_wiscombe_monotone.
Example C36_instance : (0 <= 4199 <= 4200)%R /\ (0 <= 7 <= 9)%R. Proof. lra. Qed.

(** C69: batched cross sections are the scalar formulas, entry by entry. *)
Theorem C69_batched_cross_sections : forall (o : @output R) N P K, obs_shapes o N P K ->
  let kv k := at_ (o_k o) [0; k] in
  let rv p k := at_ (o_r_s o) [p; k] in
  let a p k := column (o_a o) p k in let b p k := column (o_b o) p k in
  exists x, cross_sections o = Ok x /\ x_n_max x = o_n_max o /\
    is2 (x_cs_ext x) P K (fun p k => cs_ext N (kv k) (a p k) (b p k)) /\
    is2 (x_cs_sca x) P K (fun p k => cs_sca N (kv k) (a p k) (b p k)) /\
    is2 (x_cs_abs x) P K (fun p k => cs_abs N (kv k) (a p k) (b p k)) /\
    is2 (x_q_ext x) P K (fun p k => q_ext N (kv k) (rv p k) (a p k) (b p k)) /\
    is2 (x_q_sca x) P K (fun p k => q_sca N (kv k) (rv p k) (a p k) (b p k)) /\
    is2 (x_q_abs x) P K (fun p k => q_abs N (kv k) (rv p k) (a p k) (b p k)) /\
    is3 (x_geo x) 1 P K (fun _ p k => cs_geo (rv p k)) /\
    is4 (x_cs_ext_mp x) 2 N P K (fun t i p k => cs_ext_multipole (kv k) (a p k) (b p k) (negb (t =? 0)) (S i)) /\
    is4 (x_cs_sca_mp x) 2 N P K (fun t i p k => cs_sca_multipole (kv k) (a p k) (b p k) (negb (t =? 0)) (S i)) /\
    is4 (x_cs_abs_mp x) 2 N P K (fun t i p k => cs_abs_multipole (kv k) (a p k) (b p k) (negb (t =? 0)) (S i)) /\
    is4 (x_q_ext_mp x) 2 N P K (fun t i p k => q_ext_multipole (kv k) (rv p k) (a p k) (b p k) (negb (t =? 0)) (S i)) /\
    is4 (x_q_sca_mp x) 2 N P K (fun t i p k => q_sca_multipole (kv k) (rv p k) (a p k) (b p k) (negb (t =? 0)) (S i)) /\
    is4 (x_q_abs_mp x) 2 N P K (fun t i p k => q_abs_multipole (kv k) (rv p k) (a p k) (b p k) (negb (t =? 0)) (S i)).
Proof. exact cross_sections_ok. Qed.
Print Assumptions C69_batched_cross_sections.
Example C69_instance : obs_shapes wit_o 2 1 1.
Proof. exact wit_shapes. Qed.

(** C70: batched amplitudes for a 1-D list of angles are the scalar formulas. *)
Theorem C70_batched_amplitudes : forall (o : @output R) (theta : tensor R) N P K Q, obs_shapes o N P K -> 1 <= N -> shp theta = [Q] ->
  let th q := at_ theta [q] in
  let a p k := column (o_a o) p k in let b p k := column (o_b o) p k in
  exists s, angular_scattering theta o = Ok s /\
    is3 (s_S1 s) P K Q (fun p k q => S1 N (a p k) (b p k) (th q)) /\
    is3 (s_S2 s) P K Q (fun p k q => S2 N (a p k) (b p k) (th q)) /\
    is3 (s_i_per s) P K Q (fun p k q => i_per N (a p k) (b p k) (th q)) /\
    is3 (s_i_par s) P K Q (fun p k q => i_par N (a p k) (b p k) (th q)) /\
    is3 (s_i_unpol s) P K Q (fun p k q => i_unpol N (a p k) (b p k) (th q)) /\
    is3 (s_pol_degree s) P K Q (fun p k q => pol_degree N (a p k) (b p k) (th q)).
Proof. exact angular_ok. Qed.
Print Assumptions C70_batched_amplitudes.
Example C70_instance : obs_shapes wit_o 2 1 1 /\ shp (rv [0; 1; 2])%R = [3].
Proof. exact (conj wit_shapes eq_refl). Qed.

(** C71: false.  A scalar angle mixes the multipole orders: for two orders with
    a = (1, 1), b = 0 in the forward direction the amplitude is 4, the call
    returns the two numbers 7/3 and 7. *)
Theorem C71_scalar_angle_refuted : exists (o : @output R) s, obs_shapes o 2 1 1 /\ angular_scattering (scalar_t 0%R) o = Ok s /\
  shp (s_S1 s) = [2; 1; 1] /\ at_ (s_S1 s) [0; 0; 0] = RtoC (7/3) /\ at_ (s_S1 s) [1; 0; 0] = RtoC 7 /\
  S1 2 (column (o_a o) 0 0) (column (o_b o) 0 0) 0%R = RtoC 4.
Proof. exact (let (s, H) := angular_scalar_wrong in ex_intro _ wit_o (ex_intro _ s (conj wit_shapes H))). Qed.
Print Assumptions C71_scalar_angle_refuted.
Theorem C71_scalar_angle_value : forall (o : @output R) (th : R) N K, obs_shapes o N 1 K -> 1 <= N ->
  let a k := column (o_a o) 0 k in let b k := column (o_b o) 0 k in
  exists s, angular_scattering (scalar_t th) o = Ok s /\
    is3 (s_S1 s) N K 1 (fun j k _ => csum (map (fun n => cmul (ang_w n) (cadd (cmul (a k n) (cofr (pi_n (mu th) (S j)))) (cmul (b k n) (cofr (tau_n (mu th) (S j)))))) (orders N))).
Proof. exact angular_scalar. Qed.
Print Assumptions C71_scalar_angle_value.
