(** Property C95: derivatives through material permittivities. *)
From Coq Require Import Reals ZArith Lra Lia List Arith String.
From Coquelicot Require Import Coquelicot.
From Verif Require Import Ops ROps Spec Tensor ModelMaterial ModelSpecial ModelMie ModelGrad GradSpec ModelGradMat GradMatSpec GradMatEnd GradMatNode ExampleGradMat.
Import ListNotations.
Open Scope R_scope.

(** C95: interp1d on (value, tangent) pairs returns the derivative of the interpolant wherever the point is not a sample ... *)
Theorem C95_interp : forall (t0 : R) (rows : list (R * C)) (x : R -> R) (d : dual), rows <> [] -> NoDup (map fst rows) -> ~ In (x t0) (map fst rows) ->
  carries t0 x d ->
  ccarries t0 (fun t => @interp_at R ROps (@sort_rows R ROps rows) (x t)) (@interp_at dual DOps (@sort_rows dual DOps (lift_rows rows)) d).
Proof. exact interp_table. Qed.
Print Assumptions C95_interp.
(** ... at a sample it returns the slope of the interval to the left, and 0 at the first one. *)
Theorem C95_node : forall (rows : list (R * C)), NoDup (map fst rows) -> forall a b (dx : R), In a rows -> In b rows -> fst a < fst b ->
  (forall c, In c rows -> ~ fst a < fst c < fst b) ->
  @interp_at dual DOps (@sort_rows dual DOps (lift_rows rows)) (fst b, dx) = mkd (snd b) ((snd b - snd a) / RtoC (fst b - fst a) * RtoC dx)%C.
Proof. exact node. Qed.
Print Assumptions C95_node.
Theorem C95_first_node : forall (rows : list (R * C)), NoDup (map fst rows) -> forall b (dx : R), In b rows -> (forall c, In c rows -> fst b <= fst c) ->
  @interp_at dual DOps (@sort_rows dual DOps (lift_rows rows)) (fst b, dx) = mkd (snd b) (RtoC 0).
Proof. exact first_node. Qed.
Print Assumptions C95_first_node.
(** There no tangent could be right: *)
Theorem C95_kink_refuted : exists (rows : list (R * C)) (x : R), rows <> [] /\ NoDup (map fst rows) /\
  forall d, ~ ccarries x (fun t => @interp_at R ROps (@sort_rows R ROps rows) t) d.
Proof. exact kink_refuted. Qed.
Print Assumptions C95_kink_refuted.
(** get_epsilon of a table or a dispersion formula at a wavelength that is not cached returns the derivative of the permittivity ... *)
Theorem C95_material : forall (t0 : R) (m : @db R) (cache : list (dual * @value dual)) (x : R -> R) (d : dual) (s : option nat),
  smooth_material (Db m) (x t0) -> carries t0 x d -> (forall q, In q cache -> fst (fst q) <> fst d) ->
  exists v, @get_epsilon_db dual DOps (lift_db m cache) (dual_wl d s) = (lift_db m ((d, v) :: cache), Ok (scalar_t v)) /\
    ccarries t0 (fun t => mat_eps (Db m) (x t)) (v_eps v).
Proof. exact material. Qed.
Print Assumptions C95_material.
(** ... also for several different wavelengths at once. *)
Theorem C95_vector : forall (t0 : R) (m : @db R) (cache : list (dual * @value dual)) (xs : list (R -> R)) (ds : list dual) (s : option nat),
  (2 <= List.length ds)%nat -> Forall2 (carries t0) xs ds -> List.Forall (fun x => smooth_material (Db m) (x t0)) xs -> NoDup (map fst ds) ->
  (forall d, In d ds -> forall q, In q cache -> fst (fst q) <> fst d) ->
  exists vs u cache', @get_epsilon_db dual DOps (lift_db m cache) {| wa_t := vec_t rzero ds; wa_src := s |} = (lift_db m cache', Ok (vec_t u vs)) /\
    Forall2 (fun x v => ccarries t0 (fun t => mat_eps (Db m) (x t)) (v_eps v)) xs vs.
Proof. exact vector. Qed.
Print Assumptions C95_vector.
(** A wavelength that occurred before gets the value of the first call with the tangent of the first call, ... *)
Theorem C95_memo : forall (m : @db R) (cache : list (dual * @value dual)) (d d' : dual) (s s' : option nat) (v : @value dual) m',
  (forall q, In q cache -> fst (fst q) <> fst d) -> fst d' = fst d ->
  @get_epsilon_db dual DOps (lift_db m cache) (dual_wl d s) = (m', Ok (scalar_t v)) ->
  snd (@get_epsilon_db dual DOps m' (dual_wl d' s')) = Ok (scalar_t v).
Proof. exact memo_tangent. Qed.
Print Assumptions C95_memo.
(** ... which is not the derivative for a second call, ... *)
Theorem C95_memo_refuted : exists (m : @db R) (t0 : R) (d d' : dual) s m' v,
  smooth_material (Db m) t0 /\ carries t0 (fun t => t) d' /\ fst d = fst d' /\
  @get_epsilon_db dual DOps (lift_db m []) (dual_wl d s) = (m', Ok (scalar_t v)) /\
  snd (@get_epsilon_db dual DOps m' (dual_wl d' s)) = Ok (scalar_t v) /\
  ~ ccarries t0 (fun t => mat_eps (Db m) t) (v_eps v).
Proof. exact memo_refuted. Qed.
Print Assumptions C95_memo_refuted.
(** ... nor for equal wavelengths in one vector. *)
Theorem C95_duplicate_refuted : exists (m : @db R) (t0 : R) (xs : list (R -> R)) (ds : list dual) m' u vs,
  Forall2 (carries t0) xs ds /\ List.Forall (fun x => smooth_material (Db m) (x t0)) xs /\
  @get_epsilon_db dual DOps (lift_db m []) {| wa_t := vec_t rzero ds; wa_src := None |} = (m', Ok (vec_t u vs)) /\
  ~ Forall2 (fun x v => ccarries t0 (fun t => mat_eps (Db m) (x t)) (v_eps v)) xs vs.
Proof. exact duplicate_refuted. Qed.
Print Assumptions C95_duplicate_refuted.
(** The efficiencies of a particle made of dispersive materials: differentiating through wl0 = 2 pi / k0, the materials and the
    pena pipeline gives the true slope of the spectrum. *)
Theorem C95_spectrum : forall (t0 : R) (n_max : nat) (k0 : R -> R) (dk : dual) (m_env : @mat R) (core : R * @mat R) (shells : list (R * @mat R)),
  carries t0 k0 dk -> k0 t0 <> 0 -> fst (last shells core) <> 0 ->
  (forall m, In m (m_env :: snd core :: map snd shells) -> smooth_material m (2 * PI / k0 t0)) ->
  smooth_particle n_max (k0 t0) (mat_eps m_env (2 * PI / k0 t0)) (mat_layer (k0 t0) core) (map (mat_layer (k0 t0)) shells) ->
  let env t := mat_eps m_env (2 * PI / k0 t) in let denv := grad_eps m_env (grad_wl dk) in
  let a t n := fst (@mie_pena R ROps n_max (k0 t) (env t) (mat_layer (k0 t) core) (map (mat_layer (k0 t)) shells) n) in
  let b t n := snd (@mie_pena R ROps n_max (k0 t) (env t) (mat_layer (k0 t) core) (map (mat_layer (k0 t)) shells) n) in
  let k t := @cmul R ROps (cofr (k0 t)) (csqrt (env t)) in
  let r := fst (last shells core) in
  let da n := fst (grad_pena n_max 15 dk denv (grad_mat_layer dk core) (map (grad_mat_layer dk) shells) n) in
  let db n := snd (grad_pena n_max 15 dk denv (grad_mat_layer dk core) (map (grad_mat_layer dk) shells) n) in
  let d_k := grad_k dk denv in
  carries t0 (fun t => @q_ext R ROps n_max (k t) r (a t) (b t)) (@q_ext dual DOps n_max d_k (dconst r) da db) /\
  carries t0 (fun t => @q_sca R ROps n_max (k t) r (a t) (b t)) (@q_sca dual DOps n_max d_k (dconst r) da db) /\
  carries t0 (fun t => @q_abs R ROps n_max (k t) r (a t) (b t)) (@q_abs dual DOps n_max d_k (dconst r) da db).
Proof. exact spectrum. Qed.
Print Assumptions C95_spectrum.
(* a table with three samples, and the kink at the middle one *)
Example C95_table : NoDup (map fst hat_rows) /\ smooth_material (Db (table_db hat_rows)) 500 /\
  @interp_at dual DOps (@sort_rows dual DOps (lift_rows hat_rows)) (1000, 1) = mkd (RtoC 3) ((RtoC 3 - RtoC 1) / RtoC (1000 - 0) * RtoC 1)%C.
Proof.
  split; [exact hat_nodup|]. split; [apply hat_smooth; lra|].
  apply (node hat_rows hat_nodup (0, RtoC 1) (1000, RtoC 3) 1); cbn [fst]; [now left|right; now left|lra|].
  intros c Hc. cbn in Hc. repeat (destruct Hc as [<-|Hc]; [cbn; lra|]). destruct Hc.
Qed.
(* a dispersive core in a glass shell *)
Example C95_particle : carries (1/2) (fun t => t) (1/2, 1) /\ 1/2 <> 0 /\ fst (last [(1, glass)] (1/2, slope)) <> 0 /\
  (forall m, In m (vac :: snd (1/2, slope) :: map snd [(1, glass)]) -> smooth_material m (2 * PI / (1/2))) /\
  smooth_particle 1 (1/2) (mat_eps vac (2 * PI / (1/2))) (mat_layer (1/2) (1/2, slope)) (map (mat_layer (1/2)) [(1, glass)]).
Proof. exact ex_spectrum. Qed.
