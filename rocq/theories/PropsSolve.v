(** C99: the patched solver returns self-consistent fields. *)
From Coq Require Import Reals List Bool Arith Lia Lra.
From Coquelicot Require Import Complex.
From Verif Require Import Ops ROps Tensor ModelMaterial ModelMie ModelTg TgSpec ModelSolve SolveSpec SolveEnd ExampleSolve.
Import ListNotations.
Open Scope nat_scope.
Open Scope list_scope.

(** C99: for every illumination the returned fields are those of a local field x which is the incident field plus all that
    the induced moments radiate: E is its first three components at each polarisable position, H its last three, and both vanish elsewhere. *)
Theorem C99_self_consistent : forall lu alphas selfs G pol L f0 e h, exact_solver lu -> sizes selfs = sizes alphas -> sq_n G = total alphas ->
  shp f0 = [L; count_occ bool_dec pol true; 6] ->
  @solve_fields R ROps lu alphas selfs G (List.length pol) (full_mask L pol) f0 = Ok (e, h) ->
  shp e = [L; List.length pol; 3] /\ shp h = [L; List.length pol; 3] /\
  forall l, l < L -> exists x, self_consistent alphas selfs G (fun t => at_ f0 [l; t / 6; t mod 6]) x /\
    forall p c, p < List.length pol -> c < 3 ->
      at_ e [l; p; c] = (if nth p pol false then x (6 * rank pol p + c)%nat else RtoC 0) /\
      at_ h [l; p; c] = (if nth p pol false then x (6 * rank pol p + (3 + c))%nat else RtoC 0).
Proof. exact solve_consistent. Qed.
Print Assumptions C99_self_consistent.
(** C99: there is no other such field when no field survives without illumination. *)
Theorem C99_unique : forall alphas selfs G f x y, no_free_mode alphas selfs G -> self_consistent alphas selfs G f x -> self_consistent alphas selfs G f y ->
  forall t, t < total alphas -> x t = y t.
Proof. exact solve_unique. Qed.
Print Assumptions C99_unique.
(** C99: then fields superpose. *)
Theorem C99_superposition : forall lu alphas selfs G pol L f1 f2 f3 k e1 h1 e2 h2 e3 h3, exact_solver lu -> sizes selfs = sizes alphas -> sq_n G = total alphas ->
  no_free_mode alphas selfs G ->
  shp f1 = [L; count_occ bool_dec pol true; 6] -> shp f2 = [L; count_occ bool_dec pol true; 6] -> shp f3 = [L; count_occ bool_dec pol true; 6] ->
  (forall l q c, l < L -> q < count_occ bool_dec pol true -> c < 6 -> at_ f3 [l; q; c] = (at_ f1 [l; q; c] + k * at_ f2 [l; q; c])%C) ->
  let solve f := @solve_fields R ROps lu alphas selfs G (List.length pol) (full_mask L pol) f in
  solve f1 = Ok (e1, h1) -> solve f2 = Ok (e2, h2) -> solve f3 = Ok (e3, h3) ->
  forall l p c, l < L -> p < List.length pol -> c < 3 ->
    at_ e3 [l; p; c] = (at_ e1 [l; p; c] + k * at_ e2 [l; p; c])%C /\ at_ h3 [l; p; c] = (at_ h1 [l; p; c] + k * at_ h2 [l; p; c])%C.
Proof. exact superposed. Qed.
Print Assumptions C99_superposition.
(** C99: whenever the linear solver answers, so does the function. *)
Theorem C99_answers : forall lu alphas selfs G pol L f0, sizes selfs = sizes alphas -> sq_n G = total alphas ->
  shp f0 = [L; count_occ bool_dec pol true; 6] -> 0 < L -> total alphas = count_occ bool_dec pol true * 6 ->
  (forall A b, sq_n A = total alphas -> List.length b = total alphas -> exists x, lu A b = Ok x /\ List.length x = total alphas) ->
  exists eh, @solve_fields R ROps lu alphas selfs G (List.length pol) (full_mask L pol) f0 = Ok eh.
Proof. exact run_answers. Qed.
Print Assumptions C99_answers.
(** C99: no illumination, or polarisabilities which do not match the positions, raise. *)
Theorem C99_rejections : forall lu alphas selfs G pol L f0, sizes selfs = sizes alphas -> sq_n G = total alphas ->
  shp f0 = [L; count_occ bool_dec pol true; 6] -> L = 0 \/ total alphas <> count_occ bool_dec pol true * 6 ->
  @solve_fields R ROps lu alphas selfs G (List.length pol) (full_mask L pol) f0 = Err RuntimeError.
Proof. exact solve_rejects. Qed.
Print Assumptions C99_rejections.
(** two illuminations, one polarisable position of two, of polarisability 1/2 with self term 1: the local field is twice the incident one *)
Example C99_instance : exact_solver doubling /\
  exists e h, @solve_fields R ROps doubling [half6] [one6] one6 2 (full_mask 2 [false; true]) ones_field = Ok (e, h) /\
    at_ e [1; 1; 2] = RtoC 2 /\ at_ h [0; 1; 0] = RtoC 2 /\ at_ e [1; 0; 2] = RtoC 0.
Proof. exact solve_instance. Qed.
Example C99_no_free_mode : no_free_mode [half6] [one6] one6.
Proof. exact half6_damped. Qed.
