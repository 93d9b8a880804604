(** Tensor-level model of multishell.py [cross_sections] (803-893) and
    [angular_scattering] (896-990).  Both start by calling [mie_coefficients]
    and then only combine its outputs, so they are modelled as functions of the
    record it returns. *)
From Coq Require Import ZArith List Bool Arith.
From Verif Require Import Ops Tensor ModelSpecial ModelMie ModelBatch.
Import ListNotations.
Open Scope list_scope.

Section Obs.
  Context {T : Type} {RO : RealOps T}.
  Notation C := (cplx T).

  (* torch.sum(t, (0, 1)) and torch.sum(t, dim=0) *)
  Definition tsum01 (t : tensor C) : tensor C :=
    mkT (skipn 2 (shp t))
        (fun ix => csum (map (fun i => csum (map (fun j => at_ t (i :: j :: ix)) (seq 0 (nth 1 (shp t) 0)))) (seq 0 (nth 0 (shp t) 0)))).
  Definition tsum0 (t : tensor C) : tensor C :=
    mkT (skipn 1 (shp t)) (fun ix => csum (map (fun i => at_ t (i :: ix)) (seq 0 (nth 0 (shp t) 0)))).

  (* torch.arange(1, n_max + 1) *)
  Definition arange1 (n_max : nat) : tensor T := mkT [n_max] (fun ix => rofn (S (nth 0 ix 0))).

  Record xsections := {
    x_k0 : tensor T; x_n : tensor T; x_n_max : Z; x_geo : tensor T;
    x_cs_ext : tensor T; x_cs_sca : tensor T; x_cs_abs : tensor T;
    x_q_ext : tensor T; x_q_sca : tensor T; x_q_abs : tensor T;
    x_cs_ext_mp : tensor T; x_cs_sca_mp : tensor T; x_cs_abs_mp : tensor T;
    x_q_ext_mp : tensor T; x_q_sca_mp : tensor T; x_q_abs_mp : tensor T }.

  Definition cross_sections (o : @output T) : result xsections :=
    let n := unsqueeze_last (unsqueeze_last (arange1 (Z.to_nat (o_n_max o)))) in      (* 849 *)
    let k := unsqueeze 0 (o_k o) in
    let k0 := unsqueeze 0 (c_k0 (o_cfg o)) in
    let r_s := unsqueeze 0 (o_r_s o) in
    let geo := tmap (fun r => rmul rpi (rsqr r)) r_s in                               (* 857 *)
    let pref := tmap (fun k => cdiv (cofr (rmul rtwo rpi)) (csqr k)) k in             (* 860 *)
    let n21 := tmap (fun n => cofr (radd (rmul rtwo n) rone)) n in
    let* pn := tbin cmul pref n21 in
    let* re := stack 0 [tmap (fun z => cofr (cre z)) (o_a o); tmap (fun z => cofr (cre z)) (o_b o)] in
    let* ext := tbin cmul pn re in                                                    (* 862 *)
    let* ab := stack 0 [tmap (fun z => cofr (rsqr (cabs z))) (o_a o); tmap (fun z => cofr (rsqr (cabs z))) (o_b o)] in
    let* sca := tbin cmul pn ab in                                                    (* 864 *)
    let* abs := tbin csub ext sca in                                                  (* 865 *)
    let cs_ext := tmap cre (tsum01 ext) in                                            (* 869-871 *)
    let cs_abs := tmap cre (tsum01 abs) in
    let cs_sca := tmap cre (tsum01 sca) in
    let geo0 := select 0 0 geo in                                                     (* cs_geo[0, :] *)
    let* q_ext := tbin rdiv cs_ext geo0 in
    let* q_sca := tbin rdiv cs_sca geo0 in
    let* q_abs := tbin rdiv cs_abs geo0 in
    let* q_ext_mp := tbin rdiv (tmap cre ext) geo in
    let* q_sca_mp := tbin rdiv (tmap cre sca) geo in
    let* q_abs_mp := tbin rdiv (tmap cre abs) geo in
    Ok {| x_k0 := squeeze k0; x_n := squeeze n; x_n_max := o_n_max o; x_geo := geo;
          x_cs_ext := cs_ext; x_cs_sca := cs_sca; x_cs_abs := cs_abs;
          x_q_ext := q_ext; x_q_sca := q_sca; x_q_abs := q_abs;
          x_cs_ext_mp := tmap cre ext; x_cs_sca_mp := tmap cre sca; x_cs_abs_mp := tmap cre abs;
          x_q_ext_mp := q_ext_mp; x_q_sca_mp := q_sca_mp; x_q_abs_mp := q_abs_mp |}.

  Record angular := {
    s_S1 : tensor C; s_S2 : tensor C; s_i_per : tensor T; s_i_par : tensor T;
    s_i_unpol : tensor T; s_pol_degree : tensor T }.

  (* special.py:1073-1120 on a tensor of cosines: order axis first; [:1] slices
     drop order 0 (multishell.py:953-954) *)
  Definition pi_tau_t (n_max : Z) (mu : tensor T) : result (tensor T * tensor T) :=
    if (n_max <? 1)%Z then Err AssertionError
    else let s := S (Z.to_nat n_max) :: shp mu in
         Ok (mkT s (fun ix => pi_n (at_ mu (tl ix)) (hd 0 ix)), mkT s (fun ix => tau_n (at_ mu (tl ix)) (hd 0 ix))).

  Definition angular_scattering (theta : tensor T) (o : @output T) : result angular :=
    let mu := tmap rcos theta in
    let* pt := pi_tau_t (o_n_max o) mu in
    let n_max := Z.to_nat (o_n_max o) in
    let pi := tmap cofr (unsqueeze 1 (unsqueeze 1 (narrow 0 1 n_max (fst pt)))) in     (* 963-964 *)
    let tau := tmap cofr (unsqueeze 1 (unsqueeze 1 (narrow 0 1 n_max (snd pt)))) in
    let n := unsqueeze_last (unsqueeze_last (unsqueeze_last (arange1 n_max))) in       (* 965 *)
    let w := tmap (fun n => cofr (rdiv (radd (rmul rtwo n) rone) (rmul n (radd n rone)))) n in
    let a := unsqueeze_last (o_a o) in
    let b := unsqueeze_last (o_b o) in
    let* ap := tbin cmul a pi in
    let* bt := tbin cmul b tau in
    let* s1 := tbin cadd ap bt in
    let* s1 := tbin cmul w s1 in
    let s1 := tsum0 s1 in                                                             (* 970 *)
    let* at' := tbin cmul a tau in
    let* bp := tbin cmul b pi in
    let* s2 := tbin cadd at' bp in
    let* s2 := tbin cmul w s2 in
    let s2 := tsum0 s2 in                                                             (* 971 *)
    let i_per := tmap (fun z => rsqr (cabs z)) s1 in
    let i_par := tmap (fun z => rsqr (cabs z)) s2 in
    let* sum := tbin radd i_par i_per in
    let* dif := tbin rsub i_per i_par in
    let* sum' := tbin radd i_per i_par in
    let* pol := tbin rdiv dif sum' in
    Ok {| s_S1 := s1; s_S2 := s2; s_i_per := i_per; s_i_par := i_par;
          s_i_unpol := tmap (fun x => rdiv x rtwo) sum; s_pol_degree := pol |}.
End Obs.
