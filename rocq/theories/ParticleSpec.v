(** What a particle is supposed to be: accepted constructor calls, aliases,
    devices, histories.  Written without the constructor of the model. *)
From Coq Require Import Reals List Bool String Arith.
From Coquelicot Require Import Complex.
From Verif Require Import Ops ROps Tensor ModelMaterial MaterialSpec ModelBatch ModelObs ModelParticle.
Import ListNotations.
Open Scope nat_scope.
Open Scope list_scope.

(** ** constructor calls (documentation: main.py:61-111) *)
Definition legacy_free (a : @pargs R) : Prop := g_r_core a = None /\ g_mat_core a = None /\ g_r_shell a = None /\ g_mat_shell a = None.
Definition layers_free (a : @pargs R) : Prop := g_r_layers a = None /\ g_eps_layers a = None /\ g_mat_layers a = None.
(* radii, permittivities, materials of the particle meant by a call *)
Inductive accepted (a : @pargs R) : list R -> option (tensor C) -> option (list (@matarg R)) -> Prop :=
| acc_eps : forall r rs e, legacy_free a -> g_r_layers a = Some r -> g_eps_layers a = Some e -> g_mat_layers a = None ->
    shp r = [List.length rs] -> entries r = rs -> rs <> [] -> accepted a rs (Some e) None
| acc_mat : forall r rs ms, legacy_free a -> g_r_layers a = Some r -> g_eps_layers a = None -> g_mat_layers a = Some ms ->
    shp r = [List.length rs] -> entries r = rs -> rs <> [] -> List.length ms = List.length rs -> accepted a rs None (Some ms)
| acc_core : forall rc mc, layers_free a -> g_r_core a = Some rc -> g_mat_core a = Some mc -> g_r_shell a = None -> g_mat_shell a = None ->
    shp rc = [] -> accepted a [at_ rc []] None (Some [mc])
| acc_shell : forall rc mc rs ms, layers_free a -> g_r_core a = Some rc -> g_mat_core a = Some mc -> g_r_shell a = Some rs -> g_mat_shell a = Some ms ->
    shp rc = [] -> shp rs = [] -> (at_ rc [] < at_ rs [])%R -> accepted a [at_ rc []; at_ rs []] None (Some [mc; ms]).
(* the one rejected case that is not a ValueError: torch.stack of radii of different shapes *)
Definition unstackable (a : @pargs R) : Prop := layers_free a /\ exists rc mc rs ms,
  g_r_core a = Some rc /\ g_mat_core a = Some mc /\ g_r_shell a = Some rs /\ g_mat_shell a = Some ms /\ shp rc <> shp rs.
Definition opt_list {A} (o : option A) : list A := match o with Some x => [x] | None => [] end.
Definition mat_args (a : @pargs R) : list (@matarg R) :=
  match g_mat_layers a with Some l => l | None => [] end ++ opt_list (g_mat_core a) ++ opt_list (g_mat_shell a) ++ [g_mat_env a].
Definition usable (h : @heap R) (m : @matarg R) : Prop :=
  match m with AScalar _ => True | AObj i => i < List.length h | _ => False end.
(* numbers and existing objects: the kinds of argument that can be used at all *)
Definition material_like (m : @matarg R) : Prop := match m with AScalar _ | AObj _ => True | _ => False end.
(* what address i denotes in the final heap *)
Definition refers (h h' : @heap R) (d : device) (m : @matarg R) (i : nat) : Prop :=
  match m with
  | AScalar n => List.length h <= i /\ nth_error h' i = Some (Const {| c_dev := d; ModelMaterial.c_eps := (n * n)%C; c_tdev := d |})
  | AObj j => i = j /\ exists m0, nth_error h i = Some m0 /\ nth_error h' i = Some (set_device_mat d m0)
  | _ => False
  end.
Definition device_of (a : @pargs R) : device := match g_device a with Some d => d | None => "cpu"%string end.

(** ** aliases *)
Record aliased (p : @particle R) : Prop := {
  al_rc : td (p_rc p) = td (p_r p) /\ shp (tt (p_rc p)) = tl (shp (tt (p_r p))) /\ forall ix, at_ (tt (p_rc p)) ix = at_ (tt (p_r p)) (0 :: ix);
  al_rs : match p_rs p with
          | None => numel (tt (p_r p)) <= 1
          | Some s => 1 < numel (tt (p_r p)) /\ td s = td (p_r p) /\ shp (tt s) = tl (shp (tt (p_r p))) /\
                      forall ix, at_ (tt s) ix = at_ (tt (p_r p)) (numel (tt (p_r p)) - 1 :: ix)
          end;
  al_mc : p_mc p = match p_mats p with Some l => nth_error l 0 | None => None end;
  al_ms : p_ms p = match p_mats p with Some l => if 1 <? List.length l then nth_error l (List.length l - 1) else None | None => None end }.

(** ** devices *)
Definition on (d : device) (m : @mat R) : Prop :=
  match m with
  | Const c => c_dev c = d /\ c_tdev c = d
  | Db b => d_dev b = d /\ (d_model b = MData -> d_wl_dev b = d /\ d_eps_dev b = d) /\ forall k v, In (k, v) (d_lookup b) -> v_dev v = d
  end.
Definition addrs (p : @particle R) : list nat := p_env p :: match p_mats p with Some l => l | None => [] end.
Record coherent (d : device) (p : @particle R) (h : @heap R) : Prop := {
  co_dev : p_dev p = d;
  co_r : td (p_r p) = d;
  co_eps : forall e, p_eps p = Some e -> td e = d;
  co_alias : aliased p;
  co_mats : forall i, In i (addrs p) -> exists m, nth_error h i = Some m /\ on d m }.
(* materials as they can occur: constructed, then used and moved *)
Definition made (m : @mat R) : Prop :=
  (exists eps d, m = Const (new_const eps d)) \/
  (exists pf pi dats d m0 hist, load_db pf pi dats d [] = Ok m0 /\ m = Db (hrun m0 hist)).

(** ** histories of a particle *)
Inductive method := MMie (k0 : tensor R) (src : option nat) (kw : kwargs)
                  | MXs (k0 : tensor R) (src : option nat) (kw : kwargs)
                  | MAng (k0 theta : tensor R) (src : option nat) (kw : kwargs).
Inductive pop := PDev (d : device) | PCall (m : method).
Section H.
  Variables (sj sy jr : @bessel_t R).
  Definition invoke (p : @particle R) (m : method) : @st R (@dict R) :=
    match m with
    | MMie k0 src kw => get_mie_coefficients sj sy jr p k0 src kw
    | MXs k0 src kw => get_cross_sections sj sy jr p k0 src kw
    | MAng k0 theta src kw => get_angular_scattering sj sy jr p k0 theta src kw
    end.
  Definition pstep (ph : @particle R * @heap R) (o : pop) : @particle R * @heap R :=
    match o with
    | PDev d => match set_device d (fst ph) (snd ph) with (h, Ok p) => (p, h) | (h, Err _) => (fst ph, h) end
    | PCall m => (fst ph, fst (invoke (fst ph) m (snd ph)))
    end.
  Definition prun (ph : @particle R * @heap R) (os : list pop) : @particle R * @heap R := fold_left pstep os ph.
  (* the heaps of a session: materials, then constructions, moves and evaluations of any particles *)
  Inductive reachable : @heap R -> Prop :=
  | re_start : forall h, List.Forall made h -> reachable h
  | re_new : forall a h h' p, reachable h -> new_particle a h = (h', Ok p) -> reachable h'
  | re_step : forall d p h o, reachable h -> coherent d p h -> reachable (snd (pstep (p, h) o)).
End H.
Fixpoint last_dev (d : device) (os : list pop) : device :=
  match os with [] => d | PDev d' :: os' => last_dev d' os' | PCall _ :: os' => last_dev d os' end.

(* the materials a method evaluates *)
Definition uses (p : @particle R) (i : nat) : Prop := i = p_env p \/ (p_eps p = None /\ exists l, p_mats p = Some l /\ In i l).
(* the permittivity a material object returns for one wavelength *)
Definition material_eps (m : @mat R) (wl : R) (e : C) : Prop :=
  exists v, snd (@get_epsilon R ROps m {| wa_t := scalar_t wl; wa_src := None |}) = Ok (scalar_t v) /\ ModelMaterial.v_eps v = e.

(** ** squeezed dictionaries *)
Definition squeezed {A} (t u : tensor A) : Prop := shp u = filter (fun d => negb (d =? 1)) (shp t) /\ entries u = entries t.
Definition squeezed_val (v w : @pyval R) : Prop :=
  match v, w with
  | PR t, PR u => squeezed t u
  | PC t, PC u => squeezed t u
  | PZ x, PZ y => x = y
  | _, _ => False
  end.
Definition squeezed_dict (d e : @dict R) : Prop := Forall2 (fun kv kw => fst kv = fst kw /\ squeezed_val (snd kv) (snd kw)) d e.
