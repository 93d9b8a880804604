(** Model of src/pymiediff/special.py, element-wise.

    Every torch routine in special.py acts independently on each element of the
    argument tensor [z] (the order axis is the only axis mixed by the
    recurrences), so the functions below take one complex element and return
    the value at order [n] of the leading order axis.  The only batch-dependent
    quantity, the automatic recurrence depth computed from [max |z|], is an
    explicit argument.  Lifting to tensors is in ModelBatch.v and ModelObs.v. *)
From Coq Require Import ZArith List Bool Arith.
From Verif Require Import Ops.
Import ListNotations.

Section Special.
  Context {T : Type} {RO : RealOps T}.
  Notation C := (cplx T).

  (** ** Angular functions: special.py:1073-1120 [pi_tau] *)

  (* special.py:1101-1110: pi_list = [0, 1]; for nn in range(1, n_max):
     pi_next = ((2nn+1) mu pi[nn] - (nn+1) pi[nn-1]) / nn.
     [pi_pair mu n] = (pi_list[n], pi_list[n+1]). *)
  Fixpoint pi_pair (mu : T) (n : nat) : T * T :=
    match n with
    | O => (rzero, rone)
    | S m => let (p, q) := pi_pair mu m in
             let nn := S m in
             (q, rdiv (rsub (rmul (rmul (rofn (2 * nn + 1)) mu) q)
                            (rmul (rofn (nn + 1)) p))
                      (rofn nn))
    end.
  Definition pi_n (mu : T) (n : nat) : T := fst (pi_pair mu n).

  (* special.py:1112-1115: tau_list = [0]; tau_next = nn mu pi[nn] - (nn+1) pi[nn-1] *)
  Definition tau_n (mu : T) (n : nat) : T :=
    match n with
    | O => rzero
    | S m => rsub (rmul (rmul (rofn n) mu) (pi_n mu n)) (rmul (rofn (n + 1)) (pi_n mu m))
    end.

  (* special.py:1088-1120, one element of mu; order axis first, including order 0;
     the assert at 1093 is an AssertionError *)
  Definition pi_tau (n_max : Z) (mu : T) : result (list T * list T) :=
    if (n_max <? 1)%Z then Err AssertionError
    else let orders := seq 0 (S (Z.to_nat n_max)) in
         Ok (map (pi_n mu) orders, map (tau_n mu) orders).

  (** ** Pena/Yang log-derivative recurrences *)

  (* special.py:494: z_safe = where(|z| < eps, z + eps, z) is [guard eps z]. *)

  (* special.py:496-503, loop body for counter nn:
     num = nn / z_safe; den = D_next + num; den guarded; D_curr = num - 1/den *)
  Definition d1_step (eps : T) (z_safe : C) (nn : nat) (D_next : C) : C :=
    let num := cdiv (cofn nn) z_safe in
    let den := guard eps (cadd D_next num) in
    csub num (cdiv cone den).

  (* state D_next after [k] iterations of "for nn in range(n_start, 0, -1)",
     starting from D_next = 0 (special.py:492-503); this is D_{n_start - k} *)
  Fixpoint d1_iter (eps : T) (z_safe : C) (n_start k : nat) : C :=
    match k with
    | O => czero
    | S k' => d1_step eps z_safe (n_start - k') (d1_iter eps z_safe n_start k')
    end.

  (* special.py:451-505 [pena_D1_n]: entry [n] (0 <= n <= n_max) of the result;
     n_start = n_max + n_add.  D_list[n] is written when the loop variable is
     n+1, i.e. after n_start - n iterations; this needs n_add >= 1 (otherwise
     D_list[n_max] stays None and torch.stack raises, see [pena_D1]). *)
  Definition D1_at (eps : T) (n_start : nat) (z : C) (n : nat) : C :=
    d1_iter eps (guard eps z) n_start (n_start - n).

  Definition pena_D1 (eps : T) (n_max n_add : Z) (z : C) : result (list C) :=
    if (n_max <? 0)%Z then Err ValueError          (* special.py:479-480 *)
    else if (n_add <? 1)%Z then Err TypeError      (* torch.stack on a list holding None *)
    else Ok (map (D1_at eps (Z.to_nat (n_max + n_add)) z) (seq 0 (S (Z.to_nat n_max)))).

  (* special.py:508-566 [pena_D3_n]: loop state (psi_zeta_prev, D3_prev) after
     iteration nn = n; D1 given as an order-indexed sequence *)
  Fixpoint d3_state (eps : T) (z : C) (D1 : nat -> C) (n : nat) : C * C :=
    match n with
    | O => (cmul (cofr (rdiv rone rtwo)) (csub cone (cexp (cmul (cmul (cofn 2) ci) z))), ci)
    | S m => let (pz, d3) := d3_state eps z D1 m in
             let zs := guard eps z in
             let t1 := csub (cdiv (cofn n) zs) (D1 m) in
             let t2 := csub (cdiv (cofn n) zs) d3 in
             let pz' := cmul (cmul pz t1) t2 in
             (pz', cadd (D1 n) (cdiv ci (guard eps pz')))
    end.
  Definition D3_at (eps : T) (z : C) (D1 : nat -> C) (n : nat) : C := snd (d3_state eps z D1 n).

  (* special.py:645-696 [pena_psi_zeta_n]: loop state (psi_prev, zeta_prev) *)
  Fixpoint psi_zeta_at (eps : T) (z : C) (D1 D3 : nat -> C) (n : nat) : C * C :=
    match n with
    | O => (csin z, csub (csin z) (cmul ci (ccos z)))
    | S m => let (p, s) := psi_zeta_at eps z D1 D3 m in
             let zs := guard eps z in
             (cmul p (csub (cdiv (cofn n) zs) (D1 m)), cmul s (csub (cdiv (cofn n) zs) (D3 m)))
    end.

  (* special.py:571-642 [pena_Q_n] *)
  Definition Q0 (eps : T) (z1 z2 : C) : C :=
    let a1 := cre z1 in let b1 := cim z1 in let a2 := cre z2 in let b2 := cim z2 in
    let m2 := ropp rtwo in
    let num0 := csub (cexp (cmul (cmul (cofr m2) ci) (cofr a1))) (cofr (rexp (rmul m2 b1))) in
    let den0 := csub (cexp (cmul (cmul (cofr m2) ci) (cofr a2))) (cofr (rexp (rmul m2 b2))) in
    cmul (cdiv num0 (guard eps den0)) (cofr (rexp (rmul m2 (rsub b2 b1)))).
  Fixpoint Q_at (eps : T) (z1 z2 x1 x2 : C) (D1_z1 D1_z2 D3_z1 D3_z2 : nat -> C) (n : nat) : C :=
    match n with
    | O => Q0 eps z1 z2
    | S m =>
        let x_ratio_sq := csqr (cdiv x1 (guard eps x2)) in
        let num := cmul (cadd (cmul z2 (D1_z2 n)) (cofn n)) (csub (cofn n) (cmul z2 (D3_z2 m))) in
        let den := cmul (cadd (cmul z1 (D1_z1 n)) (cofn n)) (csub (cofn n) (cmul z1 (D3_z1 m))) in
        cmul (cmul (Q_at eps z1 z2 x1 x2 D1_z1 D1_z2 D3_z1 D3_z2 m) x_ratio_sq)
             (cdiv num (guard eps den))
    end.

  (** ** torch-native spherical Bessel functions *)

  (* special.py:753 / 947: where(|z| < eps, eps, z) *)
  Definition replace_small (eps : T) (z : C) : C :=
    if rltb (cabs z) eps then cofr eps else z.

  (* special.py:756-759: automatic depth from max|z| of the whole (raw) tensor *)
  Definition n_add_auto (zabs_max : T) : nat :=
    let n_add := Z.max 10 (rtrunc (rmul (rdiv (rofZ 3) (rofZ 2)) zabs_max)) in
    Z.to_nat (if (n_add >? 35)%Z then 35%Z else n_add).

  (* special.py:764-773: state (j_n, j_np1) after k iterations of
     "for _n in range(N, 0, -1)", N = n_max + n_add: (f_{N-k}, f_{N-k+1}) *)
  Fixpoint jrec (z : C) (N k : nat) : C * C :=
    match k with
    | O => (czero, cofr (rtenth 25))
    | S k' => let (jn, jnp1) := jrec z N k' in
              (csub (cmul (cdiv (cofn (2 * (N - k') + 1)) z) jn) jnp1, jn)
    end.
  Definition jrec_at (z : C) (N n : nat) : C := fst (jrec z N (N - n)).

  (* special.py:700-783 [sph_jn_torch_via_rec], order n of one element;
     n_add is the (already resolved) depth *)
  Definition sph_jn_via_rec (n_max n_add : nat) (z : C) (n : nat) : C :=
    let zr := replace_small (rtenth 10) z in
    let N := n_max + n_add in
    let scale := cdiv (cdiv (csin zr) zr) (jrec_at zr N 0) in
    cmul (jrec_at zr N n) scale.

  (* The n_add argument of special.py:700-759: "auto" or an int.  With an int,
     [n_add.lower()] (line 756) raises AttributeError. *)
  Inductive n_add_arg := NAuto | NInt (k : Z).
  Definition resolve_n_add_via_rec (a : n_add_arg) (zabs_max : T) : result nat :=
    match a with NAuto => Ok (n_add_auto zabs_max) | NInt _ => Err AttributeError end.

  (* special.py:786-922 [sph_jn_torch] *)
  (* lgamma(k) for integer k >= 1, by its defining identity lgamma(k) = ln((k-1)!) *)
  Fixpoint zfact (n : nat) : Z := match n with O => 1%Z | S m => (Z.of_nat n * zfact m)%Z end.
  Definition lgamma_nat (k : nat) : T := rln (rofZ (zfact (k - 1))).
  (* special.py:846-852 *)
  Definition log_dd (n : nat) : T :=
    rsub (rsub (lgamma_nat (2 * n + 2)) (rmul (rofn n) (rln rtwo))) (lgamma_nat (n + 1)).
  (* special.py:853-857, small branch *)
  Definition jn_small (z : C) (n : nat) : C := cdiv (cpow z n) (cofr (rexp (log_dd n))).
  (* special.py:869-876: depth for the ratio algorithm; int n_add is accepted here *)
  Definition n_extra (a : n_add_arg) (zabs_max_big : T) : Z :=
    match a with
    | NAuto => Z.min (Z.max 20 (rtrunc (rmul zabs_max_big rtwo) + 10)) 50
    | NInt k => k
    end.
  (* special.py:887-896: r_k for k = N .. 1 from r_{N+1} = 0; after j iterations r_{N-j+1} *)
  Fixpoint r_iter (z : C) (N j : nat) : C :=
    match j with
    | O => czero
    | S j' => let k := N - j' in
              let denom := csub (cdiv (cofn (2 * k + 1)) z) (r_iter z N j') in
              cdiv cone (if reqb (cabs denom) rzero then cadd denom (cofr (rtenth 50)) else denom)
    end.
  Definition r_at (z : C) (N k : nat) : C := r_iter z N (N + 1 - k).
  (* special.py:899-909: j_n = j0 * cumprod(r_1..r_n) *)
  Fixpoint r_cum (z : C) (N n : nat) : C :=
    match n with O => cone | S m => cmul (r_cum z N m) (r_at z N n) end.
  Definition jn_big (z : C) (N n : nat) : C :=
    let j0 := if ceqb z czero then cone else cdiv (csin z) z in
    match n with O => j0 | S _ => cmul j0 (r_cum z N n) end.
  (* special.py:834-922 for one element; N = n_max + n_extra *)
  Definition sph_jn_ratio (n_max : nat) (nextra : nat) (z : C) (n : nat) : C :=
    if ceqb z czero then (match n with O => cone | S _ => czero end)   (* 917-920 *)
    else if rltb (cabs z) (rtenth 8) then jn_small z n
    else jn_big z (n_max + nextra) n.

  (* special.py:925-975 [sph_yn_torch] *)
  Fixpoint yn_pair (z : C) (n : nat) : C * C :=   (* (y_n, y_{n+1}) *)
    match n with
    | O => (copp (cdiv (ccos z) z),
            copp (cadd (cdiv (ccos z) (csqr z)) (cdiv (csin z) z)))
    | S m => let (a, b) := yn_pair z m in
             let n_iter := S n in
             (b, csub (cmul (cdiv (cofn (2 * n_iter - 1)) z) b) a)
    end.
  Definition sph_yn (z : C) (n : nat) : C := fst (yn_pair (replace_small (rtenth 10) z) n).

  (* special.py:338-361 [f_der]: derivative from a sequence f_0..f_{n_max};
     with n_max = 0 the access f_n[1] raises IndexError *)
  Definition f_der_at (z : C) (f : nat -> C) (n : nat) : C :=
    match n with
    | O => copp (f 1)
    | S m => csub (f m) (cmul (cdiv (cofn (n + 1)) z) (f n))
    end.
  Definition f_der (z : C) (f : list C) : result (list C) :=
    match f with
    | _ :: _ :: _ => Ok (map (f_der_at z (fun i => nth i f czero)) (seq 0 (length f)))
    | _ => Err IndexError
    end.

  (* special.py:997-1069 psi_torch / chi_torch / xi_torch and the scipy twins
     365-440: from a sequence f of j_n, y_n or h_n *)
  Definition psi_of (z : C) (f : nat -> C) (n : nat) : C * C :=
    (cmul z (f n), cadd (f n) (cmul z (f_der_at z f n))).
  Definition chi_of (z : C) (f : nat -> C) (n : nat) : C * C :=
    (cmul (copp z) (f n), csub (copp (f n)) (cmul z (f_der_at z f n))).
  (* special.py:978-992 *)
  Definition h1_of (j y : nat -> C) (n : nat) : C := cadd (j n) (cmul ci (y n)).

  (* special.py:53-72 [bessel2ndDer] at z <> 0 *)
  Definition bessel2ndDer (n : nat) (z : C) (f : nat -> C) : C :=
    cmul (cdiv cone (csqr z))
         (cadd (cmul (csub (csub (cofn (n * n)) (cofn n)) (csqr z)) (f n))
               (cmul (cmul (cofn 2) z) (f (S n)))).

  (** ** Experimental log-derivative routines, special.py:1208-1326 *)
  (* D1n_torch 1260-1271: same recurrence without denominator safeguard *)
  Fixpoint d1n_iter (z : C) (N k : nat) : C :=
    match k with
    | O => czero
    | S k' => let q := cdiv (cofn (N - k')) z in
              csub q (cdiv cone (cadd (d1n_iter z N k') q))
    end.
  Definition D1n_torch (n_max n_add : nat) (z : C) (n : nat) : C :=
    let N := n_max + n_add in d1n_iter (replace_small (rtenth 10) z) N (N - n).
  (* D3n_torch 1276-1326: returns (D3, psi*xi); seed -i exp(iz) sin z uses the raw z *)
  Fixpoint d3n_state (z zs : C) (D1 : nat -> C) (n : nat) : C * C :=
    match n with
    | O => (cmul (cmul (copp ci) (cexp (cmul ci z))) (csin z), ci)
    | S m => let (pz, d3) := d3n_state z zs D1 m in
             let t1 := csub (cdiv (cofn n) zs) (D1 m) in
             let t2 := csub (cdiv (cofn n) zs) d3 in
             let pz' := cmul (cmul pz t1) t2 in
             (pz', cadd (D1 n) (cdiv ci pz'))
    end.
  Definition D3n_torch (z : C) (D1 : nat -> C) (n : nat) : C * C :=
    d3n_state z (replace_small (rtenth 10) z) D1 n.
  (* Ql_torch 1362: zeroth-order denominator exp(-2j Re z2) - exp(-2j Re z2) *)
  Definition Ql_den0 (z2 : C) : C :=
    let e := cexp (cmul (cmul (cofr (ropp rtwo)) ci) (cofr (cre z2))) in csub e e.
End Special.
