(** * Density matrices of the legacy machines
      (netket/legacy/machine/density_matrix)

    A machine is what it computes: the logarithm of the entry of a row and a column, each a
    list of quantum numbers, [None] for minus infinity.  Exact complex arithmetic; the states
    of the Hilbert space are given as a list.  Wrapping by flax, batches (every row of one is
    treated alike), initialisation and the arrays [out] are left out. *)
From Coq Require Import List Arith ZArith Bool Reals.
From Verif Require Import Base Rings ARNN_Model ToArray_Model Estim_Model Ansatz_Model LegRbm_Model.
Import ListNotations.
Open Scope R_scope.
Open Scope nat_scope.

(** ** abstract_density_matrix.py *)
Definition config := list R.
Definition machine := config -> config -> logval.
(** the argument [normalize] *)
Inductive norm := NTrace | NTrue | NL2 | NFalse.
Definition greatest (x : R) (l : list R) : R := fold_left Rmax l x.
(** 102-106: the pairs of itertools.product *)
Definition entries_of (m : machine) (states : list config) : list logval :=
  flat_map (fun a => map (fun b => m a b) states) states.
(** 108-109: the greatest number is that of the configurations; max of nothing *)
Definition shifted (logmax : R) (l : logval) : cpx := cexp_opt (option_map (fun z => rsub cC z (logmax, 0%R)) l).
(** np.trace of the vector reshaped to [n] rows *)
Definition vec_trace (n : nat) (v : list cpx) : cpx := lsum cC (map (fun k => nth (k * n + k) v (r0 cC)) (seq 0 n)).
(** 84-121: to_array *)
Definition to_array (indexable : bool) (m : machine) (states : list config) (nrm : norm) : res (list cpx) :=
  if negb indexable then Err RuntimeError
  else match concat states with
  | [] => Err ValueError
  | q :: qs =>
      let v := map (shifted (greatest q qs)) (entries_of m states) in
      Ok (match nrm with
          | NTrace => let t := vec_trace (length states) v in map (fun z => cdiv z t) v
          | NTrue | NL2 => let t := sqrt (fold_right Rplus 0%R (map cnorm2 v)) in map (rscal (/ t)) v
          | NFalse => v
          end)
  end.
(** 58-82: to_matrix; [normalize] is not used *)
Definition to_matrix (indexable : bool) (m : machine) (states : list config) (nrm : norm) : res (list (list cpx)) :=
  if negb indexable then Err RuntimeError
  else
    let? v := to_array indexable m states NTrace in
    let n := length states in
    Ok (map (fun i => firstn n (skipn (i * n) v)) (seq 0 n)).
(** 123-143: log_trace; minus infinity if an entry of the diagonal vanishes (nan if all do) *)
Definition log_trace (indexable : bool) (m : machine) (states : list config) : res (option R) :=
  if negb indexable then Err RuntimeError
  else match sequence (map (fun s => match m s s with Some z => Ok (fst z) | None => Err Fault end) states) with
  | Err _ => Ok None
  | Ok [] => Err ValueError
  | Ok (d :: ds) =>
      let maxl := greatest d ds in
      Ok (Some (ln (exp (fold_right Rplus 0%R (map (fun x => x - maxl) (d :: ds)))) + maxl)%R)
  end.

(** ** diagonal.py 14-30 *)
Definition diagonal (m : machine) (x : config) : logval := m x x.

(** ** jax.py *)
(** 48-61: log_val; the columns may be given beside the rows *)
Definition dminput (xr : list R) (xc : option (list R)) : list R := match xc with None => xr | Some c => xr ++ c end.
(** jnp.split(inputs, 2, axis=-1) *)
Definition split2 (x : list R) : res (list R * list R) :=
  if Nat.even (length x) then Ok (firstn (Nat.div2 (length x)) x, skipn (Nat.div2 (length x)) x) else Err ValueError.
Definition cfg (x : list R) (i : nat) : cpx := (nth i x 0%R, 0%R).
(** np.dot of the inputs and complex weights given by their real and imaginary parts *)
Definition rdot (n : nat) (x : list R) (Wr Wi : nat -> nat -> R) (j : nat) : cpx :=
  fsum cC n (fun i => rmul cC (cfg x i) (Wr i j, Wi i j)).
Definition neg (W : nat -> nat -> R) : nat -> nat -> R := fun i j => (- W i j)%R.
(** machine/jax.py 321-323 is [leg_log_cosh] (the terms in another order); 307-316: sum of
    the last axis *)
Definition sum_log_cosh (l : list cpx) : logval := lsum_log (map leg_log_cosh l).

(** 80-147: DensePurificationComplex; br, bi, cr if there are hidden biases *)
Record purif := Purif { p_wr : nat -> nat -> R; p_wi : nat -> nat -> R; p_vr : nat -> nat -> R; p_vi : nat -> nat -> R;
                        p_bias : option ((nat -> R) * (nat -> R) * (nat -> R)) }.
Definition theta_r (n : nat) (p : purif) (xr : list R) (j : nat) : cpx :=
  radd cC (rdot n xr (p_wr p) (p_wi p) j) (match p_bias p with Some (br, bi, _) => (br j, bi j) | None => r0 cC end).
Definition theta_c (n : nat) (p : purif) (xc : list R) (j : nat) : cpx :=
  radd cC (rdot n xc (p_wr p) (neg (p_wi p)) j) (match p_bias p with Some (br, bi, _) => (br j, (- bi j)%R) | None => r0 cC end).
Definition theta_m (n : nat) (p : purif) (xr xc : list R) (j : nat) : cpx :=
  radd cC (radd cC (rdot n xr (p_vr p) (p_vi p) j) (rdot n xc (p_vr p) (neg (p_vi p)) j))
    (match p_bias p with Some (_, _, cr) => ((2 * cr j)%R, 0%R) | None => r0 cC end).
(** 153-160: the network of NdmSpin with [a] and [b] hidden units *)
Definition ndm_spin (n a b : nat) (p : purif) (xr : list R) (xc : option (list R)) : res logval :=
  let? h := split2 (dminput xr xc) in
  let (r, c) := h in
  Ok (sum_log_cosh (map (theta_r n p r) (seq 0 a) ++ map (theta_m n p r c) (seq 0 b) ++ map (theta_c n p c) (seq 0 a))).

(** 252-304: DensePureRowCol with LogCoshLayer and SumLayer on each half; without hidden
    biases [params] is a tuple, with which jnp.dot raises *)
Definition row_col (n a : nat) (W : nat -> nat -> R) (b : option (nat -> R)) (x : list R) : res logval :=
  match b with
  | None => Err TypeError
  | Some b => Ok (sum_log_cosh (map (fun j => radd cC (rdot n x W (fun _ _ => 0%R) j) (b j, 0%R)) (seq 0 a)))
  end.
Record phase_par := PhasePar {
  w_mod : nat -> nat -> R; b_mod : option (nat -> R);
  w_phs : nat -> nat -> R; b_phs : option (nat -> R);
  u_r : nat -> nat -> R; u_i : nat -> nat -> R; d_r : option (nat -> R);
  v_bias : option ((nat -> R) * (nat -> R)) }.
Definition half (W : nat -> nat -> R) : nat -> nat -> R := fun i j => (1 / 2 * W i j)%R.
(** 193-249: DenseMixingReal *)
Definition theta_x (n : nat) (p : phase_par) (xr xc : list R) (j : nat) : cpx :=
  radd cC (radd cC (rdot n xr (half (u_r p)) (half (u_i p)) j) (rdot n xc (half (u_r p)) (neg (half (u_i p))) j))
    (match d_r p with Some d => (d j, 0%R) | None => r0 cC end).
(** 342-377: BiasRealModPhase *)
Definition v_part (n : nat) (p : phase_par) (xr xc : list R) : cpx :=
  match v_bias p with
  | None => r0 cC
  | Some (br, bj) =>
      ((1 / 2 * fsum rR n (fun i => (nth i xr 0 + nth i xc 0) * br i)%R)%R,
       (1 / 2 * fsum rR n (fun i => (nth i xr 0 - nth i xc 0) * bj i)%R)%R)
  end.
(** 307-339 and 380-417: the network of NdmSpinPhase *)
Definition ndm_phase (n a b : nat) (p : phase_par) (xr : list R) (xc : option (list R)) : res logval :=
  let? h := split2 (dminput xr xc) in
  let (r, c) := h in
  let? mr := row_col n a (w_mod p) (b_mod p) r in
  let? mc := row_col n a (w_mod p) (b_mod p) c in
  let? pr := row_col n a (w_phs p) (b_phs p) r in
  let? pc := row_col n a (w_phs p) (b_phs p) c in
  Ok (ladd (ladd (ladd (lscale ((1 / 2)%R, 0%R) (ladd mr mc))
        (lscale (0%R, (1 / 2)%R) (ladd pr (lscale ((-1)%R, 0%R) pc))))
        (sum_log_cosh (map (theta_x n p r c) (seq 0 b))))
        (Some (v_part n p r c))).

(** ** rbm.py 6-64 *)
(** 17-25: with automorphisms a name is used that is not defined (NameError) *)
Definition dm_rbm (size : nat) (n_hidden : option Z) (alpha : option density) (vis hid : bool) (automorphisms : option autom) (d : ptype)
  : res rcfg :=
  match automorphisms with
  | Some _ => Err Exception_
  | None => construct (size + size) n_hidden alpha vis hid ANone d
  end.
Definition dm_rbm_log_val (m : rmach) (xr : list (list cpx)) (xc : option (list (list cpx))) : res (list logval * option (list logval)) :=
  match xc with
  | None => log_val m 2 xr false
  | Some c => if negb (length xr =? length c) then Err ValueError
              else log_val m 2 (map (fun q => fst q ++ snd q) (combine xr c)) false
  end.
