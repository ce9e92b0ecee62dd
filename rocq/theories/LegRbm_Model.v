(** * The numpy Boltzmann machines (netket/legacy/machine/rbm.py)

    Complex numbers over the real numbers of the standard library, exact arithmetic; a real
    number is a complex one with imaginary part 0.  A batch is the list of its rows, with the
    number of axes of the array beside it (the code looks at nothing else when it is not 2).
    The logarithm of zero is minus infinity, [None].  Arrays that the code reads with a
    position outside their bounds are read as 0 here; the theorems are about tables of
    permutations, for which this does not happen.  [_r], the compilation by numba and
    automorphisms given as a graph (its list of automorphisms is taken) are left out. *)
From Coq Require Import List Arith ZArith QArith Qround Bool Reals.
From Verif Require Import Base Rings ARNN_Model ToArray_Model Estim_Model Ansatz_Model.
Import ListNotations.
Open Scope R_scope.
Open Scope nat_scope.

(** ** rbm.py 341-383: _get_hidden *)
(** [alpha] is an integer or a float *)
Inductive density := DInt (z : Z) | DFloat (q : Q).
Definition dval (d : density) : Q := match d with DInt z => inject_Z z | DFloat q => q end.
(** python's round: to the nearest integer, halves to the even one *)
Definition py_round (q : Q) : Z :=
  let f := Qfloor q in
  let r := (q - inject_Z f)%Q in
  if negb (Qle_bool (1 # 2) r) then f
  else if negb (Qle_bool r (1 # 2)) then (f + 1)%Z
  else if Z.even f then f else (f + 1)%Z.
(** int of a fraction: towards zero *)
Definition py_int (q : Q) : Z := if Qle_bool 0 q then Qfloor q else Qceiling q.
(** what is given as [automorphisms]: None, False, a table (list of rows) or anything that
    does not make a table whose rows have hilbert.size columns *)
Inductive autom := ANone | AFalse | ATable (rows : list (list nat)) | ABad.

(** result: table, number of hidden units, number of symmetric hidden units *)
Definition get_hidden (a : autom) (size : nat) (n_hidden : option Z) (alpha : option density)
  : res (option (list (list nat)) * Z * Z) :=
  match a with
  | ANone | AFalse =>
    let? m := match alpha with
      | None => match n_hidden with
                | None => Err TypeError               (* None < 0 *)
                | Some h => if (h <? 0)%Z then Err RuntimeError else Ok h
                end
      | Some al =>
        let m := py_round (dval al * inject_Z (Z.of_nat size))%Q in
        if Qle_bool 0 (dval al) then Ok m else Err ValueError
      end in
    match n_hidden with
    | Some h => if (h =? m)%Z then Ok (None, m, m) else Err RuntimeError
    | None => Ok (None, m, m)
    end
  | ABad => Err RuntimeError
  | ATable rows =>
    if negb (forallb (fun r => length r =? size) rows && (0 <? length rows)) then Err RuntimeError
    else match alpha with
      | Some (DInt al) =>
        let s := py_int (inject_Z (al * Z.of_nat size) / inject_Z (Z.of_nat (length rows)))%Q in
        Ok (Some rows, (s * Z.of_nat (length rows))%Z, s)
      | _ => Err ValueError
      end
  end.

(** ** the machine *)
Inductive ptype := PComplex | PFloat | POther.
(** astype: to float drops the imaginary part *)
Definition cast (d : ptype) (z : cpx) : cpx := match d with PFloat => (fst z, 0%R) | _ => z end.

Record rcfg := RCfg {
  c_n : nat;                              (* visible units *)
  c_vis : bool; c_hid : bool;             (* use_visible_bias, use_hidden_bias *)
  c_sym : option (list (list nat));       (* _autom *)
  c_feat : nat;                           (* n_hidden, or alpha_symm with symmetries *)
  c_type : ptype }.
Definition c_hidden (c : rcfg) : nat :=
  match c_sym c with None => c_feat c | Some rows => c_feat c * length rows end.
Definition len_if (b : bool) (n : nat) : nat := if b then n else 0.
(** 112-116: _n_bare_par; 122, 124, 299-304: _n_par *)
Definition n_bare (c : rcfg) : nat := c_n c * c_hidden c + len_if (c_vis c) (c_n c) + len_if (c_hid c) (c_hidden c).
Definition n_par (c : rcfg) : nat :=
  match c_sym c with
  | None => n_bare c
  | Some _ => c_n c * c_feat c + len_if (c_vis c) 1 + len_if (c_hid c) (c_feat c)
  end.

(** 54-137: the constructor, without the arrays it allocates; an array cannot have a
    negative size *)
Definition construct (size : nat) (n_hidden : option Z) (alpha : option density) (vis hid : bool)
    (a : autom) (d : ptype) : res rcfg :=
  match d with
  | POther => Err TypeError
  | _ =>
    let? g := get_hidden a size n_hidden alpha in
    let '(t, m, s) := g in
    if (m <? 0)%Z then Err ValueError
    else Ok (RCfg size vis hid t (Z.to_nat s) d)
  end.

(** The memory of a machine: the (symmetric) parameters [_as], [_bs], [_ws] one after the
    other, and the full ones [_a], [_b], [_w]; the same memory without symmetries. *)
Record rmach := RMach { m_cfg : rcfg; m_par : list cpx; m_bare : list cpx }.
Definition at_ (l : list cpx) (i : nat) : cpx := nth i l (0%R, 0%R).

(** the arrays [_a], [_b], [_w] *)
Definition bare_a (c : rcfg) (bp : list cpx) : option (nat -> cpx) :=
  if c_vis c then Some (fun i => at_ bp i) else None.
Definition bare_b (c : rcfg) (bp : list cpx) : option (nat -> cpx) :=
  if c_hid c then Some (fun j => at_ bp (len_if (c_vis c) (c_n c) + j)) else None.
Definition bare_w (c : rcfg) (bp : list cpx) (i j : nat) : cpx :=
  at_ bp (len_if (c_vis c) (c_n c) + len_if (c_hid c) (c_hidden c) + (i * c_hidden c + j)).

(** 385-402: _set_bare_parameters *)
Definition set_bare (c : rcfg) (rows : list (list nat)) (p : list cpx) : list cpx :=
  let P := length rows in
  let ws k l := at_ p (len_if (c_vis c) 1 + len_if (c_hid c) (c_feat c) + (k * c_feat c + l)) in
  (if c_vis c then map (fun _ => at_ p 0) (seq 0 (c_n c)) else [])
  ++ (if c_hid c then map (fun j => at_ p (len_if (c_vis c) 1 + j / P)) (seq 0 (c_hidden c)) else [])
  ++ flat_map (fun i => map (fun j => ws (nth i (nth (j mod P) rows []) 0) (j / P)) (seq 0 (c_hidden c))) (seq 0 (c_n c)).
Definition expand (c : rcfg) (p : list cpx) : list cpx :=
  match c_sym c with None => p | Some rows => set_bare c rows p end.

(** 273-275: parameters, the concatenation of state_dict *)
Definition get_parameters (m : rmach) : list cpx := m_par m.
(** 277-292: the setter; state_dict of a real machine (249-269) makes new complex arrays and
    lets the machine look at their real parts *)
Definition set_parameters (m : rmach) (p : list cpx) : res rmach :=
  let c := m_cfg m in
  if negb (length p =? n_par c) then Err ValueError
  else
    let q := map (cast (c_type c)) p in
    Ok (RMach c q (expand c q)).
(** 242-248: writing into the arrays handed out by state_dict of a complex machine; they are
    views of the (symmetric) parameters *)
Definition write_state_dict (m : rmach) (p : list cpx) : rmach :=
  RMach (m_cfg m) p (match c_sym (m_cfg m) with None => p | Some _ => m_bare m end).

(** ** log_val *)
(** 26-37: _log_cosh_sum, one entry; np.sign of 0 is 0 *)
Definition sign (r : R) : R := if Rlt_dec 0 r then 1%R else if Rlt_dec r 0 then (-1)%R else 0%R.
Definition leg_log_cosh (x : cpx) : logval :=
  let x := rscal (sign (fst x)) x in
  option_map (fun l => radd cC (rsub cC x (ln 2, 0%R)) l) (clog (radd cC (1%R, 0%R) (cexp (rscal (-2) x)))).

Definition row_fn (x : list cpx) (i : nat) : cpx := at_ x i.
(** 144-179: the result and, when [out] is given, what that array holds afterwards: the
    kernel writes the sums over the hidden units into it and then binds [out] to a new
    array when there is a visible bias *)
Definition log_val (m : rmach) (ndim : nat) (x : list (list cpx)) (out : bool)
  : res (list logval * option (list logval)) :=
  let c := m_cfg m in
  if negb (ndim =? 2) then Err RuntimeError
  else
    let x := map (map (cast (c_type c))) x in
    let hid r := hidden leg_log_cosh (c_n c) (c_hidden c) (bare_w c (m_bare m)) (bare_b c (m_bare m)) (row_fn r) in
    let h := map hid x in
    let result := match bare_a c (m_bare m) with
      | None => h
      | Some a => map (fun r => ladd (hid r) (Some (dot (c_n c) (row_fn r) a))) x
      end in
    Ok (result, if out then Some h else None).

(** ** der_log *)
(** np.sinh / np.cosh; the division by zero is that of the reals *)
Definition cinv (z : cpx) : cpx := (fst z / cnorm2 z, - snd z / cnorm2 z)%R.
Definition ctanh (z : cpx) : cpx :=
  let e := cexp z in
  let f := cexp (ropp cC z) in
  rmul cC (rsub cC e f) (cinv (radd cC e f)).
(** 201-231: _bare_der_log, one row *)
Definition bare_der (c : rcfg) (bp : list cpx) (x : list cpx) : list cpx :=
  let r j := ctanh (dense (c_n c) (bare_w c bp) (bare_b c bp) (row_fn x) j) in
  (if c_vis c then map (row_fn x) (seq 0 (c_n c)) else [])
  ++ (if c_hid c then map r (seq 0 (c_hidden c)) else [])
  ++ flat_map (fun i => map (fun j => rmul cC (row_fn x i) (r j)) (seq 0 (c_hidden c))) (seq 0 (c_n c)).
(** 294-339: _build_der_mat; the row in which each column of der_mat_symm has its 1 *)
Definition der_rows (c : rcfg) (rows : list (list nat)) : list nat :=
  let P := length rows in
  let k1 := len_if (c_vis c) 1 in
  let k2 := k1 + len_if (c_hid c) (c_feat c) in
  (if c_vis c then map (fun _ => 0) (seq 0 (c_n c)) else [])
  ++ (if c_hid c then map (fun p => p / P + k1) (seq 0 (c_hidden c)) else [])
  ++ flat_map (fun i => map (fun j => j / P + c_feat c * nth i (nth (j mod P) rows []) 0 + k2) (seq 0 (c_hidden c))) (seq 0 (c_n c)).
Definition der_mat (c : rcfg) (rows : list (list nat)) (k q : nat) : cpx :=
  if nth q (der_rows c rows) 0 =? k then (1%R, 0%R) else (0%R, 0%R).
(** 181-199: der_log *)
Definition der_row (c : rcfg) (bp : list cpx) (x : list cpx) : list cpx :=
  match c_sym c with
  | None => bare_der c bp x
  | Some rows =>
    let d := bare_der c bp x in
    map (fun k => fsum cC (n_bare c) (fun q => rmul cC (at_ d q) (der_mat c rows k q))) (seq 0 (n_par c))
  end.
Definition der_log (m : rmach) (ndim : nat) (x : list (list cpx)) : res (list (list cpx)) :=
  if negb (ndim =? 2) then Err RuntimeError else Ok (map (der_row (m_cfg m) (m_bare m)) x).

(** ** RbmMultiVal *)
(** 592-602: _one_hot; the reshapes keep the entries in the order of memory, so entry [q] of
    the result of the whole array of [b] rows of [n] sites is about entry [q / L] *)
Definition one_hot_flat (locals : list Z) (v : list Z) : list cpx :=
  flat_map (fun s => map (fun l => if (s =? l)%Z then (1, 0)%R else (-1, 0)%R) locals) v.
(** rows of a memory block, [w] entries each *)
Fixpoint blocks {A} (n w : nat) (l : list A) : list (list A) :=
  match n with O => [] | S n => firstn w l :: blocks n w (skipn w l) end.
Definition one_hot (locals : list Z) (n : nat) (x : list (list Z)) : list (list cpx) :=
  blocks (length x) (n * length locals) (one_hot_flat locals (concat x)).
(** 604-627: _make_extended_symmetry *)
Definition extended (L : nat) (row : list nat) : list nat := flat_map (fun k => seq (k * L) L) row.
Definition extend_symmetry (a : autom) (size L : nat) : res autom :=
  match a with
  | ANone => Ok ANone
  | AFalse | ABad => Err RuntimeError
  | ATable rows =>
    if negb (forallb (fun r => length r =? size) rows && (0 <? length rows)) then Err RuntimeError
    else Ok (ATable (map (extended L) rows))
  end.
(** 529-590; [size] sites with the local states [locals] *)
Definition construct_multi (size : nat) (locals : list Z) n_hidden alpha vis hid a d : res rcfg :=
  let? e := extend_symmetry a size (length locals) in
  construct (length locals * size) n_hidden alpha vis hid e d.
Definition log_val_multi (m : rmach) (locals : list Z) (size ndim : nat) (x : list (list Z)) (out : bool)
  : res (list logval * option (list logval)) :=
  if negb (ndim =? 2) then Err RuntimeError else log_val m 2 (one_hot locals size x) out.

(** ** RbmSpinPhase: two real machines *)
Record phase := Phase { ph_a : rmach; ph_p : rmach }.
(** 672-739: the constructor *)
Definition construct_phase (size : nat) alpha n_hidden alpha_a alpha_p n_hidden_a n_hidden_p vis hid a
  : res (rcfg * rcfg) :=
  let n_hidden_a := match n_hidden with Some _ => n_hidden | None => n_hidden_a end in
  let n_hidden_p := match n_hidden with Some _ => n_hidden | None => n_hidden_p end in
  let alpha_a := match alpha with Some _ => alpha | None => alpha_a end in
  let alpha_p := match alpha with Some _ => alpha | None => alpha_p end in
  let? ca := construct size n_hidden_a alpha_a vis hid a PFloat in
  let? cp := construct size n_hidden_p alpha_p vis hid a PFloat in
  Ok (ca, cp).
(** 746-762 *)
Fixpoint zip_add (l m : list logval) : list logval :=
  match l, m with a :: l, b :: m => ladd a b :: zip_add l m | _, _ => [] end.
(** [out += ...] goes into the caller's array only if the machine for the amplitude returned
    that array *)
Definition log_val_phase (m : phase) (ndim : nat) (x : list (list cpx)) (out : bool)
  : res (list logval * option (list logval)) :=
  let? ra := log_val (ph_a m) ndim x out in
  let? rp := log_val (ph_p m) ndim x false in
  let result := zip_add (fst ra) (map (lscale (0, 1)%R) (fst rp)) in
  Ok (result, match snd ra with
              | None => None
              | Some b => Some (if c_vis (m_cfg (ph_a m)) then b else result)
              end).
(** 764-787 *)
Fixpoint zip_app (l m : list (list cpx)) : list (list cpx) :=
  match l, m with a :: l, b :: m => (a ++ b) :: zip_app l m | _, _ => [] end.
Definition der_log_phase (m : phase) (ndim : nat) (x : list (list cpx)) : res (list (list cpx)) :=
  let? da := der_log (ph_a m) ndim x in
  let? dp := der_log (ph_p m) ndim x in
  Ok (zip_app da (map (map (rmul cC (0, 1)%R)) dp)).
(** 789-803: parameters; the machine afterwards and the error, if any *)
Definition get_phase (m : phase) : list cpx := get_parameters (ph_a m) ++ get_parameters (ph_p m).
Definition set_phase (m : phase) (p : list cpx) : phase * option exn :=
  let k := n_par (m_cfg (ph_a m)) in
  match set_parameters (ph_a m) (firstn k p) with
  | Err e => (m, Some e)
  | Ok a =>
    match set_parameters (ph_p m) (skipn k p) with
    | Err e => (Phase a (ph_p m), Some e)
    | Ok q => (Phase a q, None)
    end
  end.
