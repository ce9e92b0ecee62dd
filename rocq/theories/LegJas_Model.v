(** * The numpy Jastrow machine and the functions shared by all machines
    (netket/legacy/machine/jastrow.py and abstract_machine.py)

    Complex numbers over the real numbers of the standard library, exact arithmetic; a real
    number is a complex one with imaginary part 0.  A batch is the list of its rows, with their
    common length beside it.  Automorphisms given as a graph (its list of automorphisms is
    taken), the random initialisation and the compilation by numba are left out; a row of
    automorphisms is read as 0 outside its bounds, the theorems are about permutations. *)
From Coq Require Import List Arith ZArith Bool Reals.
From Verif Require Import Base Rings ARNN_Model ToArray_Model Estim_Model Ansatz_Model LegRbm_Model.
Import ListNotations.
Open Scope R_scope.
Open Scope nat_scope.

(** ** The table of parameters *)
(** for i in range(n): for j in range(i + 1, n, 1) *)
Definition pairs (n : nat) : list (nat * nat) :=
  flat_map (fun i => map (fun j => (i, j)) (seq (S i) (n - S i))) (seq 0 n).
Definition table := nat -> nat -> nat.
(** W[u, v] = k; W[v, u] = k *)
Definition put (W : table) (u v k : nat) : table :=
  fun a b => if (a =? u) && (b =? v) || (a =? v) && (b =? u) then k else W a b.
Definition blank : table := fun _ _ => 0.
(** jastrow.py 77-86: without automorphisms; the table and the number of parameters *)
Fixpoint number (ps : list (nat * nat)) (k : nat) (W : table) : table * nat :=
  match ps with
  | [] => (W, k)
  | (i, j) :: ps => number ps (S k) (put W i j k)
  end.
Definition plain_table (n : nat) : table * nat :=
  (fst (number (pairs n) 0 blank), n * (n - 1) / 2).

(** 216-253: _gen_symm *)
(** 219-231 *)
Definition put_rows (am : list (list nat)) (i j k : nat) (W : table) : table :=
  fold_left (fun W row => put W (nth i row 0) (nth j row 0) k) am W.
Fixpoint mark (am : list (list nat)) (ps : list (nat * nat)) (k : nat) (W : table) : table :=
  match ps with
  | [] => W
  | (i, j) :: ps => mark am ps (S k) (put_rows am i j k W)
  end.
(** 233-242: the dictionary, as the list of its keys; the value of a key is its position *)
Fixpoint keys (W : table) (ps : list (nat * nat)) (d : list nat) : list nat :=
  match ps with
  | [] => d
  | (i, j) :: ps =>
    let k := W i j in
    keys W ps (if existsb (Nat.eqb k) d then d else d ++ [k])
  end.
Fixpoint position (k : nat) (d : list nat) : option nat :=
  match d with
  | [] => None
  | x :: d => if k =? x then Some 0 else option_map S (position k d)
  end.
(** 244-251 *)
Fixpoint rename (d : list nat) (ps : list (nat * nat)) (W : table) : res table :=
  match ps with
  | [] => Ok W
  | (i, j) :: ps =>
    match position (W i j) d with
    | Some v => rename d ps (put W i j v)
    | None => Err RuntimeError
    end
  end.
Definition gen_symm (n : nat) (am : list (list nat)) : res (table * nat) :=
  let W := mark am (pairs n) 0 blank in
  let d := keys W (pairs n) [] in
  let? W := rename d (pairs n) W in
  Ok (W, length d).

(** ** The machine *)
Record jmach := JMach {
  j_n : nat; j_type : ptype; j_map : table; j_nsym : nat;
  j_a : option (list cpx);          (* _a *)
  j_J : list cpx }.                 (* _J *)
Definition czero : cpx := (0, 0)%R.
(** 36-108; [junk] is the content of the memory given by np.empty *)
Definition construct (n : nat) (vis : bool) (am : autom) (d : ptype) (junk : nat -> cpx) : res jmach :=
  match d with
  | POther => Err TypeError
  | _ =>
    if n <? 2 then Err ValueError
    else
      let? t := match am with
        | ANone => Ok (plain_table n)
        | ATable rows =>
          if negb (forallb (fun r => length r =? n) rows && (0 <? length rows)) then Err RuntimeError
          else gen_symm n rows
        | AFalse | ABad => Err RuntimeError
        end in
      let '(W, k) := t in
      Ok (JMach n d W k (if vis then Some (map (fun i => cast d (junk i)) (seq 0 n)) else None) (repeat czero k))
  end.
(** 106, 110-113 *)
Definition jn_par (m : jmach) : nat := j_nsym m + match j_a m with Some a => length a | None => 0 end.

(** 190-212 and abstract_machine.py 173-187: parameters; state_dict has the bias first.  In a
    machine of real numbers the arrays handed out are complex ones of which the machine keeps
    the real parts. *)
Definition jget (m : jmach) : list cpx := match j_a m with Some a => a | None => [] end ++ j_J m.
Definition jset (m : jmach) (p : list cpx) : res jmach :=
  if negb (length p =? jn_par m) then Err ValueError
  else
    let q := map (cast (j_type m)) p in
    let k := match j_a m with Some a => length a | None => 0 end in
    Ok (JMach (j_n m) (j_type m) (j_map m) (j_nsym m)
         (match j_a m with Some _ => Some (firstn k q) | None => None end) (skipn k q)).

(** 132-147: one row of [w] entries *)
Definition two_body (m : jmach) (w : nat) (x : list cpx) : cpx :=
  lsum cC (map (fun p => rmul cC (rmul cC (at_ x (fst p)) (at_ (j_J m) (j_map m (fst p) (snd p)))) (at_ x (snd p))) (pairs w)).
(** 115-147: the result and, when [out] is given, what that array holds afterwards.  Rows that
    are too long make the kernel read outside the table. *)
Definition jlog_val (m : jmach) (w : nat) (x : list (list cpx)) (out : bool) : res (list cpx * option (list cpx)) :=
  let x := map (map (cast (j_type m))) x in
  if (j_n m <? w) && negb (length x =? 0) then Err Fault
  else
    let h := map (two_body m w) x in
    match j_a m with
    | None => Ok (h, if out then Some h else None)
    | Some a =>
      if negb (w =? length a) then Err ValueError
      else Ok (map (fun r => radd cC (two_body m w r) (dot w (row_fn r) (at_ a))) x, if out then Some h else None)
    end.
(** 165-188: one row *)
Definition jder_row (m : jmach) (w : nat) (x : list cpx) : list cpx :=
  (match j_a m with Some _ => map (at_ x) (seq 0 w) | None => [] end)
  ++ map (fun k => lsum cC (map (fun p => rmul cC (at_ x (fst p)) (at_ x (snd p)))
                          (filter (fun p => j_map m (fst p) (snd p) =? k) (pairs w)))) (seq 0 (j_nsym m)).
(** 149-188, for rows of the right length *)
Definition jder_log (m : jmach) (w : nat) (x : list (list cpx)) : list (list cpx) :=
  map (jder_row m w) (map (map (cast (j_type m))) x).

(** ** abstract_machine.py *)
(** 38-77: vector_jacobian_prod.  [jac] holds the rows of der_log for the configurations; an
    array of three axes comes as the list of its slices.  [npar] columns. *)
Definition row_sum (npar : nat) (rows : list (list cpx)) (c : list cpx) (f : cpx -> cpx) : list cpx :=
  map (fun k => fsum cC (length rows) (fun b => rmul cC (f (at_ (nth b rows []) k)) (at_ c b))) (seq 0 npar).
Definition vjp (npar : nat) (jac : list (list cpx)) (vec : list cpx) (conjugate : bool) : res (list cpx) :=
  if negb (length jac =? length vec) then Err ValueError
  else if conjugate then Ok (row_sum npar jac vec (rconj cC))
  else Ok (row_sum npar jac (map (rconj cC) vec) (fun z => z)).
(** three axes: np.stack refuses an empty list; tensordot with axes=1 contracts the flat vector
    with the first axis only *)
Definition vjp3 (npar : nat) (jac : list (list (list cpx))) (vec : list cpx) (conjugate : bool) : res (list cpx) :=
  match jac with
  | [] => Err ValueError
  | s :: _ =>
    if negb (length jac =? length vec) then Err ValueError
    else
      let slice j := map (fun sl => nth j sl []) jac in
      Ok (flat_map (fun j => if conjugate then row_sum npar (slice j) vec (rconj cC)
                             else row_sum npar (slice j) (map (rconj cC) vec) (fun z => z)) (seq 0 (length s)))
  end.

(** 98-127: to_array; [logs] are the values of log_val on all states, none of them infinite.
    psi.real.max() of an empty array raises ValueError; a norm of zero does not occur. *)
Fixpoint rmax (l : list R) : R := match l with [] => 0%R | [x] => x | x :: l => Rmax x (rmax l) end.
Definition machine_array (indexable : bool) (logs : list cpx) (normalize : bool) : res (list cpx) :=
  if indexable then
    match logs with
    | [] => Err ValueError
    | _ =>
      let m := rmax (map fst logs) in
      let psi := map (fun z => cexp (fst z - m, snd z)%R) logs in
      if normalize then
        let norm := sqrt (rsum (map cnorm2 psi)) in
        Ok (map (fun z => (fst z / norm, snd z / norm)%R) psi)
      else Ok psi
    end
  else Err RuntimeError.
(** 129-152: log_norm *)
Definition log_norm (indexable : bool) (logs : list cpx) (order : R) : res R :=
  if indexable then
    match logs with
    | [] => Err ValueError
    | _ =>
      let m := rmax (map fst logs) in
      Ok (ln (rsum (map (fun z => exp (order * (fst z - m))) logs)) + m * order)%R
    end
  else Err RuntimeError.

(** 215-223: save and load; the numpy file format is an oracle *)
Section File.
  Variable bytes : Type.
  Variable encode : list cpx -> bytes.
  Variable decode : bytes -> option (list cpx).      (* None: np.load raises *)
  Variable empty : bytes.
  (** the contents of the file at each point at which the program may be stopped *)
  Definition save (is_str : bool) (old : bytes) (m : jmach) : list bytes * option exn :=
    if negb is_str then ([old], Some AssertionError)
    else ([old; empty; encode (jget m)], None).
  Definition load (m : jmach) (file : bytes) : res jmach :=
    match decode file with
    | None => Err ValueError
    | Some p => if negb (length p =? length (jget m)) then Err ValueError else jset m p
    end.
End File.
