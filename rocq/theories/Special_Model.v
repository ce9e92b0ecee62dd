(** * Ising and Bose-Hubbard Hamiltonians (netket/operator/_hamiltonian.py) *)
From Coq Require Import ZArith List Bool.
From Coq Require Import setoid_ring.InitialRing.
From Verif Require Import Base Scalar LocalOp_Spec LocalOp_Model.
Import ListNotations.

Section Special.
Variable S : scalars.

(** quantum numbers as numbers *)
Definition kz : Z -> K S := gen_phiZ (k0 S) (k1 S) (kadd S) (kmul S) (kopp S).

(** writing the elements of one sample into the buffers, from position [c] on *)
Fixpoint put_row (row : list (list Z * K S)) (c : nat) (mels : list (K S))
  (xp : list (list Z)) : res (nat * list (K S) * list (list Z)) :=
  match row with
  | [] => Ok (c, mels, xp)
  | (y, w) :: row' =>
      let? mels := bset mels c w in
      let? xp := bset xp c y in
      put_row row' (c + 1) mels xp
  end.

(** the loop over the batch; with [pad = Some max_conn] sample number b ends at
    (b+1) * max_conn *)
Fixpoint put_batch (f : list Z -> list (list Z * K S)) (pad : option nat) (b : nat)
  (xs : list (list Z)) (c : nat) (mels : list (K S)) (xp : list (list Z))
  (sections : list nat) : res (nat * list (K S) * list (list Z) * list nat) :=
  match xs with
  | [] => Ok (c, mels, xp, sections)
  | x :: xs' =>
      let? st := put_row (f x) c mels xp in
      let c' := match pad with
                | None => fst (fst st)
                | Some max_conn => ((b + 1) * max_conn)%nat
                end in
      put_batch f pad (b + 1) xs' c' (snd (fst st)) (snd st) (sections ++ [c'])
  end.

(** ** Ising (lines 105-354) *)
Record ising := mkIsing {
  is_n : nat;                       (* hilbert.size *)
  is_edges : list (nat * nat);
  is_h : K S;
  is_J : K S
}.

(** constructor (lines 112-150): assert graph.n_nodes == hilbert.size *)
Definition mk_ising (n graph_nodes : nat) (edges : list (nat * nat)) (h J : K S) : res ising :=
  if Nat.eqb graph_nodes n then Ok (mkIsing n edges h J) else Err AssertionError.

(** lines 269-302: the elements of one sample; the diagonal slot accumulates J x_i x_j, the
    other n_sites slots hold -h and the sample with one sign reversed *)
Definition ising_row (o : ising) (x : list Z) : list (list Z * K S) :=
  (x, fold_left (fun acc e => kadd S acc (kmul S (kmul S (is_J o) (kz (nth (fst e) x 0%Z)))
                                               (kz (nth (snd e) x 0%Z))))
                (is_edges o) (k0 S))
  :: map (fun j => (upd x j (- nth j x 0)%Z, kopp S (is_h o))) (seq 0 (length x)).

(** _flattened_kernel (lines 248-304): buffers of size batch * (n_sites + 1).  Without
    edges the edge array (line 148) has one dimension and the compiled kernel, which indexes
    it with two, is rejected by numba. *)
Definition ising_flattened (o : ising) (junk : nat -> K S) (junkx : nat -> list Z)
  (xs : list (list Z)) : res (list (K S) * list (list Z) * list nat) :=
  if match is_edges o with [] => true | _ => false end then Err TypeError else
  let tot := (length xs * (is_n o + 1))%nat in
  let? r := put_batch (ising_row o) None 0 xs 0 (map junk (seq 0 tot)) (map junkx (seq 0 tot)) [] in
  Ok (snd (fst (fst r)), snd (fst r), snd r).

Definition ising_max_conn_size (o : ising) : nat := is_n o + 1.

(** Graph(edges): without n_nodes, the largest label plus one (graph/graph.py:52-56) *)
Definition graph_nodes (edges : list (nat * nat)) : nat :=
  match edges with
  | [] => O
  | _ => (list_max (map (fun e => Nat.max (fst e) (snd e)) edges) + 1)%nat
  end.

(** copy (lines 210-212) and sum (lines 40-46 and 230-237) *)
Definition ising_copy (o : ising) : res ising :=
  mk_ising (is_n o) (graph_nodes (is_edges o)) (is_edges o) (is_h o) (is_J o).
Definition ising_add (a b : ising) : res ising :=
  let? c := ising_copy a in
  if Nat.eqb (is_n c) (is_n b)
  then Ok (mkIsing (is_n c) (is_edges c) (kadd S (is_h c) (is_h b)) (kadd S (is_J c) (is_J b)))
  else Err NotImplementedError.

(** operator/spin.py:21-41 and 68-89 for two local states *)
Definition sigmax : list (list (K S)) := [[k0 S; k1 S]; [k1 S; k0 S]].
Definition sigmaz : list (list (K S)) := [[k1 S; k0 S]; [k0 S; kopp S (k1 S)]].
Definition site_op (m : list (list (K S))) (i : nat) : expr S := New S (k0 S) [(m, [i])].

(** to_local_operator (lines 214-228); [h != 0] and [J != 0] only skip zero terms.  In-place
    sums on the local variable are written as sums (see C18). *)
Definition ising_local (nonzero : K S -> bool) (o : ising) : expr S :=
  let e := New S (k0 S) [] in
  let e := if nonzero (is_h o)
           then fold_left (fun e i => Minus S e (Times S (site_op sigmax i) (is_h o)))
                          (seq 0 (is_n o)) e
           else e in
  if nonzero (is_J o)
  then fold_left (fun e p => Plus S e (Times S (Matmul S (site_op sigmaz (fst p))
                                                       (site_op sigmaz (snd p))) (is_J o)))
                 (is_edges o) e
  else e.

(** ** BoseHubbard (lines 441-816); [bh_Uh] is 0.5 * U and [rt] is math.sqrt *)
Variable rt : Z -> K S.
Record bose := mkBose {
  bh_n : nat;
  bh_nmax : Z;
  bh_edges : list (nat * nat);
  bh_U : K S; bh_Uh : K S; bh_V : K S; bh_J : K S; bh_mu : K S
}.

(** lines 708-722 (and 636-645): the two hopping elements of an edge *)
Definition bh_hops (o : bose) (x : list Z) (e : nat * nat) : list (list Z * K S) :=
  let i := fst e in let j := snd e in
  let n_i := nth i x 0%Z in let n_j := nth j x 0%Z in
  let move a b :=                                   (* x[a] -= 1; x[b] += 1 *)
    let y := upd x a (nth a x 0 - 1)%Z in upd y b (nth b y 0 + 1)%Z in
  (if (0 <? n_i)%Z && (n_j <? bh_nmax o)%Z
   then [(move i j, kmul S (kmul S (kopp S (bh_J o)) (rt n_i)) (rt (n_j + 1)%Z))] else []) ++
  (if (0 <? n_j)%Z && (n_i <? bh_nmax o)%Z
   then [(move j i, kmul S (kmul S (kopp S (bh_J o)) (rt n_j)) (rt (n_i + 1)%Z))] else []).

(** lines 691-706 (and 617-653): the diagonal slot *)
Definition bh_diag (o : bose) (x : list Z) : K S :=
  let d0 := fold_left
    (fun acc i => kadd S (ksub S acc (kmul S (bh_mu o) (kz (nth i x 0%Z))))
                         (kmul S (kmul S (bh_Uh o) (kz (nth i x 0%Z)))
                                 (ksub S (kz (nth i x 0%Z)) (k1 S))))
    (seq 0 (length x)) (k0 S) in
  fold_left (fun acc e => kadd S acc (kmul S (kmul S (bh_V o) (kz (nth (fst e) x 0%Z)))
                                             (kz (nth (snd e) x 0%Z))))
            (bh_edges o) d0.

Definition bh_row (o : bose) (x : list Z) : list (list Z * K S) :=
  (x, bh_diag o x) :: flat_map (bh_hops o x) (bh_edges o).

Definition bh_max_conn (o : bose) : nat := 1 + length (bh_edges o) * 2.

(** get_conn_flattened (lines 748-789) and _flattened_kernel (657-746) with the cached buffers of earlier calls: reused when
    large enough, otherwise replaced; zeroed when padding; copies of the used part are
    returned together with the buffers kept for the next call.  Without edges numba rejects
    the kernel, as for Ising. *)
Definition bh_flattened (o : bose) (pad : bool) (mels : list (K S)) (xp : list (list Z))
  (junk : nat -> K S) (junkx : nat -> list Z) (xs : list (list Z))
  : res ((list (K S) * list (list Z) * list nat) * (list (K S) * list (list Z))) :=
  if match bh_edges o with [] => true | _ => false end then Err TypeError else
  let total := (length xs * bh_max_conn o)%nat in
  let small := Nat.ltb (length mels) total in
  let mels := if small then map junk (seq 0 total) else mels in
  let xp := if small then map junkx (seq 0 total) else xp in
  let mels := if pad then map (fun _ => k0 S) mels else mels in
  let xp := if pad then map (fun _ => repeat 0%Z (bh_n o)) xp else xp in
  let? r := put_batch (bh_row o) (if pad then Some (bh_max_conn o) else None) 0 xs 0 mels xp [] in
  let c := fst (fst (fst r)) in
  Ok ((firstn c (snd (fst (fst r))), firstn c (snd (fst r)), snd r),
      (snd (fst (fst r)), snd (fst r))).

(** get_conn (lines 596-655): the same elements, written to the cached buffers *)
Definition bh_get_conn (o : bose) (mels : list (K S)) (xp : list (list Z)) (x : list Z)
  : res (list (list Z * K S)) :=
  let? st := put_row (bh_row o x) 0 mels xp in
  let c := fst (fst st) in
  Ok (combine (firstn c (snd st)) (firstn c (snd (fst st)))).

(** constructor (lines 447-501), copy (535-545) and sum (lines 40-46 and 568-577) *)
Definition mk_bose (n graph_nodes : nat) (nmax : Z) (edges : list (nat * nat))
  (U Uh V J mu : K S) : res bose :=
  if Nat.eqb graph_nodes n then Ok (mkBose n nmax edges U Uh V J mu) else Err AssertionError.
Definition bh_copy (o : bose) : res bose :=
  mk_bose (bh_n o) (graph_nodes (bh_edges o)) (bh_nmax o) (bh_edges o)
          (bh_U o) (bh_Uh o) (bh_V o) (bh_J o) (bh_mu o).
Definition bh_add (a b : bose) : res bose :=
  let? c := bh_copy a in
  if Nat.eqb (bh_n c) (bh_n b) && Z.eqb (bh_nmax c) (bh_nmax b)
  then Ok (mkBose (bh_n c) (bh_nmax c) (bh_edges c) (kadd S (bh_U c) (bh_U b))
                  (kadd S (bh_Uh c) (bh_Uh b)) (kadd S (bh_V c) (bh_V b))
                  (kadd S (bh_J c) (bh_J b)) (kadd S (bh_mu c) (bh_mu b)))
  else Err NotImplementedError.

(** operator/boson.py: destroy (22-45), create (48-69), number (72-93) on [d] local states *)
Definition destroy (d : nat) : list (list (K S)) :=
  mbuild S d d (fun i j => if Nat.eqb j (i + 1) then rt (Z.of_nat j) else k0 S).
Definition create (d : nat) : list (list (K S)) :=
  mbuild S d d (fun i j => if Nat.eqb i (j + 1) then rt (Z.of_nat i) else k0 S).
Definition number (d : nat) : list (list (K S)) :=
  mbuild S d d (fun i j => if Nat.eqb i j then kz (Z.of_nat i) else k0 S).

(** to_local_operator (lines 547-566) *)
Definition bh_local (nonzero : K S -> bool) (o : bose) : expr S :=
  let d := Z.to_nat (bh_nmax o + 1) in
  let n_ i := site_op (number d) i in
  let e := New S (k0 S) [] in
  let e := if nonzero (bh_U o) || nonzero (bh_mu o)
           then fold_left
                  (fun e i => Plus S e
                     (Minus S (Matmul S (Times S (n_ i) (bh_U o)) (PlusNum S (n_ i) (kopp S (k1 S))))
                              (Times S (n_ i) (bh_mu o))))
                  (seq 0 (bh_n o)) e
           else e in
  if nonzero (bh_J o)
  then fold_left
         (fun e p =>
            let i := fst p in let j := snd p in
            let e := Plus S e (Times S (Matmul S (n_ i) (n_ j)) (bh_V o)) in
            Minus S e
              (Times S (Plus S (Matmul S (site_op (destroy d) i) (site_op (create d) j))
                               (Matmul S (site_op (create d) i) (site_op (destroy d) j)))
                       (bh_J o)))
         (bh_edges o) e
  else e.
End Special.
