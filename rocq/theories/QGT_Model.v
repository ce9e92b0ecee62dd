(** * Quantum geometric tensor (netket/optimizer/qgt)

    Exact arithmetic.  All MPI ranks are modelled at once; a collective sees the list of
    the local values.  A sample carries the derivatives of log psi with respect to the
    real and to the imaginary part of every scalar parameter, which is what jvp and vjp
    evaluate.  An array is a function on its indices.  rescale_shift is modelled on the
    kernels; model_state and dtypes beyond real/complex are left out. *)
From Coq Require Import List Arith Bool Reals.
From Verif Require Import Base Rings ARNN_Model Estim_Model.
Import ListNotations.
Open Scope nat_scope.

(** ** kernels, over real or complex numbers *)
Section Kernel.
  Variable C : cring.
  Variable qn : nat -> T C.     (* 1 / n *)
  Variable sq : nat -> T C.     (* 1 / sqrt n *)
  Variable I : Type.
  Notation "x + y" := (radd C x y).
  Notation "x * y" := (rmul C x y).
  Notation conj := (rconj C).
  Notation row := (I -> T C).

  (** stats/mpi_stats.py 20-37 (subtract_mean, axis 0) and 40-61 (mean): mean over the
      ranks of the means of the ranks. *)
  Definition mean (ranks : list (list row)) (c : I) : T C :=
    qn (length ranks) * lsum C (map (fun rk => qn (length rk) * lsum C (map (fun r => r c) rk)) ranks).
  Definition subtract_mean (ranks : list (list row)) : list (list row) :=
    map (map (fun r c => rsub C (r c) (mean ranks c))) ranks.
  (** jacobian_pytree_logic 103-108, jacobian_dense_logic 283-284; [n_local] is
      samples.shape[0]. *)
  Definition divide_sqrt (n_local : nat) (ranks : list (list row)) : list (list row) :=
    map (map (fun r c => r c * sq (n_local * length ranks)%nat)) ranks.

  (** jacobian_pytree_logic 153-158: one tensordot per leaf, the leaves added. *)
  Definition jvp (leaves : list (list I)) (r v : row) : T C :=
    lsum C (map (fun leaf => lsum C (map (fun c => r c * v c) leaf)) leaves).
  (** 161-166 *)
  Definition vjp (ranks : list (list row)) (w : list (list (T C))) (c : I) : T C :=
    lsum C (map (fun p => lsum C (map (fun q => fst q * snd q c) (combine (fst p) (snd p)))) (combine w ranks)).
  (** 169-174, 270-285 *)
  Definition mat_vec_pytree (leaves : list (list I)) (ranks : list (list row)) (shift : T C) (v : row) : row :=
    fun c => shift * v c + conj (vjp ranks (map (map (fun r => conj (jvp leaves r v))) ranks) c).

  (** qgt_jacobian_dense.py 170-173 *)
  Definition mat_vec_dense (cols : list I) (ranks : list (list row)) (shift : T C) (v : row) : row :=
    fun c => lsum C (map (fun rk => conj (lsum C (map (fun r =>
       conj (lsum C (map (fun d => r d * v d) cols)) * r c) rk))) ranks) + shift * v c.

  (** qgt_jacobian_dense.py 221-230 and qgt_jacobian_pytree.py 232-243, scale None *)
  Definition to_dense_jac (ranks : list (list row)) (shift : T C) (eqb : I -> I -> bool) (c d : I) : T C :=
    lsum C (map (fun rk => lsum C (map (fun r => conj (r c) * r d) rk)) ranks)
    + shift * (if eqb c d then r1 C else r0 C).

  (** _rescale (dense 190-204, pytree 135-150) with square roots [root] and division
      [dvd]; then the products and the dense matrix with a scale. *)
  Variable root : T C -> T C.
  Variable dvd : T C -> T C -> T C.
  Definition scale_of (ranks : list (list row)) : row :=
    fun c => root (lsum C (map (fun rk => lsum C (map (fun r => r c * conj (r c)) rk)) ranks)).
  Definition rescale (ranks : list (list row)) : list (list row) * row :=
    (map (map (fun r c => dvd (r c) (scale_of ranks c))) ranks, scale_of ranks).
  Definition scaled_pytree (leaves : list (list I)) (o : list (list row) * row) (shift : T C) (v : row) : row :=
    fun c => mat_vec_pytree leaves (fst o) shift (fun d => v d * snd o d) c * snd o c.
  Definition scaled_dense (cols : list I) (o : list (list row) * row) (shift : T C) (v : row) : row :=
    fun c => mat_vec_dense cols (fst o) shift (fun d => v d * snd o d) c * snd o c.
  Definition scaled_to_dense (o : list (list row) * row) (shift : T C) (eqb : I -> I -> bool) (c d : I) : T C :=
    lsum C (map (fun rk => lsum C (map (fun r => conj (r c * snd o c) * (r d * snd o d)) rk)) (fst o))
    + shift * (if eqb c d then snd o c * snd o c else r0 C).
End Kernel.
Notation row C I := (I -> T C) (only parsing).

(** ** parameters *)
Open Scope R_scope.
(** A leaf of the parameters: complex or real, number of scalars.  Scalars are numbered
    in the order of the leaves. *)
Definition leaves := list (bool * nat).
Fixpoint n_pars (ls : leaves) : nat := match ls with [] => O | l :: ls => (snd l + n_pars ls)%nat end.
(** Is scalar [k] complex? *)
Fixpoint flag (ls : leaves) (k : nat) : bool :=
  match ls with
  | [] => false
  | (b, n) :: ls => if (k <? n)%nat then b else flag ls (k - n)
  end.
(** Real coordinates: (scalar, false) its real part, (scalar, true) its imaginary part. *)
Definition coord := (nat * bool)%type.
Definition part (p : bool) (z : cpx) : R := if p then snd z else fst z.

(** jax/utils.py 234-266 (tree_to_real): a complex leaf becomes a leaf of real parts and
    a leaf of imaginary parts. *)
Fixpoint real_leaves (off : nat) (ls : leaves) : list (list coord) :=
  match ls with
  | [] => []
  | (b, n) :: ls =>
      let re := map (fun k => (k, false)) (seq off n) in
      let im := map (fun k => (k, true)) (seq off n) in
      (if b then [re; im] else [re]) ++ real_leaves (off + n) ls
  end.
(** jacobian_dense_logic 33-76 (tree_to_reim), ravelled: the real parts of all leaves,
    then the imaginary parts of the complex leaves. *)
Definition reim_columns (ls : leaves) : list coord :=
  map (fun k => (k, false)) (seq 0 (n_pars ls))
  ++ map (fun k => (k, true)) (filter (flag ls) (seq 0 (n_pars ls))).
(** jacobian_dense_logic 79-105 (vec_to_real) of the ravelled vector, which is complex as
    soon as one leaf is. *)
Definition vec_columns (ls : leaves) : list coord :=
  map (fun k => (k, false)) (seq 0 (n_pars ls))
  ++ (if existsb (fun l => fst l) ls then map (fun k => (k, true)) (seq 0 (n_pars ls)) else []).

(** Derivatives of log psi at one sample: Re p_k and Im p_k. *)
Record sample := Sample { jx : nat -> cpx; jy : nat -> cpx }.
Definition entry (s : sample) (c : coord) : cpx := if snd c then jy s (fst c) else jx s (fst c).

Inductive mode := MReal | MComplex | MHolo.

(** vjp with cotangent 1 and with cotangent -i, for real (split) parameters. *)
Definition grad_1 (s : sample) : row rR coord := fun c => fst (entry s c).
Definition grad_mi (s : sample) : row rR coord := fun c => - (-1 * snd (entry s c)).
(** vjp with cotangent 1 for the parameters as they are. *)
Definition grad_holo (ls : leaves) (s : sample) : row cC nat :=
  fun k => if flag ls k then jax_vjp (1, 0) (fst (jx s k)) (fst (jy s k)) (snd (jx s k)) (snd (jy s k))
           else (fst (jx s k), 0).

Definition qr (n : nat) : R := / INR n.
Definition sr (n : nat) : R := / sqrt (INR n).
Definition qc (n : nat) : cpx := (/ INR n, 0).
Definition sc (n : nat) : cpx := (/ sqrt (INR n), 0).

(** ** prepare_centered_oks *)
Definition n_local (ranks : list (list sample)) : nat := length (hd [] ranks).

(** jacobian_pytree_logic 182-267: in complex mode the real and imaginary parts are
    centred and stacked along the samples. *)
Definition oks_pytree (m : mode) (ranks : list (list sample)) : list (list (row rR coord)) :=
  match m with
  | MReal => divide_sqrt rR sr coord (n_local ranks) (subtract_mean rR qr coord (map (map grad_1) ranks))
  | _ => divide_sqrt rR sr coord (n_local ranks)
      (map (fun p => fst p ++ snd p)
        (combine (subtract_mean rR qr coord (map (map grad_1) ranks))
                 (subtract_mean rR qr coord (map (map grad_mi) ranks))))
  end.
(** jacobian_dense_logic 207-293: in complex mode every sample has a row of real and a
    row of imaginary parts; the mean is taken for each of the two. *)
Definition interleave {A} (p : list A * list A) : list A :=
  concat (map (fun q => [fst q; snd q]) (combine (fst p) (snd p))).
Definition oks_dense (m : mode) (ranks : list (list sample)) : list (list (row rR coord)) :=
  match m with
  | MReal => divide_sqrt rR sr coord (n_local ranks) (subtract_mean rR qr coord (map (map grad_1) ranks))
  | _ => divide_sqrt rR sr coord (n_local ranks)
      (map interleave
        (combine (subtract_mean rR qr coord (map (map grad_1) ranks))
                 (subtract_mean rR qr coord (map (map grad_mi) ranks))))
  end.
Definition oks_holo (ls : leaves) (ranks : list (list sample)) : list (list (row cC nat)) :=
  divide_sqrt cC sc nat (n_local ranks) (subtract_mean cC qc nat (map (map (grad_holo ls)) ranks)).

(** ** products with a vector, one complex number per scalar; real scalars use the real
    part only (tree_cast). *)
Definition holo_leaves (ls : leaves) : list (list nat) :=
  let fix go off ls := match ls with [] => [] | l :: ls => seq off (snd l) :: go (off + snd l)%nat ls end in
  go O ls.
Definition cast (ls : leaves) (v : nat -> cpx) (k : nat) : cpx := if flag ls k then v k else (fst (v k), 0).
(** inverse of the splitting *)
Definition reassemble (ls : leaves) (x : coord -> R) (k : nat) : cpx :=
  if flag ls k then (x (k, false), x (k, true)) else (x (k, false), 0).

(** qgt_jacobian_pytree.py 165-198 *)
Definition matmul_pytree (m : mode) (ls : leaves) (ranks : list (list sample)) (shift : R) (v : nat -> cpx)
  : nat -> cpx :=
  match m with
  | MHolo => cast ls (mat_vec_pytree cC nat (holo_leaves ls) (oks_holo ls ranks) (shift, 0) v)
  | _ => reassemble ls (mat_vec_pytree rR coord (real_leaves 0 ls) (oks_pytree m ranks) shift
            (fun c => part (snd c) (v (fst c))))
  end.

(** qgt_jacobian_dense.py 153-184.  The columns of the Jacobian and the entries of the
    vector are matched by position; different numbers raise TypeError. *)
Definition positions (cols : list coord) (x : nat -> R) (d : R) (c : coord) : R :=
  let fix go i cols := match cols with
    | [] => d
    | e :: cols => if ((fst c =? fst e)%nat && Bool.eqb (snd c) (snd e))%bool then x i else go (S i) cols
    end in go O cols.
Definition matmul_dense (m : mode) (ls : leaves) (ranks : list (list sample)) (shift : R) (v : nat -> cpx)
  : res (nat -> cpx) :=
  match m with
  | MHolo => Ok (cast ls (mat_vec_dense cC nat (seq 0 (n_pars ls)) (oks_holo ls ranks) (shift, 0) v))
  | _ =>
      let jc := reim_columns ls in
      let vc := vec_columns ls in
      if (length jc =? length vc)%nat then
        let at_ (cols : list coord) (i : nat) := nth i cols (O, false) in
        let rows := map (map (fun (r : row rR coord) i => r (at_ jc i))) (oks_dense m ranks) in
        let x := fun i => let c := at_ vc i in part (snd c) (v (fst c)) in
        let y := mat_vec_dense rR nat (seq 0 (length jc)) rows shift x in
        Ok (reassemble ls (positions vc y 0))
      else Err TypeError
  end.

(** qgt_onthefly_logic 28-98, qgt_onthefly.py 112-157 *)
Definition o_jvp (ls : leaves) (s : sample) (v : nat -> cpx) : cpx :=
  lsum cC (map (fun k => radd cC (rscal (fst (v k)) (jx s k))
     (if flag ls k then rscal (snd (v k)) (jy s k) else (0, 0))) (seq 0 (n_pars ls))).
Definition o_vjp (ls : leaves) (ranks : list (list sample)) (w : list (list cpx)) (k : nat) : cpx :=
  lsum cC (map (fun p => lsum cC (map (fun q => let s := snd q in let y := fst q in
     if flag ls k then jax_vjp y (fst (jx s k)) (fst (jy s k)) (snd (jx s k)) (snd (jy s k))
     else (fst y * fst (jx s k) - snd y * snd (jx s k), 0)) (combine (fst p) (snd p)))) (combine w ranks)).
Definition matmul_onthefly (ls : leaves) (ranks : list (list sample)) (shift : R) (v : nat -> cpx) (k : nat) : cpx :=
  let v := cast ls v in
  let w := map (map (fun s => o_jvp ls s v)) ranks in
  let w := map (map (rscal (1 / INR (n_local ranks * length ranks)))) w in
  let w := map (map (fun z (_ : unit) => z)) w in
  let w := map (map (fun f => f tt)) (subtract_mean cC qc unit w) in
  let res := fun k => rconj cC (o_vjp ls ranks (map (map (rconj cC)) w) k) in
  radd cC (rscal shift (v k)) (res k).
(** qgt_onthefly.py 175-190; [complex]: the rows come out complex. *)
Definition to_dense_onthefly (ls : leaves) (ranks : list (list sample)) (shift : R) (complex : bool) (k l : nat) : cpx :=
  let out k := matmul_onthefly ls ranks shift (fun i => if (i =? k)%nat then (1, 0) else (0, 0)) in
  if complex then out l k else out k l.
