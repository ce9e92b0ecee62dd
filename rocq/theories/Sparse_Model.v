(** * Model of AbstractOperator.to_sparse / to_dense (netket/operator/_abstract_operator.py:235-296)

    The operator is seen through its get_conn_flattened: [gc] maps the batch of
    configurations to (mels, x_prime, sections).  Sections are unbounded integers
    (int32 in the code). *)
From Coq Require Import ZArith List Bool.
From Verif Require Import Base Hilbert_Model Scalar LocalOp_Spec.
Import ListNotations.

Section Sparse.
Variable S : scalars.

(** scipy.sparse.csr_matrix((data, indices, indptr), shape=(n, n)) *)
Record csr := mkCsr {
  cs_n : Z;
  cs_data : list (K S);
  cs_indices : list Z;
  cs_indptr : list nat }.

(** lines 247-266; scipy's check_format rejects column indices outside the shape *)
Definition to_sparse (h : hilbert)
  (gc : list (list Z) -> res (list (K S) * list (list Z) * list nat)) : res csr :=
  let? x := all_states h in
  let? r := gc x in
  let? numbers := sequence (map (states_to_numbers h) (snd (fst r))) in
  let? n := n_states h in
  if existsb (fun k => (k <? 0)%Z || (n <=? k)%Z) numbers then Err ValueError
  else Ok (mkCsr n (fst (fst r)) numbers (O :: snd r)).

(** entry [i, j] of todense(): duplicates are summed *)
Definition csr_entry (m : csr) (i : nat) (j : Z) : K S :=
  let a := nth i (cs_indptr m) O in
  let b := nth (Datatypes.S i) (cs_indptr m) O in
  fold_right (kadd S) (k0 S)
    (map (fun p => if Z.eqb (fst p) j then snd p else k0 S)
         (firstn (b - a) (skipn a (combine (cs_indices m) (cs_data m))))).

End Sparse.
