(** * Property C24: lazy wrappers *)
From Coq Require Import ZArith List Bool Lia.
From Verif Require Import Base ExTac Scalar LocalOp_Spec LocalOp_Model LocalOp_Props
  Lazy_Model Lazy_Spec Lazy_Proofs.
Import ListNotations.
Open Scope Z_scope.

(** Any sequence of .T, .H and .conj() on a local operator succeeds; the object obtained stands
    for the matrix obtained by transposing and conjugating accordingly, and collect() returns
    a concrete operator with that matrix.  (Real constants and scalar factors, because of the
    is_hermitian flag: see C17.) *)
Theorem C24_moves_partial :
  forall S (L : scalar_laws S) depth hs (Hs : sorted_space hs) (NS : no_small S) (CE : close_exact S) e ms,
  valid_expr S hs e -> no_product S e \/ (exists d, uniform_space hs d) -> real_scalars S e ->
  exists o e', run S (built_herm S depth hs) ms (Conc S e) = Ok o /\
    agree S hs (matrix_of S hs o) (moved S ms (denote S hs e)) /\
    collect S (built_herm S depth hs) o = Ok (Conc S e') /\
    valid_expr S hs e' /\ agree S hs (denote S hs e') (moved S ms (denote S hs e)).
Proof. exact lazy_moves. Qed.
Print Assumptions C24_moves_partial.

(** Products of such objects, lazy squares A.H @ A and hermitian A @ A included: the result
    stands for the matrix product and collect() returns a concrete operator with that matrix. *)
Theorem C24_products_partial :
  forall S (L : scalar_laws S) depth hs (Hs : sorted_space hs) (NS : no_small S) (CE : close_exact S)
    e1 e2 ms1 ms2 d same,
  (forall a b, same a b = true -> a = b) -> uniform_space hs d ->
  valid_expr S hs e1 -> real_scalars S e1 -> valid_expr S hs e2 -> real_scalars S e2 ->
  exists o1 o2 o e', run S (built_herm S depth hs) ms1 (Conc S e1) = Ok o1 /\
    run S (built_herm S depth hs) ms2 (Conc S e2) = Ok o2 /\
    matmul S (built_herm S depth hs) same o1 o2 = Ok o /\
    agree S hs (matrix_of S hs o) (product S hs (moved S ms1 (denote S hs e1)) (moved S ms2 (denote S hs e2))) /\
    collect S (built_herm S depth hs) o = Ok (Conc S e') /\ valid_expr S hs e' /\
    agree S hs (denote S hs e') (product S hs (moved S ms1 (denote S hs e1)) (moved S ms2 (denote S hs e2))).
Proof. exact lazy_products. Qed.
Print Assumptions C24_products_partial.

(** sigma^+ on one site: not hermitian *)
Definition ex_sp : expr gzxS := New gzxS i0 [(sp, [0%nat])].
Notation bh := (built_herm gzxS 0 ex_hs).

Example C24_ex :
  valid_expr gzxS ex_hs ex_sp /\ real_scalars gzxS ex_sp /\ uniform_space ex_hs 2 /\ bh ex_sp = false /\
  run gzxS bh [MT; MConj; MT] (Conc gzxS ex_sp) = Ok (Conc gzxS (Conj gzxS ex_sp)) /\
  matmul gzxS bh (fun _ _ => true) (Ad gzxS (Conc gzxS ex_sp)) (Conc gzxS ex_sp) = Ok (Sq gzxS (Conc gzxS ex_sp)) /\
  moved gzxS [MT; MConj; MH] (denote gzxS ex_hs ex_sp) [1; 1] [-1; 1] =
    denote gzxS ex_hs ex_sp [1; 1] [-1; 1] /\
  denote gzxS ex_hs ex_sp [1; 1] [-1; 1] <> denote gzxS ex_hs ex_sp [-1; 1] [1; 1].
Proof.
  split; [constructor; [split; [split; [discriminate|]; split;
    [repeat constructor; cbn; intuition discriminate|]; split; [cbn; intuition lia|]; valid|left; valid]|constructor]|].
  split; [reflexivity|]. split; [exact ex_uniform|].
  split; [vm_compute; reflexivity|]. split; [vm_compute; reflexivity|]. split; [vm_compute; reflexivity|].
  split; [vm_compute; reflexivity|]. vm_compute. discriminate.
Qed.

(** conjugate(concrete=True) of a transposed operator that is not hermitian: the transposition
    is lost. *)
Theorem C24_concrete_conjugate_refuted :
  exists o x y, conjugate gzxS bh (Some true) (Tr gzxS (Conc gzxS ex_sp)) = Ok o /\
    configuration ex_hs x /\ configuration ex_hs y /\
    matrix_of gzxS ex_hs o x y <> apply_move gzxS MConj (matrix_of gzxS ex_hs (Tr gzxS (Conc gzxS ex_sp))) x y.
Proof.
  exists (Conc gzxS (Conj gzxS ex_sp)), [1; 1], [-1; 1].
  split; [vm_compute; reflexivity|]. split; [conf|]. split; [conf|]. vm_compute. discriminate.
Qed.
Print Assumptions C24_concrete_conjugate_refuted.

(** The lazy square A.H @ A: .T, .conj() and the collect() of its transpose raise, and
    conjugate() returns the transpose of A. *)
Theorem C24_squared_refuted :
  let A := Conc gzxS ex_sp in
  dotT gzxS bh (Sq gzxS A) = Err AttributeError /\
  conj_ gzxS bh (Sq gzxS A) = Err TypeError /\
  (let? t := transpose gzxS bh false (Sq gzxS A) in collect gzxS bh t) = Err NotImplementedError /\
  exists o x, conjugate gzxS bh None (Sq gzxS A) = Ok o /\ configuration ex_hs x /\
    matrix_of gzxS ex_hs o x x <> apply_move gzxS MConj (matrix_of gzxS ex_hs (Sq gzxS A)) x x.
Proof.
  cbv zeta. split; [reflexivity|]. split; [reflexivity|]. split; [reflexivity|].
  exists (Tr gzxS (Conc gzxS ex_sp)). 
  first [exists [1; 1]; split; [reflexivity|]; split; [conf|]; vm_compute; discriminate
        |exists [-1; 1]; split; [reflexivity|]; split; [conf|]; vm_compute; discriminate].
Qed.
Print Assumptions C24_squared_refuted.
