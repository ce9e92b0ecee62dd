(** * Property C18: sharing of matrices between operators and with the caller *)
From Coq Require Import ZArith List Bool Permutation Lia.
From Verif Require Import Base ExTac Scalar LocalOp_Spec LocalOp_Model OpHeap_Model OpHeap_Spec
  OpHeap_Proofs.
Import ListNotations.
Open Scope Z_scope.

(** Evaluating an expression with +, -, scalar multiples, transposes and conjugates changes
    none of the arrays that existed before (those of the caller and of other operators),
    and the operator obtained is the one obtained from the values of the arrays, to which
    C12 - C17 apply.  Partial: no constructor call may list two terms on the same set of
    sites, and in-place updates of operators are excluded (both refuted below). *)
Theorem C18_expressions_partial :
  forall S depth hs h e h' o,
  different_sites (length h) e -> heval S depth hs h e = Ok (h', o) ->
  (forall r, (r < length h)%nat -> nth r h' (O, []) = nth r h (O, [])) /\
  build S depth hs (erase S h e) = Ok (snap S h' o).
Proof. exact expression_safe. Qed.
Print Assumptions C18_expressions_partial.

Definition ex_hs : list (list Z) := [[-1; 1]; [-1; 1]].
Definition m1 : list (list GZ) := [[(1, 0); (2, 0)]; [(2, 0); (3, 0)]].
Definition m2 : list (list GZ) := [[(0, 0); (1, 0)]; [(1, 0); (0, 0)]].
(** the caller's arrays: two real matrices and a complex one *)
Definition ex_heap : heap gzxS := [(0%nat, m1); (0%nat, m2); (1%nat, m2)].
Definition ex_e : hexpr gzxS :=
  HMinus _ (HPlus _ (HNew gzxS (0, 0) [(0%nat, [0%nat]); (0%nat, [1%nat])])
                    (HNew gzxS (1, 0) [(1%nat, [1%nat])]))
           (HTimes _ (HNew gzxS (0, 0) [(2%nat, [0%nat])]) 1 (0, 1)).
Example C18_ex :
  different_sites (length ex_heap) ex_e /\
  match heval gzxS 1 ex_hs ex_heap ex_e with
  | Ok (h', o) =>
      firstn 3 h' = ex_heap /\
      map (hget gzxS h') (ho_refs gzxS o)
      = [[[(1, 0); (2, -1)]; [(2, -1); (3, 0)]]; [[(1, 0); (3, 0)]; [(3, 0); (3, 0)]]]
  | Err _ => False
  end.
Proof.
  split.
  - cbn. repeat split; repeat constructor; cbn; try lia.
    intros H. apply Permutation_length_1 in H. discriminate.
  - vm_compute. split; reflexivity.
Qed.

(** LocalOperator(hi, [m, m, m], [[0], [0], [0]]) is 4 m, and m itself becomes 4 m. *)
Theorem C18_same_array_refuted :
  exists m,
  match heval gzxS 1 ex_hs [(0%nat, m)]
          (HNew gzxS (0, 0) [(0%nat, [0%nat]); (0%nat, [0%nat]); (0%nat, [0%nat])]) with
  | Ok (h', o) =>
      map (hget gzxS h') (ho_refs gzxS o) = [scale_mat gzxS (4, 0) m] /\
      h' = [(0%nat, scale_mat gzxS (4, 0) m)] /\ scale_mat gzxS (4, 0) m <> m
  | Err _ => False
  end.
Proof. exists m1. vm_compute. repeat split; try reflexivity. discriminate. Qed.
Print Assumptions C18_same_array_refuted.

(** C = A + B; C *= 2 doubles the matrix stored in B. *)
Theorem C18_sum_refuted :
  exists A B,
  match (let? x := heval gzxS 1 ex_hs ex_heap A in
         let? y := heval gzxS 1 ex_hs (fst x) B in
         let? z := hadd gzxS 1 ex_hs (fst y) (snd x) (snd y) in
         let w := himul gzxS (fst z) (snd z) (2, 0) in
         Ok (map (hget gzxS (fst y)) (ho_refs gzxS (snd y)),
             map (hget gzxS (fst w)) (ho_refs gzxS (snd y)))) with
  | Ok (before, after) => before = [m2] /\ after = [scale_mat gzxS (2, 0) m2]
  | Err _ => False
  end.
Proof.
  exists (HNew gzxS (0, 0) [(0%nat, [0%nat])]), (HNew gzxS (0, 0) [(1%nat, [1%nat])]).
  vm_compute. split; reflexivity.
Qed.
Print Assumptions C18_sum_refuted.

(** One array used for two bonds (as GraphOperator does): H *= 2 multiplies it by 4, so that
    H.copy() differs from H. *)
Theorem C18_shared_bond_refuted :
  exists e,
  match (let? x := heval gzxS 1 ex_hs ex_heap e in
         let w := himul gzxS (fst x) (snd x) (2, 0) in
         let? c := hcopy gzxS 1 ex_hs (fst w) (snd w) 0 in
         let? a := get_conn gzxS ex_hs (snap gzxS (fst w) (snd w)) (fun _ => (0, 0)) (fun _ => []) [1; 1] in
         let? b := get_conn gzxS ex_hs (snap gzxS (fst c) (snd c)) (fun _ => (0, 0)) (fun _ => []) [1; 1] in
         Ok (a, b)) with
  | Ok (a, b) => a = [([-1; 1], (2, 0)); ([1; -1], (2, 0))] /\
                 b = [([-1; 1], (4, 0)); ([1; -1], (4, 0))]
  | Err _ => False
  end.
Proof.
  exists (HNew gzxS (0, 0) [(1%nat, [0%nat]); (1%nat, [1%nat])]). vm_compute. split; reflexivity.
Qed.
Print Assumptions C18_shared_bond_refuted.
