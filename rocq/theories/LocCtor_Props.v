(** * Property C116: building a LocalOperator from matrices and sites

    [S] is any commutative ring with conjugation and the comparisons of the code, [hs]
    lists the local states of every site, [depth] is the fuel of nested tensor products. *)
From Coq Require Import ZArith List Bool Lia Sorting.Sorted Sorting.Permutation.
From Verif Require Import Base Scalar Hilbert_Model LocalOp_Spec LocalOp_Model LocalOp_Proofs
  LocalOp_Final LocCtor_Model LocCtor_Spec LocCtor_Proofs.
Import ListNotations.
Open Scope Z_scope.

Definition hs2 : list (list Z) := [[-1; 1]; [-1; 1]].
Definition z0 : GZ := (0, 0).
Definition z1 : GZ := (1, 0).
Definition mx : list (list GZ) := [[z0; z1]; [z1; z0]].
Definition mz : list (list GZ) := [[z1; z0]; [z0; (-1, 0)]].
Definition my : list (list GZ) := [[z0; (0, -1)]; [(0, 1); z0]].
Definition zj (_ : nat) : GZ := (77, 0).
Definition zx (_ : nat) : list Z := [].
Definition diag (n : nat) : list (list GZ) :=
  map (fun i => map (fun j => if Nat.eqb i j then (Z.of_nat i + 1, 0) else z0) (seq 0 n)) (seq 0 n).
Definition A (d : dtype) (m : list (list GZ)) : arr gzxS := @mkArr gzxS d 2 m (length m).

(** computes a closed left side before the right side is filled in *)
Ltac veq := match goal with |- ?e = _ =>
  let v := eval vm_compute in e in transitivity v; [vm_compute; reflexivity|reflexivity] end.

(** ** Lists of matrices and of sites are the sum of the terms, in the type given or in
    that of the first matrix, as long as no matrix is of a higher kind (complex) than it. *)
Theorem C116_terms_partial :
  forall S depth hs c (ts : list (typed_term S)) dt d,
  ts <> [] ->
  (dt = Some d \/ dt = None /\ exists t r, ts = t :: r /\ promote (fst t) F32 = d) ->
  (forall t, In t ts -> snd (snd t) <> [] -> can_cast (fst t) d = true) ->
  local_operator S depth hs (matrices ts) (sites ts) c dt
  = (let? o := mk_lop S depth hs c (map snd ts) in Ok (d, o)).
Proof. exact LocCtor_Proofs.pairs. Qed.
Print Assumptions C116_terms_partial.
Definition ex_ts : list (typed_term gzxS) :=
  [(C128, (my, [0%nat])); (F64, (mx, [1%nat])); (I64, (mz, [0%nat]))].
Example C116_terms_ex : exists o,
  local_operator gzxS 1 hs2 (matrices ex_ts) (sites ex_ts) z1 None = Ok (C128, o) /\
  lo_act _ o = [[0%nat]; [1%nat]] /\
  get_conn gzxS hs2 o zj zx [-1; 1]
  = Ok [([-1; 1], (2, 0)); ([1; 1], (0, -1)); ([-1; -1], (1, 0))].
Proof. eexists. split; [veq|]. split; vm_compute; reflexivity. Qed.

(** For matrices of the right sizes get_conn is then the row of their sum
    ([row_or_fault] as in C12). *)
Theorem C116_rows_partial :
  forall (S : scalars) (L : scalar_laws S) depth hs (Hs : sorted_space hs) (NS : no_small S)
    c (ts : list (typed_term S)) dt d x junk junkx,
  ts <> [] ->
  (dt = Some d \/ dt = None /\ exists t r, ts = t :: r /\ promote (fst t) F32 = d) ->
  (forall t, In t ts -> can_cast (fst t) d = true) ->
  Forall (fun t => valid_term S hs (snd t) /\ ordered_or_uniform hs (snd (snd t))) ts ->
  configuration hs x ->
  exists o, local_operator S (Datatypes.S depth) hs (matrices ts) (sites ts) c dt = Ok (d, o) /\
    row_or_fault S hs (element S hs c (map snd ts) x) (get_conn S hs o junk junkx x).
Proof. exact LocCtor_Proofs.rows_of_terms. Qed.
Print Assumptions C116_rows_partial.
Example C116_rows_ex :
  (forall t, In t ex_ts -> can_cast (fst t) C128 = true) /\
  Forall (fun t => valid_term gzxS hs2 (snd t) /\ ordered_or_uniform hs2 (snd (snd t))) ex_ts /\
  map (element gzxS hs2 z1 (map snd ex_ts) [-1; 1]) [[-1; -1]; [-1; 1]; [1; -1]; [1; 1]]
  = [(1, 0); (2, 0); z0; (0, -1)].
Proof.
  split; [intros t [<-|[<-|[<-|[]]]]; reflexivity|]. split; [|vm_compute; reflexivity].
  repeat apply Forall_cons; [| | |apply Forall_nil];
    (split; [|left; repeat constructor]); (split; [discriminate|]);
    (split; [repeat constructor; intros []|]); (split; [cbn; intuition lia|]);
    (split; [reflexivity|repeat constructor]).
Qed.

(** ** One matrix: a list of sites or one number are the same as lists with one entry. *)
Theorem C116_one_matrix :
  forall S depth hs a (l : list Z) c dt,
  local_operator S depth hs (OArr a) (ASeq (map SNum l)) c dt
  = local_operator S depth hs (OList [a]) (ASeq [SList l]) c dt.
Proof. exact LocCtor_Proofs.flat. Qed.
Print Assumptions C116_one_matrix.
Theorem C116_one_number :
  forall S depth hs a s c dt,
  local_operator S depth hs (OArr a) (ANum s) c dt
  = local_operator S depth hs (OList [a]) (ASeq [SList [s]]) c dt.
Proof. exact (fun S depth hs a s c dt => LocCtor_Proofs.flat S depth hs a [s] c dt). Qed.
Print Assumptions C116_one_number.
Example C116_one_ex :
  local_operator gzxS 1 hs2 (OArr (A F64 mx)) (ANum 1) z0 None
  = local_operator gzxS 1 hs2 (@matrices gzxS [(F64, (mx, [1%nat]))]) (@sites gzxS [(F64, (mx, [1%nat]))]) z0 None /\
  exists o, local_operator gzxS 1 hs2 (OArr (A F64 mx)) (ANum 1) z0 None = Ok (F64, o).
Proof. split; [veq|]. eexists; veq. Qed.
(** the type of a single matrix is kept *)
Theorem C116_one_type :
  forall S depth hs a l c d o,
  local_operator S depth hs (OList [a]) (ASeq [SList l]) c None = Ok (d, o) ->
  keeps_values d (a_dtype a).
Proof. exact LocCtor_Proofs.single_type. Qed.
Print Assumptions C116_one_type.
Example C116_one_type_ex : exists o,
  local_operator gzxS 1 hs2 (OList [A C64 my]) (ASeq [SList [1]]) z0 None = Ok (C64, o).
Proof. eexists; veq. Qed.

Theorem C116_floating_type :
  forall S depth hs ops act c d o,
  local_operator S depth hs ops act c None = Ok (d, o) -> floating_type d.
Proof. exact LocCtor_Proofs.floating. Qed.
Print Assumptions C116_floating_type.
Example C116_floating_ex : exists o,
  local_operator gzxS 1 hs2 (OArr (A I64 mx)) (ASeq [SNum 1]) z0 None = Ok (F64, o).
Proof. eexists; veq. Qed.

(** ** Forms of lists that do not belong together are errors: several matrices with a flat
    list of sites, a single matrix with a list of lists, numbers among lists. *)
Theorem C116_flat_list :
  forall S depth hs os l c dt,
  l <> [] -> Forall (fun a => a_ndim a = 2%nat) os ->
  raises (local_operator S depth hs (OList os) (ASeq (map SNum l)) c dt).
Proof. exact LocCtor_Proofs.flat_list. Qed.
Print Assumptions C116_flat_list.
Theorem C116_nested_matrix :
  forall S depth hs a l acts c dt,
  l <> [] -> a_ndim a = 2%nat -> (0 < a_len a)%nat ->
  raises (local_operator S depth hs (OArr a) (ASeq (SList l :: acts)) c dt).
Proof. exact LocCtor_Proofs.nested_matrix. Qed.
Print Assumptions C116_nested_matrix.
Theorem C116_number_among_lists :
  forall S depth hs ops acts k z c dt,
  existsb has_len acts = true -> (k < length ops)%nat -> nth_error acts k = Some (SNum z) ->
  raises (local_operator S depth hs (OList ops) (ASeq acts) c dt).
Proof. exact LocCtor_Proofs.mixed_sites. Qed.
Print Assumptions C116_number_among_lists.
Example C116_forms_ex :
  local_operator gzxS 1 hs2 (OList [A F64 mx; A F64 mz]) (ASeq [SNum 0; SNum 1]) z0 None = Err ValueError /\
  local_operator gzxS 1 hs2 (OArr (A F64 mx)) (ASeq [SList [0]]) z0 None = Err ValueError /\
  local_operator gzxS 1 hs2 (OList [A F64 mx; A F64 mz]) (ASeq [SList [0]; SNum 1]) z0 None = Err TypeError.
Proof. repeat split; vm_compute; reflexivity. Qed.

(** ** Further matrices do not count for the type: it is that of the first one, *)
Theorem C116_first_type :
  forall S depth hs ops acts c d o a r,
  existsb has_len acts = true -> ops = a :: r ->
  local_operator S depth hs (OList ops) (ASeq acts) c None = Ok (d, o) ->
  d = promote (a_dtype a) F32.
Proof. exact LocCtor_Proofs.first_type. Qed.
Print Assumptions C116_first_type.
(** so a real matrix followed by a complex one is an error *)
Theorem C116_real_then_complex :
  forall S depth hs ops acts c a r k b l,
  ops = a :: r -> ~ complex_type (a_dtype a) ->
  nth_error ops k = Some b -> complex_type (a_dtype b) ->
  nth_error acts k = Some (SList l) -> l <> [] ->
  raises (local_operator S depth hs (OList ops) (ASeq acts) c None).
Proof. exact LocCtor_Proofs.mixed_types. Qed.
Print Assumptions C116_real_then_complex.
(** although the same terms in the other order are accepted: the order matters *)
Theorem C116_order_refuted :
  ~ (forall hs ops acts ops' acts' c r,
       Permutation (combine ops acts) (combine ops' acts') ->
       local_operator gzxS 1 hs (OList ops) (ASeq acts) c None = Ok r ->
       exists r', local_operator gzxS 1 hs (OList ops') (ASeq acts') c None = Ok r').
Proof.
  intros H.
  edestruct (H hs2 [A C128 my; A F64 mx] [SList [0]; SList [1]]
                   [A F64 mx; A C128 my] [SList [1]; SList [0]] z0) as [r' E']; [|veq|].
  - apply perm_swap.
  - assert (local_operator gzxS 1 hs2 (OList [A F64 mx; A C128 my]) (ASeq [SList [1]; SList [0]]) z0 None
            = Err ValueError) as E2 by (vm_compute; reflexivity).
    rewrite E2 in E'. discriminate E'.
Qed.
Print Assumptions C116_order_refuted.
(** and a double precision matrix after a single precision one is stored in single
    precision; a complex constant does not count either *)
Theorem C116_precision_refuted :
  exists ops acts d o b, In b ops /\
    local_operator gzxS 1 hs2 (OList ops) (ASeq acts) z0 None = Ok (d, o) /\
    ~ keeps_values d (a_dtype b).
Proof.
  exists [A F32 mx; A F64 mz], [SList [0]; SList [1]].
  do 2 eexists. exists (A F64 mz). split; [cbn; auto|]. split; [veq|].
  intros [_ H]. cbn in H.
  destruct H as [H|[H|H]]; [right; left; reflexivity|discriminate H..].
Qed.
Print Assumptions C116_precision_refuted.
Theorem C116_constant_refuted :
  exists a d o, local_operator gzxS 1 hs2 (OArr a) (ANum 0) (0, 1) None = Ok (d, o) /\
    lo_const _ o = (0, 1) /\ ~ complex_type d.
Proof.
  exists (A F64 mx). do 2 eexists. split; [veq|]. split; [reflexivity|].
  intros [H|H]; discriminate H.
Qed.
Print Assumptions C116_constant_refuted.

(** ** What is checked: an accepted pair has a matrix, distinct sites below the number of
    sites, a type not of a higher kind; and no negative sites unless the matrix vanishes *)
Theorem C116_checked :
  forall S depth hs ops acts c dt d o k a l,
  local_operator S depth hs (OList ops) (ASeq acts) c dt = Ok (d, o) ->
  nth_error ops k = Some a -> nth_error acts k = Some (SList l) -> l <> [] ->
  (complex_type (a_dtype a) -> complex_type d) /\ a_ndim a = 2%nat /\
  (not_negligible (a_mat a) -> in_range hs l) /\
  NoDup l /\ (forall s, In s l -> s < Z.of_nat (length hs)).
Proof. exact LocCtor_Proofs.types_needed. Qed.
Print Assumptions C116_checked.
Example C116_checked_ex : exists o,
  local_operator gzxS 1 hs2 (OList [A F64 mx; A F32 mz]) (ASeq [SList [1]; SList [0]]) z0 None = Ok (F64, o) /\
  @not_negligible gzxS mz /\
  raises (local_operator gzxS 1 hs2 (OList [A F64 mx; A F32 mz]) (ASeq [SList [1]; SList [-1]]) z0 None) /\
  raises (local_operator gzxS 1 hs2 (OList [A F64 mx; A F32 mz]) (ASeq [SList [1]; SList [2]]) z0 None).
Proof.
  eexists. split; [veq|]. split.
  { exists [z1; z0], z1. split; [left; reflexivity|]. split; [left; reflexivity|reflexivity]. }
  split; exists ValueError; vm_compute; reflexivity.
Qed.
Theorem C116_negative_site_refuted :
  exists l d o, local_operator gzxS 1 hs2 (OList [A F64 [[z0; z0]; [z0; z0]]]) (ASeq [SList l]) z0 None
    = Ok (d, o) /\ ~ in_range hs2 l.
Proof.
  exists [-5], F64. eexists. split; [veq|].
  intros [_ H]. specialize (H (-5) (or_introl eq_refl)). lia.
Qed.
Print Assumptions C116_negative_site_refuted.

(** ** Sizes are checked for sites in increasing order that did not occur before. *)
Theorem C116_sizes_partial :
  forall S depth hs ops acts c dt d o k a l,
  local_operator S depth hs (OList ops) (ASeq acts) c dt = Ok (d, o) ->
  nth_error ops k = Some a -> nth_error acts k = Some (SList (map Z.of_nat l)) -> l <> [] ->
  increasing_sites l -> not_negligible (a_mat a) ->
  (forall j z, (j < k)%nat -> nth_error acts j = Some (SList z) -> ~ Permutation (map Z.of_nat l) z) ->
  length (a_mat a) = local_dim hs l.
Proof. exact LocCtor_Proofs.sizes. Qed.
Print Assumptions C116_sizes_partial.
Example C116_sizes_ex : exists o,
  local_operator gzxS 1 hs2 (OList [A F64 mx; A F64 (diag 4)]) (ASeq [SList [0]; SList [0; 1]]) z0 None = Ok (F64, o) /\
  increasing_sites [0%nat; 1%nat] /\ ~ Permutation (map Z.of_nat [0%nat; 1%nat]) [0] /\
  raises (local_operator gzxS 1 hs2 (OList [A F64 mx; A F64 (diag 3)]) (ASeq [SList [0]; SList [0; 1]]) z0 None).
Proof.
  eexists. split; [veq|]. split; [repeat constructor|].
  split; [intros H; apply Permutation_length in H; discriminate H|].
  exists RuntimeError. vm_compute. reflexivity.
Qed.
(** For sites in another order a larger matrix is cut down: 5 x 5 on two spins. *)
Theorem C116_unsorted_size_refuted :
  exists m o, length m <> local_dim hs2 [1%nat; 0%nat] /\ @not_negligible gzxS m /\
    local_operator gzxS 1 hs2 (OArr (A F64 m)) (ASeq [SNum 1; SNum 0]) z0 None = Ok (F64, o) /\
    lo_ops _ o <> [] /\ raises (local_operator gzxS 1 hs2 (OArr (A F64 m)) (ASeq [SNum 0; SNum 1]) z0 None).
Proof.
  exists (diag 5). eexists. split; [vm_compute; discriminate|]. split.
  { exists (hd [] (diag 5)), z1. split; [left; reflexivity|]. split; [left; reflexivity|reflexivity]. }
  split; [veq|]. split; [discriminate|]. exists RuntimeError. vm_compute. reflexivity.
Qed.
Print Assumptions C116_unsorted_size_refuted.
(** On sites that have a matrix already, any size goes: of 3 x 3 on a spin the corner is
    added, a 1 x 1 matrix is added to the corner. *)
Theorem C116_merged_size_refuted :
  exists m1 m2 o,
    length m1 <> local_dim hs2 [0%nat] /\ length m2 <> local_dim hs2 [0%nat] /\
    @not_negligible gzxS m1 /\ @not_negligible gzxS m2 /\
    local_operator gzxS 1 hs2 (OList [A F64 mx; A F64 m1; A F64 m2])
      (ASeq [SList [0]; SList [0]; SList [0]]) z0 None = Ok (F64, o) /\
    lo_ops _ o = [[[(12, 0); z1]; [z1; (2, 0)]]].
Proof.
  exists (diag 3), [[(11, 0)]]. eexists. split; [vm_compute; discriminate|]. split; [vm_compute; discriminate|].
  split; [exists (hd [] (diag 3)), z1; split; [left; reflexivity|]; split; [left; reflexivity|reflexivity]|].
  split; [exists [(11, 0)], (11, 0); split; [left; reflexivity|]; split; [left; reflexivity|reflexivity]|].
  split; veq.
Qed.
Print Assumptions C116_merged_size_refuted.

(** ** Lists of different lengths: what is in excess is ignored, whatever it is. *)
Theorem C116_excess_matrices :
  forall S depth hs ops acts extra c dt,
  existsb has_len acts = true -> length ops = length acts ->
  local_operator S depth hs (OList (ops ++ extra)) (ASeq acts) c dt
  = local_operator S depth hs (OList ops) (ASeq acts) c dt.
Proof. exact LocCtor_Proofs.cut_ops. Qed.
Print Assumptions C116_excess_matrices.
Theorem C116_excess_sites :
  forall S depth hs ops acts extra c dt,
  existsb has_len acts = true -> length ops = length acts ->
  local_operator S depth hs (OList ops) (ASeq (acts ++ extra)) c dt
  = local_operator S depth hs (OList ops) (ASeq acts) c dt.
Proof. exact LocCtor_Proofs.cut_acts. Qed.
Print Assumptions C116_excess_sites.
(** So a matrix may get lost, as it does without any sites *)
Theorem C116_all_used_refuted :
  exists ops acts a o o', @not_negligible gzxS (a_mat a) /\
    length (ops ++ [a]) <> length acts /\
    local_operator gzxS 1 hs2 (OList (ops ++ [a])) (ASeq acts) z0 None = Ok (F64, o) /\
    local_operator gzxS 1 hs2 (OList ops) (ASeq acts) z0 None = Ok (F64, o) /\
    local_operator gzxS 1 hs2 (OArr a) (ASeq []) z0 None = Ok (F64, o') /\ lo_ops _ o' = [].
Proof.
  exists [A F64 mx], [SList [0]], (A F64 mz). do 2 eexists. split.
  { exists [z1; z0], z1. split; [left; reflexivity|]. split; [left; reflexivity|reflexivity]. }
  split; [discriminate|]. split; [veq|]. split; [veq|].
  split; veq.
Qed.
Print Assumptions C116_all_used_refuted.

(** ** conjugate() and transpose(concrete=True) keep a floating type if there is a term *)
Theorem C116_conjugate_type_partial :
  forall S d o, lo_ops S o <> [] -> floating_type d -> rebuilt_dtype S d o = d.
Proof. exact LocCtor_Proofs.rebuilt. Qed.
Print Assumptions C116_conjugate_type_partial.
Example C116_conjugate_ex : exists o,
  local_operator gzxS 1 hs2 (OArr (A C64 my)) (ANum 0) z0 None = Ok (C64, o) /\
  lo_ops _ o <> [] /\ rebuilt_dtype _ C64 o = C64.
Proof. eexists. split; [veq|]. split; [discriminate|reflexivity]. Qed.
(** but not for a complex constant without terms *)
Theorem C116_conjugate_type_refuted :
  exists d o, local_operator gzxS 1 hs2 (OList []) (ASeq []) (0, 1) (Some C128) = Ok (d, o) /\
    complex_type d /\ ~ complex_type (rebuilt_dtype gzxS d o).
Proof.
  do 2 eexists. split; [veq|]. split; [right; reflexivity|].
  intros [H|H]; discriminate H.
Qed.
Print Assumptions C116_conjugate_type_refuted.
