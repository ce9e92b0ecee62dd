(** * Properties C12 - C17, C19, C20, C26: local operators

    [S] is any commutative ring with conjugation and the comparisons of the code; most
    theorems assume [no_small]: a number failing [abs(k) > mel_cutoff] is zero.  [hs] lists
    the local states of every site, [depth] is the fuel of nested tensor products (at least
    one), [junk] and [junkx] are the uninitialised contents of the buffers. *)
From Coq Require Import ZArith QArith Qcanon List Bool Sorted Lia.
From Verif Require Import Base ExTac Hilbert_Model Hilbert_Spec HilbertOps_Spec Scalar LocalOp_Spec
  LocalOp_Model LocalOp_Proofs LocalOp_Final Sparse_Model Sparse_Proofs.
Import ListNotations.
Open Scope Z_scope.

(** two spins; Pauli matrices over the Gaussian integers *)
Definition ex_hs : list (list Z) := [[-1; 1]; [-1; 1]].
Definition i0 : GZ := (0, 0).
Definition i1 : GZ := (1, 0).
Definition sx : list (list GZ) := [[i0; i1]; [i1; i0]].
Definition sz : list (list GZ) := [[i1; i0]; [i0; (-1, 0)]].
Definition sp : list (list GZ) := [[i0; i1]; [i0; i0]].
Definition zj (_ : nat) : GZ := (77, 0).
Definition zx (_ : nat) : list Z := [].

Lemma ex_sorted : sorted_space ex_hs.
Proof. repeat constructor. Qed.
Lemma ex_uniform : uniform_space ex_hs 2.
Proof. split; [lia|]. intros [|[|s]] H; simpl in *; try lia; reflexivity. Qed.
Lemma ex_config x : configuration ex_hs x -> In x [[-1;-1]; [-1;1]; [1;-1]; [1;1]].
Proof.
  intros H. inversion H as [|a l1 b l2 H1 H2]; subst. inversion H2 as [|a2 l3 b2 l4 H3 H4]; subst.
  inversion H4; subst. simpl in *. intuition (subst; auto).
Qed.

Ltac valid := repeat (first [split|constructor]); cbn; try congruence; try (intros; lia);
  try (intuition lia); try (intuition discriminate).

Ltac conf := repeat (apply Forall2_cons; [cbn; auto|]); apply Forall2_nil.

(** two terms on the same site, one on two sites in decreasing order, a constant *)
Definition ex_terms : list (list (list GZ) * list nat) :=
  [(sx, [0%nat]); (sz, [0%nat]);
   ([[i0; i1; i0; i0]; [i0; i0; (0, 2); i0]; [i1; i1; i1; i0]; [i0; i0; i0; (5, -1)]], [1%nat; 0%nat])].
Lemma ex_terms_ok : Forall (fun t => valid_term gzxS ex_hs t /\ ordered_or_uniform ex_hs (snd t)) ex_terms.
Proof.
  repeat apply Forall_cons; [| | |apply Forall_nil]; (split; [split; [discriminate|]; split;
    [repeat constructor; cbn; intuition discriminate|]; split; [cbn; intuition lia|]; valid|]).
  - left. valid.
  - left. valid.
  - right. exists 2%nat. split; [lia|]. split; [|vm_compute; discriminate].
    intros s [<-|[<-|[]]]; reflexivity.
Qed.

(** ** C12: get_conn returns the row of the sum of the embedded matrices.
    [row_or_fault]: the only failure is the buffer overrun of C20, and then the row is 0. *)
Theorem C12_get_conn_row :
  forall S (L : scalar_laws S) depth hs (Hs : sorted_space hs) (NS : no_small S)
    c ts x junk junkx,
  Forall (fun t => valid_term S hs t /\ ordered_or_uniform hs (snd t)) ts ->
  configuration hs x ->
  exists o, mk_lop S (Datatypes.S depth) hs c ts = Ok o /\
    row_or_fault S hs (element S hs c ts x) (get_conn S hs o junk junkx x).
Proof. exact new_row. Qed.
Print Assumptions C12_get_conn_row.

Example C12_ex : exists o, mk_lop gzxS 1 ex_hs (3, 0) ex_terms = Ok o /\
  get_conn gzxS ex_hs o zj zx [-1; 1]
  = Ok [([-1; 1], (5, 0)); ([1; 1], i1); ([-1; -1], i1); ([1; -1], i1)] /\
  map (element gzxS ex_hs (3, 0) ex_terms [-1; 1]) (all_configs ex_hs) = [i1; (5, 0); i1; i1].
Proof. compute_ex. Qed.
Example C12_ex_hyps : sorted_space ex_hs /\
  Forall (fun t => valid_term gzxS ex_hs t /\ ordered_or_uniform ex_hs (snd t)) ex_terms /\
  configuration ex_hs [-1; 1].
Proof. split; [apply ex_sorted|]. split; [apply ex_terms_ok|]. conf. Qed.

(** With a cut-off that does drop entries: off-diagonal entries not larger than it
    disappear, the rest of the row is exact.  Partial: supports must be different and
    listed in increasing order, and the diagonal must not be entirely below the cut-off
    without being zero (refuted below). *)
Theorem C12_cutoff_partial :
  forall S (L : scalar_laws S) depth hs (Hs : sorted_space hs) c ts x junk junkx,
  Forall (fun t => valid_term S hs t /\ increasing_sites (snd t)) ts ->
  NoDup (map snd ts) -> clear_diagonal S c ts -> configuration hs x ->
  exists o, mk_lop S (Datatypes.S depth) hs c ts = Ok o /\
    row_or_fault S hs (element S hs c (cut_terms S ts) x) (get_conn S hs o junk junkx x).
Proof. exact cutoff_row. Qed.
Print Assumptions C12_cutoff_partial.

Definition tiny : GQ := gq (Q2Qc (1 # 10 ^ 7)) 0.
Definition qm : list (list GQ) := [[gq1; tiny]; [gq1; tiny]].
(** the single connected element of a one-site operator *)
Definition single (m : list (list GQ)) (x : list Z) : option (list Z * Q * Q) :=
  match mk_lop gqS 1 [[0; 1]] gq0 [(m, [0%nat])] with
  | Ok o => match get_conn gqS [[0; 1]] o (fun _ => gq0) zx x with
            | Ok [(y, w)] => Some (y, this (fst w), this (snd w)) | _ => None end
  | Err _ => None
  end.
Example C12_cutoff_ex :
  sorted_space [[0; 1]] /\
  valid_term gqS [[0; 1]] (qm, [0%nat]) /\ clear_diagonal gqS gq0 [(qm, [0%nat])] /\
  single qm [0] = Some ([0], 1%Q, 0%Q).
Proof.
  split; [repeat constructor|]. split; [|split].
  - split; [discriminate|]. split; [repeat constructor; cbn; intuition discriminate|].
    split; [cbn; intuition lia|]. repeat split; repeat constructor.
  - left. right. exists (qm, [0%nat]), 0%nat. split; [left; auto|]. split; [cbn; lia|]. vm_compute. reflexivity.
  - vm_compute. reflexivity.
Qed.

(** A diagonal below the cut-off is added to the first off-diagonal element of another
    term: [[0, 1], [1, 0]] on site 0 plus [[1e-7, 1], [1, 1e-7]] on site 1 connects 00 to
    10 with weight 1 + 1e-7. *)
Theorem C12_small_diagonal_refuted :
  exists m1 m2 : list (list GQ), entry gqS m1 0 1 = gq1 /\
    match mk_lop gqS 1 [[0; 1]; [0; 1]] gq0 [(m1, [0%nat]); (m2, [1%nat])] with
    | Ok o => match get_conn gqS [[0; 1]; [0; 1]] o (fun _ => gq0) zx [0; 0] with
              | Ok ((y, w) :: _) => y = [1; 0] /\ this (fst w) = (10000001 # 10000000)%Q
              | _ => False
              end
    | Err _ => False
    end.
Proof.
  exists [[gq0; gq1]; [gq1; gq0]], [[tiny; gq1]; [gq1; tiny]]. split; [reflexivity|].
  vm_compute. split; reflexivity.
Qed.
Print Assumptions C12_small_diagonal_refuted.

(** ** C13: sites in any order, when they all have as many local states (or are listed in
    increasing order): the matrix acts on the sites in the listed order.  Partial: the
    statement for different local dimensions is refuted below. *)
Theorem C13_site_order_partial :
  forall S (L : scalar_laws S) depth hs (Hs : sorted_space hs) (NS : no_small S)
    m act x junk junkx,
  valid_term S hs (m, act) -> ordered_or_uniform hs act -> configuration hs x ->
  exists o, mk_lop S (Datatypes.S depth) hs (k0 S) [(m, act)] = Ok o /\
    row_or_fault S hs (element S hs (k0 S) [(m, act)] x) (get_conn S hs o junk junkx x).
Proof.
  exact (fun S L depth hs Hs NS m act x junk junkx V U C =>
    new_row S L depth hs Hs NS (k0 S) [(m, act)] x junk junkx
      (Forall_cons _ (conj V U) (Forall_nil _)) C).
Qed.
Print Assumptions C13_site_order_partial.

Definition swap_m : list (list GZ) :=
  [[i0; i1; i0; i0]; [i0; i0; (2, 0); i0]; [i0; i0; i0; (3, 0)]; [(4, 0); i0; i0; i0]].
Example C13_ex : exists o1 o2,
  mk_lop gzxS 1 ex_hs i0 [(swap_m, [0%nat; 1%nat])] = Ok o1 /\
  mk_lop gzxS 1 ex_hs i0 [(swap_m, [1%nat; 0%nat])] = Ok o2 /\
  get_conn gzxS ex_hs o1 zj zx [-1; 1] = Ok [([1; -1], (2, 0))] /\
  get_conn gzxS ex_hs o2 zj zx [-1; 1] = Ok [([1; 1], (3, 0))].
Proof. compute_ex. Qed.
Example C13_ex_hyps :
  valid_term gzxS ex_hs (swap_m, [1%nat; 0%nat]) /\ ordered_or_uniform ex_hs [1%nat; 0%nat].
Proof.
  split.
  - split; [discriminate|]. split; [repeat constructor; cbn; intuition discriminate|].
    split; [cbn; intuition lia|]. valid.
  - right. exists 2%nat. split; [lia|]. split; [|vm_compute; discriminate].
    intros s [<-|[<-|[]]]; reflexivity.
Qed.

(** Sites with 2 and 3 local states listed as [1; 0]: a diagonal matrix with entries
    1..6 gives 4 on the configuration whose entry is 2. *)
Definition diag6 : list (list GZ) :=
  map (fun i => map (fun j => if Nat.eqb i j then (Z.of_nat i + 1, 0) else i0) (seq 0 6)) (seq 0 6).
Theorem C13_inhomogeneous_refuted :
  exists hs x,
    valid_term gzxS hs (diag6, [1%nat; 0%nat]) /\ sorted_space hs /\ configuration hs x /\
    exists o, mk_lop gzxS 1 hs i0 [(diag6, [1%nat; 0%nat])] = Ok o /\
    get_conn gzxS hs o zj zx x = Ok [(x, (4, 0))] /\
    element gzxS hs i0 [(diag6, [1%nat; 0%nat])] x x = (2, 0).
Proof.
  exists [[0; 1]; [0; 1; 2]], [1; 0]. split.
  { split; [discriminate|]. split; [repeat constructor; cbn; intuition discriminate|].
    split; [cbn; intuition lia|]. split; [reflexivity|]. repeat constructor. }
  split; [repeat constructor|]. split; [conf|]. compute_ex.
Qed.
Print Assumptions C13_inhomogeneous_refuted.

(** ** C14: every expression built from constructors, +, -, scalar multiples, transposes
    and conjugates evaluates, and the operator obtained has the matrix that the expression
    denotes ([denote (Plus a b)] is the sum of the two matrices, and so on). *)
Theorem C14_linear_expressions :
  forall S (L : scalar_laws S) depth hs (Hs : sorted_space hs) (NS : no_small S)
    e, valid_expr S hs e -> no_product S e ->
  exists o, build S (Datatypes.S depth) hs e = Ok o /\
    forall x junk junkx, configuration hs x ->
      row_or_fault S hs (denote S hs e x) (get_conn S hs o junk junkx x).
Proof.
  exact (fun S L depth hs Hs NS e V P =>
    match build_total S L NS depth hs Hs e V (or_introl P) with
    | ex_intro _ o B => ex_intro _ o (conj B (fun x junk junkx C =>
        expr_row S L depth hs Hs NS e o x junk junkx V (or_introl P) B C))
    end).
Qed.
Print Assumptions C14_linear_expressions.

(** (2 (A + B) - C) + 1 with A, B on the same site *)
Definition eA := New gzxS i0 [(sx, [0%nat])].
Definition eB := New gzxS i1 [(sz, [0%nat]); (sx, [1%nat])].
Definition eC := New gzxS i0 [(swap_m, [1%nat; 0%nat])].
Definition eLin : expr gzxS := PlusNum _ (Minus _ (Times _ (Plus _ eA eB) (2, 0)) eC) i1.
Example C14_ex : valid_expr gzxS ex_hs eLin /\ no_product gzxS eLin /\
  exists o, build gzxS 1 ex_hs eLin = Ok o /\
  get_conn gzxS ex_hs o zj zx [1; 1]
  = Ok [([1; 1], (1, 0)); ([-1; 1], (2, 0)); ([1; -1], (2, 0)); ([-1; -1], (-4, 0))] /\
  map (denote gzxS ex_hs eLin [1; 1]) (all_configs ex_hs) = [(-4, 0); (2, 0); (2, 0); (1, 0)].
Proof.
  split; [|split; [cbn; auto|]].
  - cbn [valid_expr eLin eA eB eC]. repeat split; repeat apply Forall_cons; try apply Forall_nil;
      (split; [split; [discriminate|]; split;
        [repeat constructor; cbn; intuition discriminate|]; split; [cbn; intuition lia|]; valid|]);
      try (left; valid; fail).
    right. exists 2%nat. split; [lia|]. split; [|vm_compute; discriminate].
    intros s [<-|[<-|[]]]; reflexivity.
  - compute_ex.
Qed.

(** ** C15: with products too, on a space with as many local states everywhere (the
    existence part needs the dimension to fit the integer type of the index arrays). *)
Theorem C15_product_expressions :
  forall S (L : scalar_laws S) depth hs (Hs : sorted_space hs) (NS : no_small S)
    e d, valid_expr S hs e -> uniform_space hs d ->
  (forall o x junk junkx, build S (Datatypes.S depth) hs e = Ok o -> configuration hs x ->
     row_or_fault S hs (denote S hs e x) (get_conn S hs o junk junkx x)) /\
  (Z.of_nat d ^ Z.of_nat (length hs) <= 2 ^ 31 - 1 ->
     exists o, build S (Datatypes.S depth) hs e = Ok o).
Proof.
  exact (fun S L depth hs Hs NS e d V U =>
    conj (fun o x junk junkx B C =>
            expr_row S L depth hs Hs NS e o x junk junkx V (or_intror (ex_intro _ d U)) B C)
         (fun D => build_total S L NS depth hs Hs e V (or_intror (ex_intro _ d (conj U D))))).
Qed.
Print Assumptions C15_product_expressions.

(** product of partially overlapping terms with constants *)
Definition eProd : expr gzxS := Matmul _ eB (PlusNum _ (Plus _ eC eA) (0, 1)).
Example C15_ex : exists o, build gzxS 1 ex_hs eProd = Ok o /\
  get_conn gzxS ex_hs o zj zx [1; -1]
  = Ok [([1; -1], i0); ([1; 1], (0, 1)); ([-1; -1], (4, 0)); ([-1; 1], i1)] /\
  map (denote gzxS ex_hs eProd [1; -1]) (all_configs ex_hs) = [(4, 0); i1; i0; (0, 1)].
Proof. compute_ex. Qed.

(** ** C16: A @= A.  Partial: for operators whose constant is zero. *)
Theorem C16_self_product_partial :
  forall S (L : scalar_laws S) depth hs (Hs : sorted_space hs) (NS : no_small S)
    e o o' x junk junkx,
  valid_expr S hs e -> (exists d, uniform_space hs d) ->
  build S (Datatypes.S depth) hs e = Ok o -> lo_const S o = k0 S ->
  imatmul_self S (Datatypes.S depth) hs o = Ok o' -> configuration hs x ->
  row_or_fault S hs (denote S hs (Matmul S e e) x) (get_conn S hs o' junk junkx x).
Proof. exact expr_self_product. Qed.
Print Assumptions C16_self_product_partial.

Example C16_ex : exists o o', build gzxS 1 ex_hs (Plus _ eA eC) = Ok o /\
  imatmul_self gzxS 1 ex_hs o = Ok o' /\ lo_const gzxS o = i0 /\
  get_conn gzxS ex_hs o' zj zx [1; 1] = Ok [([1; 1], (4, 0)); ([1; -1], (8, 0))] /\
  map (denote gzxS ex_hs (Matmul _ (Plus _ eA eC) (Plus _ eA eC)) [1; 1]) (all_configs ex_hs)
  = [i0; i0; (8, 0); (4, 0)].
Proof. compute_ex. Qed.

(** With a constant it fails: for A = 2 + sx, A @= A gives 3 + 6 sx instead of 5 + 4 sx. *)
Definition e2x : expr gzxS := New gzxS (2, 0) [(sx, [0%nat])].
Theorem C16_constant_refuted :
  exists o o' o2, build gzxS 1 ex_hs e2x = Ok o /\
    imatmul_self gzxS 1 ex_hs o = Ok o' /\
    build gzxS 1 ex_hs (Matmul _ e2x e2x) = Ok o2 /\
    get_conn gzxS ex_hs o' zj zx [1; 1] = Ok [([1; 1], (3, 0)); ([-1; 1], (6, 0))] /\
    get_conn gzxS ex_hs o2 zj zx [1; 1] = Ok [([1; 1], (5, 0)); ([-1; 1], (4, 0))].
Proof. compute_ex. Qed.
Print Assumptions C16_constant_refuted.

(** ** C17: is_hermitian and .H.  Partial: constants and scalar factors must be real (the
    rest is refuted below); the comparison of matrices is exact. *)
Theorem C17_is_hermitian_partial :
  forall S (L : scalar_laws S) depth hs (Hs : sorted_space hs) (NS : no_small S) e o,
  close_exact S -> valid_expr S hs e ->
  no_product S e \/ (exists d, uniform_space hs d) -> real_scalars S e ->
  build S (Datatypes.S depth) hs e = Ok o -> lo_herm S o = true ->
  forall x y, configuration hs x -> configuration hs y ->
  denote S hs e x y = kconj S (denote S hs e y x).
Proof. exact expr_hermitian. Qed.
Print Assumptions C17_is_hermitian_partial.

Theorem C17_adjoint_partial :
  forall S (L : scalar_laws S) depth hs (Hs : sorted_space hs) (NS : no_small S)
    e o x junk junkx,
  close_exact S -> valid_expr S hs e ->
  no_product S e \/ (exists d, uniform_space hs d) -> real_scalars S e ->
  build S (Datatypes.S depth) hs e = Ok o -> configuration hs x ->
  exists o', dagger S (Datatypes.S depth) hs o = Ok o' /\
    row_or_fault S hs (fun y => kconj S (denote S hs e y x)) (get_conn S hs o' junk junkx x).
Proof. exact expr_dagger. Qed.
Print Assumptions C17_adjoint_partial.

Example C17_ex :
  real_scalars gzxS eLin /\ real_scalars gzxS eB /\
  (exists o, build gzxS 1 ex_hs eB = Ok o /\ lo_herm gzxS o = true) /\
  exists o o', build gzxS 1 ex_hs eLin = Ok o /\ dagger gzxS 1 ex_hs o = Ok o' /\
    lo_herm gzxS o = false /\
    get_conn gzxS ex_hs o' zj zx [1; 1]
    = Ok [([1; 1], (1, 0)); ([-1; 1], (2, 0)); ([1; -1], (2, 0)); ([-1; 1], (-3, 0))].
Proof.
  split; [cbn; repeat split|]. split; [reflexivity|]. split.
  - compute_ex.
  - compute_ex.
Qed.

(** i * sx claims to be hermitian, and its .H is itself. *)
Theorem C17_scaled_refuted :
  exists o o', build gzxS 1 ex_hs (Times _ eA (0, 1)) = Ok o /\
    dagger gzxS 1 ex_hs o = Ok o' /\ lo_herm gzxS o = true /\
    get_conn gzxS ex_hs o' zj zx [1; 1] = Ok [([-1; 1], (0, 1))] /\
    denote gzxS ex_hs (Times _ eA (0, 1)) [1; 1] [-1; 1] = (0, 1) /\
    kconj gzxS (denote gzxS ex_hs (Times _ eA (0, 1)) [-1; 1] [1; 1]) = (0, -1).
Proof. compute_ex. Qed.
Print Assumptions C17_scaled_refuted.

(** The constant is ignored too: sx + i claims to be hermitian. *)
Theorem C17_constant_refuted :
  exists o, build gzxS 1 ex_hs (New gzxS (0, 1) [(sx, [0%nat])]) = Ok o /\ lo_herm gzxS o = true /\
    get_conn gzxS ex_hs o zj zx [1; 1] = Ok [([1; 1], (0, 1)); ([-1; 1], i1)].
Proof. compute_ex. Qed.
Print Assumptions C17_constant_refuted.

(** ** C19: the batched forms. *)
Theorem C19_flattened :
  forall S (L : scalar_laws S) depth hs (Hs : sorted_space hs) (NS : no_small S)
    e o xs junk junkx,
  valid_expr S hs e -> no_product S e \/ (exists d, uniform_space hs d) ->
  build S (Datatypes.S depth) hs e = Ok o -> Forall (configuration hs) xs ->
  visible S hs (denote S hs e) xs ->
  exists rows,
    Forall2 (fun x row => is_row S hs (denote S hs e x) row) xs rows /\
    get_conn_flattened S hs o false junk junkx xs
    = Ok (concat (map (map snd) rows), concat (map (map fst) rows),
          ends 0 (map (@length _) rows)) /\
    n_conn S hs o junk junkx xs = Ok (map (@length _) rows).
Proof. exact expr_flattened. Qed.
Print Assumptions C19_flattened.

Theorem C19_padded :
  forall S (L : scalar_laws S) depth hs (Hs : sorted_space hs) (NS : no_small S)
    e o xs junk junkx,
  valid_expr S hs e -> no_product S e \/ (exists d, uniform_space hs d) ->
  build S (Datatypes.S depth) hs e = Ok o -> Forall (configuration hs) xs -> xs <> [] ->
  (exists x, configuration hs x /\ denote S hs e x x <> k0 S) \/
  (exists x y, In x xs /\ configuration hs y /\ denote S hs e x y <> k0 S) ->
  exists rows, let w := list_max (map (@length _) rows) in
    Forall2 (fun x row => is_row S hs (denote S hs e x) row) xs rows /\
    get_conn_padded S hs o junk junkx xs
    = Ok (map (fun p => map fst (snd p) ++ repeat (fst p) (w - length (snd p))) (combine xs rows),
          map (fun row => map snd row ++ repeat (k0 S) (w - length row)) rows).
Proof. exact expr_padded. Qed.
Print Assumptions C19_padded.

(** max_conn_size bounds n_conn.  Partial: there is at least one term, and no term was
    rescaled (both refuted below). *)
Theorem C19_max_conn_partial :
  forall S (L : scalar_laws S) depth hs (Hs : sorted_space hs) (NS : no_small S)
    e o xs junk junkx c,
  valid_expr S hs e -> no_product S e \/ (exists d, uniform_space hs d) ->
  no_rescaling S e -> build S (Datatypes.S depth) hs e = Ok o -> lo_ops S o <> [] ->
  Forall (configuration hs) xs -> n_conn S hs o junk junkx xs = Ok c ->
  Forall (fun n => n <= max_conn_size S o)%nat c.
Proof. exact expr_max_conn. Qed.
Print Assumptions C19_max_conn_partial.

Example C19_ex : exists o, build gzxS 1 ex_hs (Plus _ eB eC) = Ok o /\
  lo_ops gzxS o <> [] /\
  get_conn_flattened gzxS ex_hs o false zj zx [[-1; -1]; [1; 1]]
  = Ok ([(2, 0); i1; i1; i0; i1; (4, 0)],
        [[-1; -1]; [-1; 1]; [1; -1]; [1; 1]; [1; -1]; [-1; -1]], [3%nat; 6%nat]) /\
  n_conn gzxS ex_hs o zj zx [[-1; -1]; [1; 1]] = Ok [3%nat; 3%nat] /\ max_conn_size gzxS o = 5%nat.
Proof. compute_ex. Qed.
Example C19_ex_hyps :
  visible gzxS ex_hs (denote gzxS ex_hs (Plus _ eB eC)) [[-1; -1]; [1; 1]] /\
  no_rescaling gzxS (Plus _ eB eC).
Proof.
  split; [left; exists [-1; -1]; split; [conf|vm_compute; discriminate]|]. cbn; auto.
Qed.

(** A constant operator has one connected element but max_conn_size 0. *)
Theorem C19_constant_refuted :
  exists o, build gzxS 1 ex_hs (New gzxS i1 []) = Ok o /\ max_conn_size gzxS o = O /\
    n_conn gzxS ex_hs o zj zx [[1; 1]] = Ok [1%nat].
Proof. compute_ex. Qed.
Print Assumptions C19_constant_refuted.

(** 0 * sx still returns one element per sample, while max_conn_size is 0. *)
Theorem C19_rescaled_refuted :
  exists o, build gzxS 1 ex_hs (Times _ eA i0) = Ok o /\ max_conn_size gzxS o = O /\
    n_conn gzxS ex_hs o zj zx [[1; 1]] = Ok [1%nat].
Proof. compute_ex. Qed.
Print Assumptions C19_rescaled_refuted.

(** ** C20: no access outside the buffers.  Partial: the operator must have a nonzero
    diagonal element, or the row of the last sample must not be zero; refuted otherwise. *)
Theorem C20_in_bounds_partial :
  forall S (L : scalar_laws S) depth hs (Hs : sorted_space hs) (NS : no_small S)
    e o xs junk junkx,
  valid_expr S hs e -> no_product S e \/ (exists d, uniform_space hs d) ->
  build S (Datatypes.S depth) hs e = Ok o -> Forall (configuration hs) xs ->
  visible S hs (denote S hs e) xs ->
  exists r, get_conn_flattened S hs o false junk junkx xs = Ok r.
Proof.
  exact (fun S L depth hs Hs NS e o xs junk junkx V P B C W =>
    match expr_flattened S L depth hs Hs NS e o xs junk junkx V P B C W with
    | ex_intro _ rows (conj _ (conj E _)) => ex_intro _ _ E
    end).
Qed.
Print Assumptions C20_in_bounds_partial.

(** sigma^+ on a state it annihilates: [mels] has length 0 and is accessed at 0. *)
Theorem C20_no_diagonal_refuted :
  exists o, build gzxS 1 ex_hs (New gzxS i0 [(sp, [0%nat])]) = Ok o /\
    get_conn_flattened gzxS ex_hs o false zj zx [[1; 1]] = Err Fault.
Proof. compute_ex. Qed.
Print Assumptions C20_no_diagonal_refuted.

(** ** C26: entry [i, j] of to_sparse is the weight that the connections of state i give
    to state j, for any operator ([gc]: its get_conn_flattened) ... *)
Theorem C26_to_sparse_entries :
  forall S h L gc rows, sane h -> all_states h = Ok L ->
  gc L = Ok (concat (map (map snd) rows), concat (map (map fst) rows),
             ends 0 (map (@length _) rows)) ->
  length rows = length L ->
  (forall row p, In row rows -> In p row -> config h (fst p)) ->
  exists m, to_sparse S h gc = Ok m /\ cs_n S m = Z.of_nat (length L) /\
    forall i j, (i < length L)%nat -> (j < length L)%nat ->
    csr_entry S m i (Z.of_nat j) = weight S (nth i rows []) (nth j L []).
Proof. exact to_sparse_ok. Qed.
Print Assumptions C26_to_sparse_entries.

(** ... and for local operators on an unconstrained space it is the denoted matrix. *)
Theorem C26_local_operator_matrix :
  forall S depth h e o L junk junkx, scalar_laws S -> no_small S ->
  sane h -> free h -> flippable h -> all_states h = Ok L ->
  let hs := site_states h in
  valid_expr S hs e -> no_product S e \/ (exists d, uniform_space hs d) ->
  build S (Datatypes.S depth) hs e = Ok o -> visible S hs (denote S hs e) L ->
  exists m, to_sparse S h (get_conn_flattened S hs o false junk junkx) = Ok m /\
    cs_n S m = Z.of_nat (length L) /\
    forall i j, (i < length L)%nat -> (j < length L)%nat ->
    csr_entry S m i (Z.of_nat j) = denote S hs e (nth i L []) (nth j L []).
Proof. exact expr_to_sparse. Qed.
Print Assumptions C26_local_operator_matrix.

Example C26_ex : exists o m,
  build gzxS 1 (site_states (Spin 1 2 None)) eLin = Ok o /\
  to_sparse gzxS (Spin 1 2 None) (get_conn_flattened gzxS ex_hs o false zj zx) = Ok m /\
  map (fun i => map (fun j => csr_entry gzxS m i j) [0; 1; 2; 3]) [0%nat; 3%nat]
  = [[(5, 0); (2, 0); i1; i0]; [(-4, 0); (2, 0); (2, 0); i1]].
Proof. compute_ex. Qed.
Example C26_ex_hyps :
  sane (Spin 1 2 None) /\ free (Spin 1 2 None) /\ flippable (Spin 1 2 None) /\
  visible gzxS ex_hs (denote gzxS ex_hs eLin) [[-1; -1]; [1; 1]].
Proof.
  split; [constructor; [simpl; lia|discriminate]|]. split; [cbn; auto|]. split; [constructor; cbn; auto|].
  left; exists [-1; -1]; split; [conf|vm_compute; discriminate].
Qed.
