(** * Properties C21, C22 and C58: the Ising and Bose-Hubbard Hamiltonians *)
From Coq Require Import ZArith List Bool Lia.
From Verif Require Import Base ExTac Scalar LocalOp_Spec LocalOp_Model LocalOp_Props Special_Model Special_Spec
  Special_Proofs Special_Bose Special_Sums Special_Final.
Import ListNotations.
Open Scope Z_scope.

(** ** C21 *)
(** For any batch of spin configurations, the flattened result splits into one row per
    sample; a row has n + 1 elements, the first is the diagonal one, the others are -h for
    each single flipped spin, and it is the row of -h sum sx + J sum sz sz. *)
Theorem C21_rows :
  forall S (L : scalar_laws S) (o : ising S) junk junkx xs,
  edges_ok (is_n S o) (is_edges S o) -> is_edges S o <> [] ->
  Forall (configuration (spins (is_n S o))) xs ->
  exists rows,
    ising_flattened S o junk junkx xs =
      Ok (map snd (concat rows), map fst (concat rows), ends 0 (map (@length _) rows)) /\
    Forall2 (fun x row =>
      is_row S (spins (is_n S o))
        (element S (spins (is_n S o)) (k0 S)
           (ising_terms S (is_n S o) (is_edges S o) (is_h S o) (is_J S o)) x) row /\
      length row = ising_max_conn_size S o /\
      exists dg, row = (x, dg) :: map (fun j => (upd x j (- nth j x 0), kopp S (is_h S o)))
                                      (seq 0 (is_n S o))) xs rows.
Proof. exact ising_batch. Qed.
Print Assumptions C21_rows.

(** to_local_operator builds an operator with the same rows. *)
Theorem C21_to_local_operator :
  forall S (L : scalar_laws S) (NS : no_small S) (o : ising S) nonzero depth,
  edges_ok (is_n S o) (is_edges S o) -> (forall k, nonzero k = false -> k = k0 S) ->
  2 ^ Z.of_nat (is_n S o) <= 2 ^ 31 - 1 ->
  exists lo,
    build S (Datatypes.S depth) (spins (is_n S o)) (ising_local S nonzero o) = Ok lo /\
    forall x junk junkx, configuration (spins (is_n S o)) x ->
    row_or_fault S (spins (is_n S o))
      (element S (spins (is_n S o)) (k0 S)
         (ising_terms S (is_n S o) (is_edges S o) (is_h S o) (is_J S o)) x)
      (get_conn S (spins (is_n S o)) lo junk junkx x).
Proof.
  exact (fun S L NS o nonzero depth He Hnz Hd => ising_local_ok S L o He nonzero Hnz NS depth Hd).
Qed.
Print Assumptions C21_to_local_operator.

(** three spins on a ring, h = 2, J = 1 *)
Definition ex_ring : list (nat * nat) := [(0, 1); (1, 2); (0, 2)]%nat.
Definition ex_ising : ising gzxS := mkIsing gzxS 3 ex_ring (2, 0) i1.
Lemma ex_ring_ok : edges_ok 3 ex_ring.
Proof. repeat constructor; cbn; lia. Qed.
Definition gz_nonzero (k : GZ) : bool := negb (gz_eqb k (0, 0)).
Lemma gz_nonzero_ok k : gz_nonzero k = false -> k = k0 gzxS.
Proof.
  destruct k as [a b]. unfold gz_nonzero, gz_eqb. cbn [fst snd]. intros H.
  apply negb_false_iff, andb_true_iff in H. rewrite !Z.eqb_eq in H. destruct H; subst; reflexivity.
Qed.

Example C21_ex :
  edges_ok (is_n gzxS ex_ising) (is_edges gzxS ex_ising) /\
  configuration (spins 3) [1; 1; -1] /\
  ising_row gzxS ex_ising [1; 1; -1] =
    [([1; 1; -1], (-1, 0)); ([-1; 1; -1], (-2, 0)); ([1; -1; -1], (-2, 0)); ([1; 1; 1], (-2, 0))] /\
  exists lo l, build gzxS 1 (spins 3) (ising_local gzxS gz_nonzero ex_ising) = Ok lo /\
    get_conn gzxS (spins 3) lo zj zx [1; 1; -1] = Ok l /\
    map (weight gzxS l) [[1; 1; -1]; [-1; 1; -1]; [1; 1; 1]; [-1; -1; -1]] =
      [(-1, 0); (-2, 0); (-2, 0); (0, 0)].
Proof.
  split; [exact ex_ring_ok|]. split; [conf|]. split; [vm_compute; reflexivity|]. compute_ex.
Qed.

(** On local states 0 and 1 (a Qubit space, which Ising accepts) the same code lists
    "configurations" with local state -1, and flipping 0 gives 0 again. *)
Theorem C21_qubit_refuted :
  exists x p, configuration [[0; 1]; [0; 1]; [0; 1]] x /\ In p (ising_row gzxS ex_ising x) /\
    ~ configuration [[0; 1]; [0; 1]; [0; 1]] (fst p) /\ nth 1 (ising_row gzxS ex_ising x) (x, i0) = (x, (-2, 0)).
Proof.
  exists [0; 1; 0], ([0; -1; 0], (-2, 0)). split; [conf|]. split; [vm_compute; tauto|]. split; [|vm_compute; reflexivity].
  intros H. inversion H as [|? ? ? ? ? H1]; subst. inversion H1 as [|? ? ? ? H2 H3]; subst. cbn in H2. intuition lia.
Qed.
Print Assumptions C21_qubit_refuted.

(** ** C22 *)
(** get_conn, for any contents of the cached buffers: the row of the documented operator,
    with occupations in range and the particle number of x. *)
Theorem C22_get_conn :
  forall S (L : scalar_laws S) rt (o : bose S) mels xp x,
  edges_ok (bh_n S o) (bh_edges S o) ->
  length mels = length xp -> (bh_max_conn S o <= length mels)%nat ->
  configuration (occupations (bh_n S o) (bh_nmax S o)) x ->
  exists row, bh_get_conn S rt o mels xp x = Ok row /\
    is_row S (occupations (bh_n S o) (bh_nmax S o))
      (bh_element S rt (bh_n S o) (bh_edges S o) (bh_Uh S o) (bh_V S o) (bh_J S o) (bh_mu S o) x) row /\
    (length row <= bh_max_conn S o)%nat /\
    forall p, In p row ->
      Forall (fun v => 0 <= v <= bh_nmax S o) (fst p) /\ zsum (fst p) = zsum x.
Proof. exact bh_one. Qed.
Print Assumptions C22_get_conn.

(** get_conn_flattened, whatever earlier calls left in the cached buffers: the rows of
    get_conn one after the other; the buffers kept stay usable. *)
Theorem C22_flattened :
  forall S rt (o : bose S) mels xp junk junkx xs,
  bh_edges S o <> [] -> length mels = length xp -> (bh_max_conn S o <= length mels)%nat ->
  exists rows mels' xp',
    bh_flattened S rt o false mels xp junk junkx xs =
      Ok ((map snd (concat rows), map fst (concat rows), ends 0 (map (@length _) rows)), (mels', xp')) /\
    length mels' = length xp' /\ (bh_max_conn S o <= length mels')%nat /\
    Forall2 (fun x row => forall m x', length m = length x' -> (bh_max_conn S o <= length m)%nat ->
               bh_get_conn S rt o m x' x = Ok row) xs rows.
Proof. exact bh_flat. Qed.
Print Assumptions C22_flattened.

(** with pad=True every row is completed with zero elements to max_conn_size *)
Theorem C22_padded :
  forall S rt (o : bose S) mels xp junk junkx xs,
  bh_edges S o <> [] -> length mels = length xp -> (bh_max_conn S o <= length mels)%nat ->
  exists rows mels' xp',
    let zero := (repeat 0 (bh_n S o), k0 S) in
    let full := map (fun row => row ++ repeat zero (bh_max_conn S o - length row)) rows in
    bh_flattened S rt o true mels xp junk junkx xs =
      Ok ((map snd (concat full), map fst (concat full),
           ends 0 (map (fun _ => bh_max_conn S o) xs)), (mels', xp')) /\
    length mels' = length xp' /\ (bh_max_conn S o <= length mels')%nat /\
    Forall2 (fun x row => forall m x', length m = length x' -> (bh_max_conn S o <= length m)%nat ->
               bh_get_conn S rt o m x' x = Ok row) xs rows.
Proof. exact bh_pad. Qed.
Print Assumptions C22_padded.

(** the matrix is symmetric, for any real or complex parameters *)
Theorem C22_symmetric :
  forall S (L : scalar_laws S) rt n edges Uh V J mu x y, length x = length y ->
  bh_element S rt n edges Uh V J mu x y = bh_element S rt n edges Uh V J mu y x.
Proof. exact bh_sym. Qed.
Print Assumptions C22_symmetric.

(** to_local_operator: only when J is not zero, and with U in place of U/2. *)
Theorem C22_to_local_operator_partial :
  forall S (L : scalar_laws S) (NS : no_small S) rt (o : bose S) nonzero depth,
  edges_ok (bh_n S o) (bh_edges S o) -> (forall k, nonzero k = false -> k = k0 S) ->
  nonzero (bh_J S o) = true ->
  0 <= bh_nmax S o -> (bh_nmax S o + 1) ^ Z.of_nat (bh_n S o) <= 2 ^ 31 - 1 ->
  exists lo,
    build S (Datatypes.S depth) (occupations (bh_n S o) (bh_nmax S o)) (bh_local S rt nonzero o) = Ok lo /\
    forall x junk junkx, configuration (occupations (bh_n S o) (bh_nmax S o)) x ->
    row_or_fault S (occupations (bh_n S o) (bh_nmax S o))
      (bh_element S rt (bh_n S o) (bh_edges S o) (bh_U S o) (bh_V S o) (bh_J S o) (bh_mu S o) x)
      (get_conn S (occupations (bh_n S o) (bh_nmax S o)) lo junk junkx x).
Proof.
  exact (fun S L NS rt o nonzero depth He Hnz HJ H0 Hd =>
           bh_local_ok S L rt o He nonzero Hnz HJ NS depth H0 Hd).
Qed.
Print Assumptions C22_to_local_operator_partial.

(** two sites, up to two bosons each; U = 2, V = 5, J = 1, mu = 3, sqrt replaced by n |-> n *)
Definition ex_rt (z : Z) : GZ := (z, 0).
Definition ex_bose (J : GZ) : bose gzxS := mkBose gzxS 2 2 [(0, 1)%nat] (2, 0) (1, 0) (5, 0) J (3, 0).

Example C22_ex :
  edges_ok 2 [(0, 1)%nat] /\ configuration (occupations 2 2) [2; 1] /\
  bh_row gzxS ex_rt (ex_bose i1) [2; 1] = [([2; 1], (3, 0)); ([1; 2], (-4, 0))] /\
  (exists r, bh_flattened gzxS ex_rt (ex_bose i1) true [(9, 9); (9, 9); (9, 9)] [[]; []; []] zj zx
     [[2; 1]; [0; 1]] = Ok r /\
     fst r = ([(3, 0); (-4, 0); (0, 0); (-3, 0); (-1, 0); (0, 0)],
              [[2; 1]; [1; 2]; [0; 0]; [0; 1]; [1; 0]; [0; 0]], [3%nat; 6%nat])).
Proof.
  split; [repeat constructor; cbn; lia|].
  split; [repeat (apply Forall2_cons; [vm_compute; tauto|]); apply Forall2_nil|].
  split; [vm_compute; reflexivity|]. compute_ex.
Qed.

(** The claim of C22 about to_local_operator is false: with U/2 = 1 the diagonal element of
    [2; 0] is U/2 * 2 * 1 - 6 = -4, but the local operator has U * 2 * 1 - 6 = -2. *)
Theorem C22_to_local_operator_refuted :
  exists lo l, build gzxS 1 (occupations 2 2) (bh_local gzxS ex_rt gz_nonzero (ex_bose i1)) = Ok lo /\
    get_conn gzxS (occupations 2 2) lo zj zx [2; 0] = Ok l /\
    kadd gzxS (bh_Uh gzxS (ex_bose i1)) (bh_Uh gzxS (ex_bose i1)) = bh_U gzxS (ex_bose i1) /\
    weight gzxS l [2; 0] = (-2, 0) /\
    weight gzxS (bh_row gzxS ex_rt (ex_bose i1) [2; 0]) [2; 0] = (-4, 0).
Proof. compute_ex. Qed.
Print Assumptions C22_to_local_operator_refuted.

(** and without hopping the interaction V is dropped too *)
Theorem C22_no_hopping_refuted :
  exists lo l, build gzxS 1 (occupations 2 2) (bh_local gzxS ex_rt gz_nonzero (ex_bose i0)) = Ok lo /\
    get_conn gzxS (occupations 2 2) lo zj zx [1; 1] = Ok l /\
    weight gzxS l [1; 1] = (-6, 0) /\
    weight gzxS (bh_row gzxS ex_rt (ex_bose i0) [1; 1]) [1; 1] = (-1, 0).
Proof. compute_ex. Qed.
Print Assumptions C22_no_hopping_refuted.

(** ** C58: sums of Hamiltonians of the same class.  Proved for equal edges and a last site
    that has an edge; both restrictions are needed. *)
Theorem C58_ising_sum_partial :
  forall S (L : scalar_laws S) (a b : ising S),
  is_n S a = is_n S b -> is_edges S a = is_edges S b ->
  edges_ok (is_n S a) (is_edges S a) -> last_site_used (is_n S a) (is_edges S a) ->
  exists c, ising_add S a b = Ok c /\ is_n S c = is_n S a /\ is_edges S c = is_edges S a /\
    forall x y,
    element S (spins (is_n S a)) (k0 S) (ising_terms S (is_n S c) (is_edges S c) (is_h S c) (is_J S c)) x y =
    kadd S
      (element S (spins (is_n S a)) (k0 S) (ising_terms S (is_n S a) (is_edges S a) (is_h S a) (is_J S a)) x y)
      (element S (spins (is_n S a)) (k0 S) (ising_terms S (is_n S b) (is_edges S b) (is_h S b) (is_J S b)) x y).
Proof. exact ising_add_ok. Qed.
Print Assumptions C58_ising_sum_partial.

Theorem C58_bose_sum_partial :
  forall S (L : scalar_laws S) rt (a b : bose S),
  bh_n S a = bh_n S b -> bh_nmax S a = bh_nmax S b -> bh_edges S a = bh_edges S b ->
  edges_ok (bh_n S a) (bh_edges S a) -> last_site_used (bh_n S a) (bh_edges S a) ->
  exists c, bh_add S a b = Ok c /\
    bh_n S c = bh_n S a /\ bh_nmax S c = bh_nmax S a /\ bh_edges S c = bh_edges S a /\
    bh_U S c = kadd S (bh_U S a) (bh_U S b) /\
    forall x y,
    bh_element S rt (bh_n S c) (bh_edges S c) (bh_Uh S c) (bh_V S c) (bh_J S c) (bh_mu S c) x y =
    kadd S
      (bh_element S rt (bh_n S a) (bh_edges S a) (bh_Uh S a) (bh_V S a) (bh_J S a) (bh_mu S a) x y)
      (bh_element S rt (bh_n S b) (bh_edges S b) (bh_Uh S b) (bh_V S b) (bh_J S b) (bh_mu S b) x y).
Proof. exact bh_add_ok. Qed.
Print Assumptions C58_bose_sum_partial.

Example C58_ex : last_site_used 3 ex_ring /\
  exists c, ising_add gzxS ex_ising (mkIsing gzxS 3 ex_ring (1, 0) (7, 0)) = Ok c /\
    is_h gzxS c = (3, 0) /\ is_J gzxS c = (8, 0).
Proof.
  split; [split; [lia|]; exists (1, 2)%nat; cbn; auto|]. compute_ex.
Qed.

(** Different edges: the sum of sz0 sz1 and sz1 sz2 comes out as 2 sz0 sz1 (+ 0 sx). *)
Definition ex_i1 : ising gzxS := mkIsing gzxS 3 [(0, 1); (0, 2)]%nat i0 i1.
Definition ex_i2 : ising gzxS := mkIsing gzxS 3 [(1, 2); (0, 2)]%nat i0 i1.
Theorem C58_different_edges_refuted :
  exists c, ising_add gzxS ex_i1 ex_i2 = Ok c /\
    weight gzxS (ising_row gzxS ex_i1 [1; 1; -1]) [1; 1; -1] = (0, 0) /\
    weight gzxS (ising_row gzxS ex_i2 [1; 1; -1]) [1; 1; -1] = (-2, 0) /\
    weight gzxS (ising_row gzxS c [1; 1; -1]) [1; 1; -1] = (0, 0).
Proof. compute_ex. Qed.
Print Assumptions C58_different_edges_refuted.

(** A last site without edges: copying and adding fail. *)
Theorem C58_isolated_site_refuted :
  exists o, mk_ising gzxS 3 3 [(0, 1)%nat] i1 i1 = Ok o /\ edges_ok 3 (is_edges gzxS o) /\
    ising_copy gzxS o = Err AssertionError /\ ising_add gzxS o o = Err AssertionError.
Proof. exists (mkIsing gzxS 3 [(0, 1)%nat] i1 i1). repeat split; repeat constructor; cbn; lia. Qed.
Print Assumptions C58_isolated_site_refuted.
