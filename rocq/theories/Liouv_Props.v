(** * Property C25: the Lindbladian *)
From Coq Require Import ZArith List Bool Lia QArith Qcanon.
From Verif Require Import Base ExTac Scalar LocalOp_Spec LocalOp_Model LocalOp_Props Special_Proofs
  Lazy_Spec Liouv_Model Liouv_Spec Liouv_Proofs Liouv_Final.
Import ListNotations.
Open Scope Z_scope.

(** get_conn_flattened, given the rows of the non-hermitian Hamiltonian and of the jump
    operators in flattened form (C19) and buffers of max_conn_size rows per sample: one list of
    elements per sample; each list, contracted with any density matrix, is the right-hand side
    of the master equation at (row, col).  The single-sample interface returns the same list when
    the Hamiltonian has as many connected elements at row as at col (otherwise: refuted below). *)
Theorem C25_flattened :
  forall S (L : scalar_laws S) im hs (Hs : sorted_space hs) Hn Ls hrow lrows mh ms size cap samples,
  (forall x, configuration hs x -> is_row S hs (Hn x) (hrow x) /\ (length (hrow x) <= mh)%nat) ->
  Forall2 (fun l f => forall x, configuration hs x -> is_row S hs (l x) (f x)) Ls lrows ->
  Forall2 (fun f m => forall x, configuration hs x -> (length (f x : list (list Z * K S)) <= m)%nat) lrows ms ->
  Forall (fun s => configuration hs (fst s) /\ configuration hs (snd s)) samples ->
  ((jsum ms + 2 * mh) * length samples <= cap)%nat ->
  exists rows,
    liou_flattened S im size false samples (flat_rows S hrow (map fst samples)) (flat_rows S hrow (map snd samples))
      (flats S lrows samples) cap =
      Ok (map snd (concat rows), map fst (concat rows), ends O (map (@length _) rows)) /\
    Forall2 (fun s row =>
      (forall p, In p row -> configuration (hs ++ hs) (fst p)) /\
      (forall rho, contract S hs row rho = master S im hs Hn Ls rho (fst s) (snd s)) /\
      (length row <= jsum ms + 2 * mh)%nat /\
      forall stale, length (hrow (fst s)) = length (hrow (snd s)) ->
        liou_get_conn S im (fst s) (snd s) (hrow (fst s)) (hrow (snd s))
          (map (fun f => (f (fst s), f (snd s))) lrows) stale = Ok row) samples rows.
Proof. exact lind_batch. Qed.
Print Assumptions C25_flattened.

(** The non-hermitian Hamiltonian that the constructor builds is H - i/2 sum L^dagger L. *)
Theorem C25_hnh :
  forall S (L : scalar_laws S) im half hs H Ls x y,
  denote S hs (hnh_expr S im half H Ls) x y = hnh S im half hs (denote S hs H) (map (denote S hs) Ls) x y.
Proof. exact hnh_expr_ok. Qed.
Print Assumptions C25_hnh.

(** Both together for local operators, single-sample interface. *)
Theorem C25_get_conn_partial :
  forall S (L : scalar_laws S) im half depth hs (Hs : sorted_space hs) (NS : no_small S) d H Ls o los xr xc hr hc ls
    j jx stale rho,
  uniform_space hs d -> valid_expr S hs H -> Forall (valid_expr S hs) Ls ->
  build S (Datatypes.S depth) hs (hnh_expr S im half H Ls) = Ok o ->
  Forall2 (fun l lo => build S (Datatypes.S depth) hs l = Ok lo) Ls los ->
  configuration hs xr -> configuration hs xc ->
  get_conn S hs o j jx xr = Ok hr -> get_conn S hs o j jx xc = Ok hc -> length hr = length hc ->
  Forall2 (fun lo p => get_conn S hs lo j jx xr = Ok (fst p) /\ get_conn S hs lo j jx xc = Ok (snd p)) los ls ->
  exists row, liou_get_conn S im xr xc hr hc ls stale = Ok row /\
    contract S hs row rho =
      master S im hs (hnh S im half hs (denote S hs H) (map (denote S hs) Ls)) (map (denote S hs) Ls) rho xr xc.
Proof. exact lind_local. Qed.
Print Assumptions C25_get_conn_partial.

(** pad=True: proved when no row is longer than the padding (computed without the first
    sample). *)
Theorem C25_padded_partial :
  forall S im hrow lrows size samples cap,
  let pad := pad_size S (flat_rows S hrow (map fst samples)) (flat_rows S hrow (map snd samples)) (flats S lrows samples) in
  (0 < pad)%nat -> Forall (fun s => (length (out_row S im hrow lrows s) <= pad)%nat) samples ->
  (length samples * pad <= cap)%nat ->
  liou_flattened S im size true samples (flat_rows S hrow (map fst samples)) (flat_rows S hrow (map snd samples))
    (flats S lrows samples) cap =
  Ok (concat (map (fun s => padded (k0 S) pad (map snd (out_row S im hrow lrows s))) samples),
      concat (map (fun s => padded (repeat 0 size) pad (map fst (out_row S im hrow lrows s))) samples),
      map (fun k => ((k + 1) * pad)%nat) (seq 0 (length samples))).
Proof. exact padded_ok. Qed.
Print Assumptions C25_padded_partial.

(** The evolution preserves the trace, for every hermitian H, jump operators and matrix. *)
Theorem C25_trace :
  forall S (L : scalar_laws S) im half hs,
  kmul S im im = kopp S (k1 S) -> kconj S im = kopp S im ->
  kadd S half half = k1 S -> kconj S half = half ->
  forall H Ls rho,
  (forall x y, configuration hs x -> configuration hs y -> H x y = kconj S (H y x)) ->
  trace S hs (master S im hs (hnh S im half hs H Ls) Ls rho) = k0 S.
Proof. exact lind_trace. Qed.
Print Assumptions C25_trace.

(** H = sz_1 + (flip site 2 where site 1 is down), a jump operator on site 1 *)
Definition flip_down : list (list GZ) :=
  [[i0; i1; i0; i0]; [i1; i0; i0; i0]; [i0; i0; i0; i0]; [i0; i0; i0; i0]].
Definition eH : expr gzxS := New gzxS i0 [(sz, [0%nat]); (flip_down, [0%nat; 1%nat])].
Definition eL : expr gzxS := New gzxS i1 [(sp, [0%nat])].
Definition jim : GZ := (0, 1).
Definition rows_of (e : expr gzxS) (x : list Z) : list (list Z * GZ) :=
  match build gzxS 1 ex_hs e with
  | Ok o => match get_conn gzxS ex_hs o zj zx x with Ok l => l | Err _ => [] end
  | Err _ => []
  end.

Example C25_ex :
  uniform_space ex_hs 2 /\ configuration ex_hs [1; 1] /\
  length (rows_of eH [1; 1]) = length (rows_of eH [1; -1]) /\
  liou_get_conn gzxS jim [1; 1] [1; -1] (rows_of eH [1; 1]) (rows_of eH [1; -1])
    [(rows_of eL [1; 1], rows_of eL [1; -1])] i0 =
    Ok (out_row gzxS jim (rows_of eH) [rows_of eL] ([1; 1], [1; -1])) /\
  Nat.ltb 5 (length (out_row gzxS jim (rows_of eH) [rows_of eL] ([-1; 1], [-1; -1]))) = true /\
  liou_flattened gzxS jim 4 false [([1; 1], [1; -1]); ([-1; 1], [1; 1])]
    (flat_rows gzxS (rows_of eH) [[1; 1]; [-1; 1]]) (flat_rows gzxS (rows_of eH) [[1; -1]; [1; 1]])
    (flats gzxS [rows_of eL] [([1; 1], [1; -1]); ([-1; 1], [1; 1])]) 30 =
    (let l := out_row gzxS jim (rows_of eH) [rows_of eL] ([1; 1], [1; -1]) in
     let m := out_row gzxS jim (rows_of eH) [rows_of eL] ([-1; 1], [1; 1]) in
     Ok (map snd (l ++ m), map fst (l ++ m), [length l; length l + length m]%nat)).
Proof.
  split; [exact ex_uniform|]. split; [conf|]. split; [vm_compute; reflexivity|].
  split; [vm_compute; reflexivity|]. split; [vm_compute; reflexivity|]. vm_compute; reflexivity.
Qed.

Example C25_trace_ex :
  let im : GQ := (Q2Qc 0, Q2Qc 1) in let half : GQ := (Q2Qc (1 # 2), Q2Qc 0) in
  kmul gqS im im = kopp gqS (k1 gqS) /\ kconj gqS im = kopp gqS im /\
  kadd gqS half half = k1 gqS /\ kconj gqS half = half.
Proof.
  cbv zeta. repeat split; cbn [kmul kopp kconj kadd gqS k1];
    unfold gq_mul, gq_opp, gq_conj, gq_add, gq1; cbn [fst snd]; f_equal; apply Qc_is_canon; vm_compute; reflexivity.
Qed.

(** The batched and single-sample interfaces do not agree: where the Hamiltonian has two
    connected elements at col and one at row, get_conn raises ValueError. *)
Theorem C25_get_conn_refuted :
  exists xr xc, configuration ex_hs xr /\ configuration ex_hs xc /\
    rows_of eH xr <> [] /\ rows_of eH xc <> [] /\
    liou_get_conn gzxS jim xr xc (rows_of eH xr) (rows_of eH xc) [] i0 = Err ValueError /\
    exists r, liou_flattened gzxS jim 4 false [(xr, xc)] (flat_rows gzxS (rows_of eH) [xr])
      (flat_rows gzxS (rows_of eH) [xc]) [] 10 = Ok r.
Proof.
  exists [1; 1], [-1; 1]. split; [conf|]. split; [conf|]. split; [vm_compute; discriminate|].
  split; [vm_compute; discriminate|]. split; [vm_compute; reflexivity|]. eexists. vm_compute; reflexivity.
Qed.
Print Assumptions C25_get_conn_refuted.

(** pad=True with a first sample that has more connected elements than the others: elements of
    the first sample are lost. *)
Theorem C25_padded_refuted :
  exists samples mels xs secs rho,
    Forall (fun s => configuration ex_hs (fst s) /\ configuration ex_hs (snd s)) samples /\
    liou_flattened gzxS jim 4 true samples (flat_rows gzxS (rows_of eH) (map fst samples))
      (flat_rows gzxS (rows_of eH) (map snd samples)) [] 20 = Ok (mels, xs, secs) /\
    contract gzxS ex_hs (firstn (hd O secs) (combine xs mels)) rho <>
    contract gzxS ex_hs (out_row gzxS jim (rows_of eH) [] (hd ([], []) samples)) rho.
Proof.
  exists [([-1; 1], [-1; 1]); ([1; 1], [1; 1])]. eexists. eexists. eexists.
  exists (fun x y => if zlist_eqb y [-1; -1] then i1 else i0).
  split; [constructor; [split; conf|constructor; [split; conf|constructor]]|].
  split; [vm_compute; reflexivity|]. vm_compute. discriminate.
Qed.
Print Assumptions C25_padded_refuted.
