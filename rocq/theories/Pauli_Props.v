(** * Property C23: sums of Pauli strings *)
From Coq Require Import ZArith List Bool Lia.
From Verif Require Import Base ExTac Scalar LocalOp_Spec LocalOp_Model LocalOp_Props Special_Model
  Pauli_Model Pauli_Spec Pauli_Proofs.
Import ListNotations.
Open Scope Z_scope.

(** For any strings (repeated or not) and weights, and any batch of qubit configurations: the
    flattened result splits into one row per sample, a row adds up to the row of the weighted
    sum of tensor products, every listed element passes the cut-off test, and no row is longer
    than max_conn_size; with pad=True each row is completed with zeros to max_conn_size. *)
Theorem C23_rows :
  forall S (L : scalar_laws S) (im : K S) (NS : no_small S) n ops ws,
  valid_strings n ops -> length ws = length ops ->
  exists o, mk_pauli S im ops ws = Ok o /\ forall xs, Forall (configuration (qubits n)) xs ->
  exists rows,
    let full := map (fun row => row ++ repeat (repeat 0 n, k0 S) (pauli_max_conn S o - length row)) rows in
    pauli_flattened S o false xs =
      Ok (map snd (concat rows), map fst (concat rows), ends 0 (map (@length _) rows)) /\
    pauli_flattened S o true xs =
      Ok (map snd (concat full), map fst (concat full), ends 0 (map (fun _ => pauli_max_conn S o) xs)) /\
    Forall2 (fun x row =>
      is_row S (qubits n) (strings_element S im (combine ops ws) x) row /\
      (length row <= pauli_max_conn S o)%nat /\
      Forall (fun p => kbig S (snd p) = true) row) xs rows.
Proof. exact pauli_rows. Qed.
Print Assumptions C23_rows.

(** The constructor accepts exactly the non-empty lists of non-empty strings over I, X, Y, Z of
    one length with one weight each; anything else raises ValueError. *)
Theorem C23_constructor :
  forall S (im : K S) ops ws,
  match mk_pauli S im ops ws with
  | Ok o => length ws = length ops /\ valid_strings (ps_n S o) ops
  | Err e => e = ValueError /\ forall n, ~ (valid_strings n ops /\ length ws = length ops)
  end.
Proof.
  exact (fun S im ops ws =>
    match mk_pauli S im ops ws as r return mk_pauli S im ops ws = r ->
      match r with
      | Ok o => length ws = length ops /\ valid_strings (ps_n S o) ops
      | Err e => e = ValueError /\ forall n, ~ (valid_strings n ops /\ length ws = length ops)
      end with
    | Ok o => mk_pauli_inv S im ops ws o
    | Err e => mk_pauli_err S im ops ws e
    end eq_refl).
Qed.
Print Assumptions C23_constructor.

(** is_hermitian is only true of Hermitian sums. *)
Theorem C23_is_hermitian :
  forall S (L : scalar_laws S) (im : K S) (CE : close_exact S) (Him : kconj S im = kopp S im) n ops ws o,
  valid_strings n ops -> mk_pauli S im ops ws = Ok o -> ps_herm S o = true ->
  forall x y, configuration (qubits n) x -> configuration (qubits n) y ->
  strings_element S im (combine ops ws) x y = kconj S (strings_element S im (combine ops ws) y x).
Proof. exact pauli_hermitian. Qed.
Print Assumptions C23_is_hermitian.

(** 2 XY + 2 XY + 3 XX + ZZ: three strings share the flipped sites *)
Definition ex_im : GZ := (0, 1).
Definition ex_ops := [[LX; LY]; [LX; LY]; [LX; LX]; [LZ; LZ]].
Definition ex_ws : list GZ := [(2, 0); (2, 0); (3, 0); (1, 0)].

Example C23_ex :
  valid_strings 2 ex_ops /\ length ex_ws = length ex_ops /\ kconj gzxS ex_im = kopp gzxS ex_im /\
  Forall (configuration (qubits 2)) [[0; 1]] /\
  exists o, mk_pauli gzxS ex_im ex_ops ex_ws = Ok o /\ ps_herm gzxS o = true /\
    pauli_flattened gzxS o false [[0; 1]; [0; 0]] =
      Ok ([(3, 4); (-1, 0); (3, -4); (1, 0)], [[1; 0]; [0; 1]; [1; 1]; [0; 0]], [2; 4]%nat).
Proof.
  split; [|split; [reflexivity|split; [reflexivity|split; [repeat constructor; conf|]]]].
  - split; [discriminate|]. split; [lia|]. repeat constructor; cbn; intuition discriminate.
  - eexists. split; [vm_compute; reflexivity|]. split; vm_compute; reflexivity.
Qed.

(** "Each connected configuration is listed once, with a non-zero element of the matrix" does not
    hold: XX - i YX ... the groups are keyed by the order X-sites then Y-sites, so the same
    configuration can be listed twice with elements that cancel. *)
Theorem C23_listed_once_refuted :
  exists ops ws o x y, valid_strings 2 ops /\ mk_pauli gzxS ex_im ops ws = Ok o /\
    configuration (qubits 2) x /\ pauli_row gzxS o x = [(y, i1); (y, (-1, 0))] /\
    strings_element gzxS ex_im (combine ops ws) x y = i0.
Proof.
  exists [[LX; LX]; [LY; LX]], [(1, 0); (0, -1)]. eexists. exists [0; 0], [1; 1].
  split; [split; [discriminate|split; [lia|repeat constructor; cbn; intuition discriminate]]|].
  split; [vm_compute; reflexivity|]. split; [conf|]. split; vm_compute; reflexivity.
Qed.
Print Assumptions C23_listed_once_refuted.
