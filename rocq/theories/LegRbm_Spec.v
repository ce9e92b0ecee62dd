(** * What the numpy Boltzmann machines are expected to compute *)
From Coq Require Import List Arith ZArith QArith Bool Reals.
From Verif Require Import Base Rings ARNN_Model ToArray_Model Estim_Model Ansatz_Model Ansatz_Spec Estim_Spec Group_Spec LegRbm_Model.
Import ListNotations.
Open Scope R_scope.
Open Scope nat_scope.

(** The documented wave function: exp(sum_i a_i s_i) * prod_j cosh(sum_i W_ij s_i + b_j). *)
Definition boltzmann (n hidden : nat) (a b : option (nat -> cpx)) (W : nat -> nat -> cpx) (s : nat -> cpx) : cpx :=
  rmul cC (cexp (visible n a s)) (cprod hidden (fun j => ccosh (theta n W b s j))).

(** The parameters in the order a, b, W (W row by row).  Without symmetries there is one
    parameter for each entry.  With the symmetries [rows] all a_i are one parameter, the
    hidden units come in groups of one unit for each symmetry sharing one b, and the unit of
    symmetry g in group l has the weights W_ij = w[g(i), l]. *)
Definition entries (k : nat) (p : list cpx) (i : nat) : cpx := nth (k + i) p (0%R, 0%R).
Definition size_a (c : rcfg) : nat :=
  if c_vis c then match c_sym c with None => c_n c | Some _ => 1 end else 0.
Definition size_b (c : rcfg) : nat := if c_hid c then c_feat c else 0.
Definition doc_a (c : rcfg) (p : list cpx) : option (nat -> cpx) :=
  if c_vis c then Some (fun i => entries 0 p (match c_sym c with None => i | Some _ => 0 end)) else None.
Definition doc_b (c : rcfg) (p : list cpx) : option (nat -> cpx) :=
  if c_hid c then Some (fun j => entries (size_a c) p (match c_sym c with None => j | Some rows => j / length rows end)) else None.
Definition doc_w (c : rcfg) (p : list cpx) (i j : nat) : cpx :=
  match c_sym c with
  | None => entries (size_a c + size_b c) p (i * c_feat c + j)
  | Some rows => entries (size_a c + size_b c) p (nth i (nth (j mod length rows) rows []) 0 * c_feat c + j / length rows)
  end.
Definition doc_hidden (c : rcfg) : nat :=
  match c_sym c with None => c_feat c | Some rows => c_feat c * length rows end.
(** Input of hidden unit [j]. *)
Definition unit_input (c : rcfg) (p : list cpx) (s : list cpx) (j : nat) : cpx :=
  theta (c_n c) (doc_w c p) (doc_b c p) (fun i => nth i s (0%R, 0%R)) j.
Definition doc_amplitude (c : rcfg) (p : list cpx) (s : list cpx) : cpx :=
  boltzmann (c_n c) (doc_hidden c) (doc_a c p) (doc_b c p) (doc_w c p) (fun i => nth i s (0%R, 0%R)).

(** A number the code treats correctly: it is zero or has a nonzero real part. *)
Definition off_axis (z : cpx) : Prop := fst z <> 0%R \/ snd z = 0%R.
(** The numbers a machine of the given type can hold. *)
Definition holds (d : ptype) (z : cpx) : Prop := d = PFloat -> snd z = 0%R.
(** The symmetries are permutations of the visible units. *)
Definition proper (c : rcfg) : Prop :=
  forall rows, c_sym c = Some rows -> Forall (Group_Spec.isperm (c_n c)) rows.

(** [q] is the integer nearest to [x], the even one if there are two. *)
Definition nearest_even (x : Q) (q : Z) : Prop :=
  (inject_Z q - (1 # 2) <= x)%Q /\ (x <= inject_Z q + (1 # 2))%Q /\
  ((x == inject_Z q - (1 # 2))%Q \/ (x == inject_Z q + (1 # 2))%Q -> Z.even q = true).

(** One-hot code of a list of local quantum numbers: the entry of site [i] and local state
    [l] is 1 if the site is in that state and -1 if not. *)
Definition plus_minus (b : bool) : cpx := if b then (1, 0)%R else (-1, 0)%R.

(** The values returned by a call, without the array that was passed in. *)
Definition fst_ok {A B} (r : res (A * B)) : res A := let? v := r in Ok (fst v).

(** The wave function of the machine with two real networks: the first one is the modulus,
    the logarithm of the second one is the phase. *)
Definition phase_amplitude (ca cp : rcfg) (pa pp s : list cpx) : cpx :=
  rmul cC (doc_amplitude ca pa s) (cexp (0%R, ln (fst (doc_amplitude cp pp s)))).
