(** What C88 means, independently of the implementation. *)
From Coq Require Import List Arith Bool ZArith QArith Qreals Qcanon Qabs Reals.
From Verif Require Import Base Rings FloatCmp_Model PointGp_Model ARNN_Model Estim_Model SpaceGp_Model Little_Model.
Import ListNotations.
Open Scope nat_scope.

Definition proper_box (B : kbox) : Prop :=
  length (b_pbc B) = length (b_extent B) /\ Forall (fun e => (1 <= e)%Z) (b_extent B) /\ b_extent B <> [].
Definition no_sym : ksym := KS eye (fun _ => 0%Qc).
Definition sym (G : list ksym) (p : nat) : ksym := nth p G no_sym.
(** p(k) *)
Definition moved_k (D : nat) (G : list ksym) (p : nat) (y : vec) : vec := mvec D (k_mat (sym G p)) y.

(** Wave vectors of the box: k . (extent_d a_d) is a multiple of 2 pi, zero along open axes. *)
Definition wave (B : kbox) (y : vec) : Prop :=
  forall d, d < b_dim B -> exists z, (zc (b_ext B d) * y d = zc z)%Qc /\ (nth d (b_pbc B) false = false -> z = 0%Z).
(** Two wave vectors differ by a reciprocal lattice vector. *)
Definition equal_waves (D : nat) (y y' : vec) : Prop := forall d, d < D -> exists z, y d = (y' d + zc z)%Qc.
Definition keeps_waves (B : kbox) (G : list ksym) : Prop := forall p y, p < length G -> wave B y -> wave B (moved_k (b_dim B) G p y).
Definition first_is_identity (D : nat) (G : list ksym) : Prop := forall y d, d < D -> moved_k D G 0 y d = y d.
(** [y] is further than the tolerance from every wave vector of the box *)
Definition far_from_waves (B : kbox) (y : vec) : Prop :=
  exists d, d < b_dim B /\
    ((forall z, ~ (Qabs (this (zc (b_ext B d) * y d)%Qc - inject_Z z) <= default_atol)%Q) \/
     (nth d (b_pbc B) false = false /\ ~ (Qabs (this (zc (b_ext B d) * y d)%Qc) <= default_atol)%Q)).

(** A group structure on the indices, for which the symmetries act on wave vectors. *)
Record group_table (n : nat) (mul : nat -> nat -> nat) (inv : nat -> nat) : Prop := {
  gt_pos : 0 < n;
  gt_mul : forall p q, p < n -> q < n -> mul p q < n;
  gt_inv : forall p, p < n -> inv p < n;
  gt_assoc : forall p q r, p < n -> q < n -> r < n -> mul p (mul q r) = mul (mul p q) r;
  gt_one : forall p, p < n -> mul 0 p = p /\ mul p 0 = p;
  gt_undo : forall p, p < n -> mul (inv p) p = 0 /\ mul p (inv p) = 0 }.
Definition acting (D : nat) (G : list ksym) (mul : nat -> nat -> nat) : Prop :=
  first_is_identity D G /\
  (forall p q y d, p < length G -> q < length G -> d < D -> moved_k D G (mul p q) y d = moved_k D G p (moved_k D G q y) d) /\
  (forall p y, p < length G -> equal_waves D y (fun _ => 0%Qc) -> equal_waves D (moved_k D G p y) (fun _ => 0%Qc)).
(** p^-1 g p *)
Definition conjugated (mul : nat -> nat -> nat) (inv : nat -> nat) (g p : nat) : nat := mul (mul (inv p) g) p.

(** A row of the character table of the little group, continued by zero. *)
Definition continued (idx : list nat) (row : list cpx) (X : nat -> cpx) : Prop :=
  (forall j, j < length idx -> X (nth j idx 0) = nth j row (0, 0)%R) /\ (forall g, ~ In g idx -> X g = (0, 0)%R).
Definition real_table (CT : list (list cpx)) : Prop := forall row z, In row CT -> In z row -> snd z = 0%R.

(** The displacement [t] combined with the symmetry [g]: the character of the representation
    induced from the character [X] of the little group, of order [l], of the wave vector [y]. *)
Definition kdot (D : nat) (u y : vec) : Q := this (qs D (fun d => u d * y d)%Qc).
Definition moves_by (G : list ksym) (t : list Z) (g : nat) : vec := fun d => (k_w (sym G g) d + zc (nth d t 0%Z))%Qc.
Definition induced (D : nat) (G : list ksym) (cj : nat -> nat -> nat) (l : nat) (X : nat -> cpx) (y : vec) (t : list Z) (g : nat) : cpx :=
  rscal (/ INR l) (fsum cC (length G) (fun p => rmul cC (X (cj g p)) (phase (kdot D (moves_by G t g) (moved_k D G p y))))).
(** [z] is [z'] with real or imaginary part replaced by zero if it is at most 1e-8 *)
Definition rounded (x x' : R) : Prop := (Rabs x' <= 1 / 100000000 /\ x = 0)%R \/ (Rabs x' > 1 / 100000000 /\ x = x')%R.
Definition rounded_off (z z' : cpx) : Prop := rounded (fst z) (fst z') /\ rounded (snd z) (snd z').

(** [X] is a function on the little group of [y], constant on its conjugacy classes. *)
Definition in_little (D : nat) (G : list ksym) (y : vec) (p : nat) : Prop := p < length G /\ equal_waves D (moved_k D G p y) y.
Definition class_function (D : nat) (G : list ksym) (mul : nat -> nat -> nat) (inv : nat -> nat) (y : vec) (X : nat -> cpx) : Prop :=
  (forall g, ~ in_little D G y g -> X g = (0, 0)%R) /\
  (forall g h, in_little D G y g -> in_little D G y h -> X (mul (mul h g) (inv h)) = X g).
(** Equal wave vectors in the star of [y] give equal phases for all the translations of the symmetries. *)
Definition phases_fit (D : nat) (G : list ksym) (y : vec) : Prop :=
  forall p q g, p < length G -> q < length G -> g < length G -> equal_waves D (moved_k D G p y) (moved_k D G q y) ->
  phase (kdot D (k_w (sym G g)) (moved_k D G p y)) = phase (kdot D (k_w (sym G g)) (moved_k D G q y)).
(** number of translations *)
Definition n_trans (B : kbox) : nat := length (trans_tuples B (seq 0 (b_dim B))).
(** Composition of the symmetries x -> W x + w up to translations by whole cells, in an orthonormal basis. *)
Definition composes (D : nat) (G : list ksym) (mul : nat -> nat -> nat) : Prop :=
  forall p q d, p < length G -> q < length G -> d < D -> exists z, (k_w (sym G p) d + moved_k D G p (k_w (sym G q)) d = k_w (sym G (mul p q)) d + zc z)%Qc.
(** no symmetry involves a translation *)
Definition symmorphic (D : nat) (G : list ksym) : Prop := forall g d, g < length G -> d < D -> k_w (sym G g) d = 0%Qc.
(** The sum of chi conj(chi') over all translations and symmetries. *)
Definition overlap (B : kbox) (G : list ksym) (cj : nat -> nat -> nat) (l : nat) (X : nat -> cpx) (y : vec) (l' : nat) (X' : nat -> cpx) (y' : vec) : cpx :=
  lsum cC (map (fun t => fsum cC (length G) (fun g =>
    rmul cC (induced (b_dim B) G cj l X y t g) (rconj cC (induced (b_dim B) G cj l' X' y' t g)))) (trans_tuples B (seq 0 (b_dim B)))).
Definition inner (n : nat) (X X' : nat -> cpx) : cpx := fsum cC n (fun h => rmul cC (X h) (rconj cC (X' h))).
