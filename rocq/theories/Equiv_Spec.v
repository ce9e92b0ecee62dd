(** * What the Fourier layers and the networks should compute *)
From Coq Require Import List Arith ZArith Reals.
From Verif Require Import Base Rings ARNN_Model ToArray_Model Estim_Model Group_Spec Symm_Model Symm_Spec Ansatz_Model Ansatz_Spec Equiv_Model.
Import ListNotations.
Open Scope nat_scope.

(** The difference of two cells of a periodic lattice, cells numbered in row-major order. *)
Fixpoint csub (shape : list nat) (c c' : nat) : nat :=
  match shape with
  | [] => 0
  | n :: shape => let p := cells shape in ((c / p + (n - c' / p)) mod n) * p + csub shape (c mod p) (c' mod p)
  end.
(** Circular convolution *)
Definition circular (shape : list nat) (x y : nat -> cpx) (c : nat) : cpx :=
  fsum cC (cells shape) (fun c' => rmul cC (x c') (y (csub shape c c'))).

(** The translation by cell [c] of a lattice with [spc] sites in each cell, as the list of
    preimages of the sites. *)
Definition shift (shape : list nat) (spc c : nat) : list nat :=
  map (fun i => csub shape (i / spc) c * spc + i mod spc) (seq 0 (cells shape * spc)).
(** Elements in the order of the Fourier layers: translations first, then [p] others. *)
Definition lattice_group (shape : list nat) (spc p : nat) (rows : list (list nat)) : Prop :=
  Forall (fun n => 0 < n) shape /\ 0 < spc /\ 0 < p /\ length rows = cells shape * p /\
  exists q, forall b, b < p -> isperm (cells shape * spc) (q b) /\
    forall c, c < cells shape -> nth (c * p + b) rows [] = times (shift shape spc c) (q b).

(** Kernels of the same layer in the layouts (n_sites, features) and (features, n_sites),
    and (out, in, n) and (in, out, n). *)
Definition transposed2 (n features : nat) (k k' : list cpx) : Prop :=
  forall i f, i < n -> f < features -> nth (i * features + f) k (0%R, 0%R) = nth (f * n + i) k' (0%R, 0%R).
Definition transposed3 (n cin cout : nat) (k k' : list cpx) : Prop :=
  forall o i t, o < cout -> i < cin -> t < n ->
    nth ((o * cin + i) * n + t) k (0%R, 0%R) = nth ((i * cout + o) * n + t) k' (0%R, 0%R).

(** Matrices that multiply like the group, [q h g] being h^-1 g: rho(h) rho(h^-1 g) = rho(g). *)
Definition representation (n : nat) (q : nat -> nat -> nat) (r : irrep) : Prop :=
  forall h g i j, h < n -> g < n -> i < ir_dim r -> j < ir_dim r ->
    fsum cC (ir_dim r) (fun k => rmul cC (ir_mat r h i k) (ir_mat r (q h g) k j)) = ir_mat r g i j.
(** All irreducible ones, each once: sum_rho (d / n) sum_ij rho_ij(g) conj(rho_ij(h)) = delta_gh. *)
Definition complete (n : nat) (irreps : list irrep) : Prop :=
  forall g h, g < n -> h < n ->
    lsum cC (map (fun r => rscal (INR (ir_dim r) / INR n)
      (fsum cC (ir_dim r) (fun i => fsum cC (ir_dim r) (fun j => rmul cC (ir_mat r g i j) (rconj cC (ir_mat r h i j)))))) irreps)
    = if g =? h then r1 cC else r0 cC.

(** If the dtype is a real one then so are the numbers. *)
Definition real_if (real : bool) (z : cpx) : Prop := real = true -> isreal z.
Definition real_bias (real : bool) (b : option (nat -> cpx)) : Prop :=
  match b with None => True | Some b => forall f, real_if real (b f) end.

(** A one-dimensional representation, given by its values on the elements. *)
Definition multiplicative (rows : list (list nat)) (chi : nat -> cpx) : Prop :=
  forall g h k, g < length rows -> h < length rows -> k < length rows ->
    nth k rows [] = times (nth g rows []) (nth h rows []) -> chi k = rmul cC (chi g) (chi h).

(** The parameters of a network fit [n] sites and [m] group elements, and are real if the
    dtype is. *)
Fixpoint layers_fit (real : bool) (m : nat) (ls : list glayer) (c : nat) : Prop :=
  match ls with
  | [] => True
  | l :: ls => g_in l = c /\ length (g_kernel l) = g_out l * g_in l * m /\
      Forall (real_if real) (g_kernel l) /\ real_bias real (g_bias l) /\ layers_fit real m ls (g_out l)
  end.
Definition network_fits (real : bool) (n m : nat) (p : gcnn_params) : Prop :=
  length (gp_kernel p) = n * gp_features p /\ Forall (real_if real) (gp_kernel p) /\ real_bias real (gp_bias p) /\
  layers_fit real m (gp_layers p) (gp_features p).

(** If the output has a real dtype then everything that goes into it is real. *)
Definition real_readout (real real_out : bool) (output_activation : cpx -> cpx) (characters : list cpx) : Prop :=
  real_out = true -> real = true /\ (forall z, isreal z -> isreal (output_activation z)) /\ Forall isreal characters.
