(** * Symmetric and equivariant dense layers (netket/nn/symmetric_linear.py)

    One sample of the batch; numbers in an arbitrary commutative ring.  The kernel is the
    flattened parameter array.  The FFT and irrep variants are not modelled. *)
From Coq Require Import List Arith Bool.
From Verif Require Import Base Rings Masked_Model.
Import ListNotations.
Open Scope nat_scope.

(** symmetric_linear.py 38-61: _symmetrizer_col; [perms] has shape (n_symm, n_sites). *)
Definition symmetrizer_col (perms : list (list nat)) (features : nat) : list nat :=
  let n_symm := length perms in
  let n_sites := length (hd [] perms) in
  let n_hidden := features * n_symm in
  map (fun ij =>
         let i := ij / n_hidden in
         let j := ij mod n_hidden in
         let k := nth i (nth (j mod n_symm) perms []) 0 in
         let l := j / n_symm in
         k * features + l) (seq 0 (n_sites * n_hidden)).

Section Layers.
  Variable C : cring.
  Infix "+" := (radd C).
  Infix "*" := (rmul C).

  (** jnp.expand_dims(mask, 1) * kernel, for a kernel of shape (n_sites, features). *)
  Definition apply_mask (mask : option (list (T C))) (features : nat) (kernel : list (T C)) : list (T C) :=
    match mask with
    | None => kernel
    | Some m => map (fun p => nth p kernel (r0 C) * nth (p / features) m (r0 C)) (seq 0 (length kernel))
    end.

  (** 86-149: DenseSymmMatrix; [kernel] has shape (n_sites, features), the result
      (features, n_symm). *)
  Definition dense_symm (perms : list (list nat)) (features : nat) (kernel : list (T C))
      (mask : option (list (T C))) (bias : option (nat -> T C)) (x : list (T C)) : list (list (T C)) :=
    let n_symm := length perms in
    let n_sites := length (hd [] perms) in
    let flat := apply_mask mask features kernel in
    (* full_kernel: one long row, later read with shape (n_sites, features, n_symm) *)
    let full := map (fun c => nth c flat (r0 C)) (symmetrizer_col perms features) in
    map (fun f => map (fun s =>
        let v := fsum C n_sites (fun i => nth i x (r0 C) * nth ((i * features + f) * n_symm + s)%nat full (r0 C)) in
        match bias with None => v | Some b => v + b f end)
      (seq 0 n_symm)) (seq 0 features).

  (** 516-614: DenseEquivariantMatrix; [kernel] has shape
      (out_features, in_features, n_symm), [x] (in_features, n_symm); the result is flat
      with [out_features * n_symm] entries. *)
  Definition dense_equivariant (product_table : list (list nat)) (in_features out_features : nat)
      (kernel : list (T C)) (mask : option (list (T C))) (bias : option (nat -> T C))
      (x : list (list (T C))) : list (T C) :=
    let n_symm := length product_table in
    let masked := match mask with
      | None => kernel
      | Some m => map (fun p => nth p kernel (r0 C) * nth (p mod n_symm) m (r0 C)) (seq 0 (length kernel))
      end in
    let table := concat product_table in
    (* jnp.take(kernel, product_table.ravel(), 2): shape (out, in, n_symm * n_symm) *)
    let taken := map (fun q => let oi := q / (n_symm * n_symm)%nat in let t := q mod (n_symm * n_symm)%nat in
                       nth (oi * n_symm + nth t table O)%nat masked (r0 C))
                   (seq 0 (out_features * in_features * (n_symm * n_symm))%nat) in
    (* reshape to (out, in, n, n), transpose(1, 2, 0, 3), reshape to (in * n, out * n) *)
    let matrix row col :=
      let i := row / n_symm in let h := row mod n_symm in
      let o := col / n_symm in let g := col mod n_symm in
      nth (((o * in_features + i) * n_symm + h) * n_symm + g)%nat taken (r0 C) in
    let flat := concat x in
    map (fun col =>
        let v := fsum C (in_features * n_symm)%nat (fun row => nth row flat (r0 C) * matrix row col) in
        match bias with None => v | Some b => v + b (col / n_symm) end)
      (seq 0 (out_features * n_symm)%nat).

  (** A network of such layers: a symmetric layer, then equivariant layers, each on the
      activated output of the previous one (models/equivariant.py 222-230 with matrix
      layers in place of the irrep layers; the output is given its two axes again). *)
  Record eq_layer := EqLayer { e_in : nat; e_out : nat; e_kernel : list (T C);
    e_mask : option (list (T C)); e_bias : option (nat -> T C) }.
  Definition stack (activation : T C -> T C) (product_table : list (list nat)) (ls : list eq_layer)
      (x : list (list (T C))) : list (list (T C)) :=
    fold_left (fun x l =>
        reshape (e_out l) (length product_table)
          (dense_equivariant product_table (e_in l) (e_out l) (e_kernel l) (e_mask l) (e_bias l)
             (map (map activation) x))) ls x.
End Layers.

Arguments EqLayer {C}.
Arguments e_in {C}.
Arguments e_out {C}.
Arguments e_kernel {C}.
Arguments e_mask {C}.
Arguments e_bias {C}.
