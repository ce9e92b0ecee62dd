(** * Fourier variants of the equivariant layers, and the group-convolutional networks
    netket/nn/symmetric_linear.py 150-512, netket/models/equivariant.py.

    Complex numbers over the real numbers of the standard library; one sample of the batch;
    kernels are flattened parameter arrays as in Symm_Model.  No masks (the networks do not
    use them). *)
From Coq Require Import List Arith Bool Reals.
From Verif Require Import Base Rings ARNN_Model ToArray_Model Estim_Model Masked_Model Symm_Model Ansatz_Model.
Import ListNotations.
Open Scope nat_scope.

(** ** jnp.fft.fftn and ifftn on arrays of the given shape, flattened in row-major order *)
Definition cells (shape : list nat) : nat := fold_right Nat.mul 1 shape.
(** exp(2 pi i m / n) *)
Definition root (n m : nat) : cpx := cexp (0%R, (2 * PI * INR m / INR n)%R).
Fixpoint fftn (shape : list nat) (f : nat -> cpx) (k : nat) : cpx :=
  match shape with
  | [] => f 0
  | n :: shape =>
      let p := cells shape in
      fsum cC n (fun c => rmul cC (rconj cC (root n (k / p * c))) (fftn shape (fun j => f (c * p + j)) (k mod p)))
  end.
Fixpoint ifftn (shape : list nat) (f : nat -> cpx) (c : nat) : cpx :=
  match shape with
  | [] => f 0
  | n :: shape =>
      let p := cells shape in
      rscal (/ INR n) (fsum cC n (fun k => rmul cC (root n (k * (c / p))) (ifftn shape (fun j => f (k * p + j)) (c mod p))))
  end.

(** the cast at the end of the layers: x if it fits the dtype, else x.real; [real] tells
    that the promoted dtype is a real one *)
Definition cast (real : bool) (z : cpx) : cpx := if real then (fst z, 0%R) else z.
Definition add_bias (bias : option (nat -> cpx)) (f : nat) (z : cpx) : cpx :=
  match bias with None => z | Some b => radd cC z (b f) end.

(** symmetric_linear.py 152-245: DenseSymmFFT.  [kernel] has shape (features, n_sites), the
    result (features, n_cells * n_symm) with the point group index running fastest. *)
Definition dense_symm_fft (sg : list (list nat)) (shape : list nat) (features : nat) (kernel : list cpx)
    (bias : option (nat -> cpx)) (real : bool) (x : list cpx) : list (list cpx) :=
  let n_cells := cells shape in
  let n_symm := length sg / n_cells in
  let n_sites := length (hd [] sg) in
  let spc := n_sites / n_cells in
  let mapping b s c := nth s (nth (c * n_symm + b) sg []) 0 in
  map (fun f => map (fun g =>
      let c := g / n_symm in
      let b := g mod n_symm in
      let prod k := fsum cC spc (fun s =>
        rmul cC (fftn shape (fun c => nth (c * spc + s) x (r0 cC)) k)
                (fftn shape (fun c => nth (f * n_sites + mapping b s c) kernel (r0 cC)) k)) in
      cast real (add_bias bias f (ifftn shape prod c)))
    (seq 0 (n_cells * n_symm))) (seq 0 features).

(** 239-354: DenseEquivariantFFT.  [kernel] has shape (out_features, in_features, n). *)
Definition dense_equivariant_fft (pt : list (list nat)) (shape : list nat) (in_features out_features : nat)
    (kernel : list cpx) (bias : option (nat -> cpx)) (real : bool) (x : list (list cpx)) : list (list cpx) :=
  let n_cells := cells shape in
  let n_symm := length pt / n_cells in
  let n := n_symm * n_cells in
  let mapping a b c := nth (c * n_symm + b) (nth a pt []) 0 in
  map (fun o => map (fun g =>
      let c := g / n_symm in
      let b := g mod n_symm in
      let prod k := fsum cC in_features (fun i => fsum cC n_symm (fun a =>
        rmul cC (fftn shape (fun c => nth (c * n_symm + a) (nth i x []) (r0 cC)) k)
                (fftn shape (fun c => nth ((o * in_features + i) * n + mapping a b c) kernel (r0 cC)) k))) in
      cast real (add_bias bias o (ifftn shape prod c)))
    (seq 0 n)) (seq 0 out_features).

(** ** 357-512: DenseEquivariantIrrep *)
(** an array of shape (n_symm, d, d) *)
Record irrep := Irrep { ir_dim : nat; ir_mat : nat -> nat -> nat -> cpx }.
(** one row of self.forward *)
Definition ir_row (g : nat) (r : irrep) : list cpx :=
  flat_map (fun i => map (fun j => ir_mat r g i j) (seq 0 (ir_dim r))) (seq 0 (ir_dim r)).
Definition forward (irreps : list irrep) (g : nat) : list cpx := flat_map (ir_row g) irreps.
(** one column of self.inverse *)
Definition inverse (n : nat) (irreps : list irrep) (g : nat) : list cpx :=
  flat_map (fun r => map (fun z => rscal (INR (ir_dim r) / INR n) (rconj cC z)) (ir_row g r)) irreps.
(** the loop that counts consecutive irreps of equal size: pairs (n_same_size, size) *)
Fixpoint runs (size same : nat) (ds : list nat) : list (nat * nat) :=
  match ds with
  | [] => [(same, size)]
  | d :: ds => if size =? d then runs size (S same) ds else (same, size) :: runs d 1 ds
  end.
(** the products of the disassembled arrays, assembled again; [off] is the lower limit of
    the first one; [a] and [b] are the transformed inputs and kernels for each in-feature *)
Fixpoint products (cin : nat) (a b : nat -> list cpx) (off : nat) (shapes : list (nat * nat)) : list cpx :=
  match shapes with
  | [] => []
  | (m, d) :: shapes =>
      flat_map (fun r => flat_map (fun i => map (fun j =>
          fsum cC cin (fun f => fsum cC d (fun k =>
            rmul cC (nth (off + r * (d * d) + i * d + k) (a f) (r0 cC))
                    (nth (off + r * (d * d) + k * d + j) (b f) (r0 cC)))))
        (seq 0 d)) (seq 0 d)) (seq 0 m)
      ++ products cin a b (off + m * (d * d)) shapes
  end.
(** forward_ft: tensordot of a vector over the group with self.forward *)
Definition forward_ft (n : nat) (irreps : list irrep) (x : nat -> cpx) : list cpx :=
  map (fun col => fsum cC n (fun g => rmul cC (x g) (nth col (forward irreps g) (r0 cC))))
    (seq 0 (length (forward irreps 0))).
Definition inverse_ft (n : nat) (irreps : list irrep) (z : list cpx) (g : nat) : cpx :=
  lsum cC (map (fun p => rmul cC (fst p) (snd p)) (combine z (inverse n irreps g))).
(** [kernel] has shape (in_features, out_features, n) *)
Definition dense_equivariant_irrep (n : nat) (irreps : list irrep) (in_features out_features : nat)
    (kernel : list cpx) (bias : option (nat -> cpx)) (real : bool) (x : list (list cpx)) : list (list cpx) :=
  let shapes := runs 1 0 (map ir_dim irreps) in
  let xs i := forward_ft n irreps (fun h => nth h (nth i x []) (r0 cC)) in
  map (fun o =>
    let ks i := forward_ft n irreps (fun t => nth ((i * out_features + o) * n + t) kernel (r0 cC)) in
    let z := products in_features xs ks 0 shapes in
    map (fun g => cast real (add_bias bias o (inverse_ft n irreps z g))) (seq 0 n)) (seq 0 out_features).

(** ** models/equivariant.py *)
(** one hidden layer, without the parts that differ between the modes *)
Record glayer := GLayer { g_in : nat; g_out : nat; g_kernel : list cpx; g_bias : option (nat -> cpx) }.
Definition hidden_layers (layer : glayer -> list (list cpx) -> list (list cpx)) (activation : cpx -> cpx)
    (ls : list glayer) (x : list (list cpx)) : list (list cpx) :=
  fold_left (fun x l => layer l (map (map activation) x)) ls x.
(** the sum inside of logsumexp over features and group with weights b: sum b exp(x) *)
Definition weighted_sum (b : nat -> cpx) (x : list (list cpx)) : cpx :=
  lsum cC (map (fun row => fsum cC (length row) (fun g => rmul cC (b g) (cexp (nth g row (r0 cC))))) x).
(** The logarithm of that sum: jax.scipy.special.logsumexp gives NaN where the sum is
    negative unless x or b have a complex dtype. *)
Inductive output := NaN | Log (l : logval).
(** 133-139, 232-238.  [real_out]: x and the characters have real dtypes.  equal_amplitudes
    keeps the imaginary part only, which is zero for real dtypes; [zero_phase] is the
    imaginary part where the sum is zero (that of the largest entry of x). *)
Definition finish (real_out equal_amplitudes : bool) (zero_phase : R) (w : cpx) : output :=
  if equal_amplitudes then
    Log (Some (0%R, if real_out then 0%R else match clog w with Some z => snd z | None => zero_phase end))
  else if real_out then if Rlt_dec (fst w) 0 then NaN else Log (clog (fst w, 0%R))
  else Log (clog w).
Definition readout (output_activation : cpx -> cpx) (equal_amplitudes : bool) (characters : list cpx) (real_out : bool)
    (zero_phase : list (list cpx) -> R) (x : list (list cpx)) : output :=
  let x := map (map output_activation) x in
  finish real_out equal_amplitudes (zero_phase x) (weighted_sum (fun g => nth g characters (r0 cC)) x).

(** what the two networks have in common *)
Record gcnn_params := GcnnParams { gp_features : nat; gp_kernel : list cpx; gp_bias : option (nat -> cpx); gp_layers : list glayer }.
(** 51-139: GCNN_FFT *)
Definition gcnn_fft (sg pt : list (list nat)) (shape : list nat) activation output_activation equal_amplitudes
    (characters : list cpx) (real real_out : bool) zero_phase (p : gcnn_params) (x : list cpx) : output :=
  let h := dense_symm_fft sg shape (gp_features p) (gp_kernel p) (gp_bias p) real x in
  let h := hidden_layers (fun l => dense_equivariant_fft pt shape (g_in l) (g_out l) (g_kernel l) (g_bias l) real)
             activation (gp_layers p) h in
  readout output_activation equal_amplitudes characters real_out zero_phase h.
(** 142-238: GCNN_Irrep *)
Definition gcnn_irrep (sg : list (list nat)) (irreps : list irrep) activation output_activation equal_amplitudes
    (characters : list cpx) (real real_out : bool) zero_phase (p : gcnn_params) (x : list cpx) : output :=
  let h := dense_symm cC sg (gp_features p) (gp_kernel p) None (gp_bias p) x in
  let h := hidden_layers (fun l => dense_equivariant_irrep (length sg) irreps (g_in l) (g_out l) (g_kernel l) (g_bias l) real)
             activation (gp_layers p) h in
  readout output_activation equal_amplitudes characters real_out zero_phase h.

(** ** networks with parity, 320-374 and 473-519; the two classes differ in the layers only *)
(** One step: both maps are updated from the old ones. *)
Definition sum_halves (a b : list (list cpx)) : list (list cpx) :=
  map (fun p => map (fun q => rscal (/ sqrt 2) (radd cC (fst q) (snd q))) (combine (fst p) (snd p))) (combine a b).
Definition parity_layers (layer : glayer -> list (list cpx) -> list (list cpx)) (activation : cpx -> cpx)
    (ls : list (glayer * glayer)) (x : list (list cpx) * list (list cpx)) : list (list cpx) * list (list cpx) :=
  fold_left (fun x l =>
      let a := map (map activation) (fst x) in
      let b := map (map activation) (snd x) in
      (sum_halves (layer (fst l) a) (layer (snd l) b),
       sum_halves (layer (fst l) b) (layer (snd l) a))) ls x.
(** The feature maps are concatenated along the axis of features (-2), the characters along
    that of the group: the arrays (2 features, n) and (1, 2 n) do not broadcast unless n is 1
    (jax raises), and then the single column meets both characters. *)
Definition parity_readout (output_activation : cpx -> cpx) (equal_amplitudes : bool) (characters : list cpx) (parity : Z)
    (real_out : bool) (zero_phase : list (list cpx) -> R) (n : nat) (x : list (list cpx) * list (list cpx)) : res output :=
  let x := map (map output_activation) (fst x ++ snd x) in
  let chars := if (parity =? 1)%Z then characters ++ characters else characters ++ map (ropp cC) characters in
  if (n =? length chars) || (n =? 1) || (length chars =? 1) then
    let width := Nat.max n (length chars) in
    let at_ row g := nth (if length row =? 1 then 0 else g) row (r0 cC) in
    let b g := nth (if length chars =? 1 then 0 else g) chars (r0 cC) in
    Ok (finish real_out equal_amplitudes (zero_phase x)
          (lsum cC (map (fun row => fsum cC width (fun g => rmul cC (b g) (cexp (at_ row g)))) x)))
  else Err ValueError.
Record parity_params := ParityParams { pp_features : nat; pp_kernel : list cpx; pp_bias : option (nat -> cpx);
  pp_layers : list (glayer * glayer) }.
Definition gcnn_parity_irrep (sg : list (list nat)) (irreps : list irrep) activation output_activation equal_amplitudes
    (characters : list cpx) (parity : Z) (real real_out : bool) zero_phase (p : parity_params) (x : list cpx) : res output :=
  let first x := dense_symm cC sg (pp_features p) (pp_kernel p) None (pp_bias p) x in
  let h := parity_layers (fun l => dense_equivariant_irrep (length sg) irreps (g_in l) (g_out l) (g_kernel l) (g_bias l) real)
             activation (pp_layers p) (first x, first (map (ropp cC) x)) in
  parity_readout output_activation equal_amplitudes characters parity real_out zero_phase (length sg) h.
Definition gcnn_parity_fft (sg pt : list (list nat)) (shape : list nat) activation output_activation equal_amplitudes
    (characters : list cpx) (parity : Z) (real real_out : bool) zero_phase (p : parity_params) (x : list cpx) : res output :=
  let first x := dense_symm_fft sg shape (pp_features p) (pp_kernel p) (pp_bias p) real x in
  let h := parity_layers (fun l => dense_equivariant_fft pt shape (g_in l) (g_out l) (g_kernel l) (g_bias l) real)
             activation (pp_layers p) (first x, first (map (ropp cC) x)) in
  parity_readout output_activation equal_amplitudes characters parity real_out zero_phase (length sg) h.

(** ** 522-684: the function GCNN *)
Inductive symm_arg := SLattice (has_point_group : bool) | SGraph | SGroup | SArray.
Inductive mode := MAuto | MFft | MIrreps | MMatrix | MOther.
(** an optional array argument: absent, a HashableArray (whose truth value is that of its
    length), or a plain array of the given size, whose truth value numpy refuses to give for
    more than one entry *)
Inductive array_arg := ANone | AHashable (n : nat) | APlain (n : nat) (nonzero : bool).
Inductive gcnn_class := CFft | CIrrep | CParityFft | CParityIrrep.
Inductive ctor_error := NameErr | ValErr | TypErr.
Definition mode_eqb (a b : mode) : bool :=
  match a, b with MAuto, MAuto | MFft, MFft | MIrreps, MIrreps | MMatrix, MMatrix | MOther, MOther => true | _, _ => false end.
(** [irreps], [product_table], [shape]: whether the argument was given.  A Lattice is a Graph.
    sg.product_table and sg.irrep_matrices() are attributes of groups only; an array gets here
    with the one it needs. *)
Definition gcnn_mode (s : symm_arg) (point_group : bool) (m : mode) (irreps product_table shape : bool)
  : ctor_error + (mode * bool) :=
  match s with
  | SLattice has => if point_group || has then inr (match m with MAuto => MFft | m => m end, true)
                    else inl NameErr (* sg = symmetry_info.automorphisms() *)
  | SGraph => inl NameErr
  | SGroup => inr (match m with MAuto => MIrreps | m => m end, shape)
  | SArray =>
      if irreps && (mode_eqb m MIrreps || mode_eqb m MAuto) then inr (MIrreps, shape)
      else if product_table && (mode_eqb m MFft || mode_eqb m MAuto) then inr (MFft, shape)
      else inl ValErr
  end.
Definition gcnn_make (s : symm_arg) (point_group : bool) (m : mode) (irreps product_table shape : bool)
    (characters : array_arg) (parity : Z) : ctor_error + gcnn_class :=
  match gcnn_mode s point_group m irreps product_table shape with
  | inl e => inl e
  | inr (m, shape) =>
      if mode_eqb m MFft && negb shape then inl TypErr
      else match characters with
           | APlain n _ => if 2 <=? n then inl ValErr else
               match m with
               | MFft => inr (if (parity =? 0)%Z then CFft else CParityFft)
               | MIrreps | MAuto => inr (if (parity =? 0)%Z then CIrrep else CParityIrrep)
               | _ => inl ValErr
               end
           | _ =>
               match m with
               | MFft => inr (if (parity =? 0)%Z then CFft else CParityFft)
               | MIrreps | MAuto => inr (if (parity =? 0)%Z then CIrrep else CParityIrrep)
               | _ => inl ValErr
               end
           end
  end.
