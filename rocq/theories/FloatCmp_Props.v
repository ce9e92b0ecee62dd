(** C84: comparing floating point numbers (netket/utils/float.py). *)
From Coq Require Import List ZArith QArith Qabs.
From Verif Require Import FloatCmp_Model FloatCmp_Spec FloatCmp_Proofs.
Import ListNotations.
Open Scope Q_scope.

(** The bin of x is an integer nearest to 3326400 x + 5413/15629. *)
Theorem C84_bin : forall x, nearest (x * inject_Z 3326400 + (5413 # 15629)) (comparable x).
Proof. exact comparable_nearest. Qed.
Print Assumptions C84_bin.

(** Numbers with the same bin are equal to within the width of a bin. *)
Theorem C84_same_bin : forall x y, comparable x = comparable y -> Qabs (x - y) <= width.
Proof. exact comparable_same. Qed.
Print Assumptions C84_same_bin.

(** Bins preserve order. *)
Theorem C84_order : forall x y, x <= y -> (comparable x <= comparable y)%Z.
Proof. exact comparable_mono. Qed.
Print Assumptions C84_order.

(** Multiples of 1/3326400 are safe: every number within 4e-8 of such a multiple k/3326400
    has bin k. *)
Theorem C84_mesh : forall x k y, on_mesh x k -> Qabs (y - x) < (4 # 100000000) -> comparable y = k.
Proof. exact comparable_mesh. Qed.
Print Assumptions C84_mesh.
(** a third, and a third up to a rounding error *)
Example C84_mesh_ex : on_mesh (1 # 3) 1108800 /\ Qabs ((333333333333 # 1000000000000) - (1 # 3)) < (4 # 100000000).
Proof. split; [vm_compute; reflexivity|]. vm_compute. reflexivity. Qed.

(** In general they are not: arbitrarily close numbers may be in different bins. *)
Theorem C84_close_refuted : forall eps, 0 < eps -> exists x y, Qabs (x - y) < eps /\ comparable x <> comparable y.
Proof. exact comparable_close_refuted. Qed.
Print Assumptions C84_close_refuted.

(** The periodic bins do not change when an integer is added (with ties rounded to even this
    needs the even density 3326400), lie in [0, 3326400), and agree with the plain ones when
    the fractional part is not asked for. *)
Theorem C84_periodic : forall x n,
  comparable_periodic true (x + inject_Z n) = comparable_periodic true x /\
  (0 <= comparable_periodic true x < 3326400)%Z /\ comparable_periodic false x = comparable x.
Proof. intros x n. exact (conj (periodic_shift x n) (conj (periodic_range x) (periodic_off x))). Qed.
Print Assumptions C84_periodic.
(** With an odd density given by the caller the shift can change the bin. *)
Theorem C84_density_refuted : exists density off x n,
  comparable_periodic_with density off true (x + inject_Z n) <> comparable_periodic_with density off true x.
Proof. exists 3%Z, (1 # 2), 0, 1%Z. intros H. exact (odd_density (eq_sym H)). Qed.
Print Assumptions C84_density_refuted.

(** Equal periodic bins: equal up to an integer and the width of a bin. *)
Theorem C84_periodic_same : forall x y, comparable_periodic true x = comparable_periodic true y ->
  exists n, Qabs (x - y - inject_Z n) <= width.
Proof. exact periodic_same. Qed.
Print Assumptions C84_periodic_same.
Example C84_periodic_ex : comparable_periodic true (- (1 # 4)) = 2494800%Z /\ comparable_periodic true (7 # 4) = 2494800%Z.
Proof. split; vm_compute; reflexivity. Qed.

(** is_approx_int: within the tolerance of some integer. *)
Theorem C84_approx_int : forall atol x, 0 <= atol ->
  is_approx_int atol x = true <-> exists n, Qabs (x - inject_Z n) <= atol.
Proof. exact approx_int. Qed.
Print Assumptions C84_approx_int.

(** prune_zeros with the default tolerance: real and imaginary parts up to 1e-8 become zero,
    the others stay, and the result is real unless some imaginary part remains. *)
Theorem C84_prune : forall x, (a_complex x = false -> Forall (fun z => snd z == 0) (a_vals x)) ->
  Forall2 (fun z w => cleaned default_atol (fst z) (fst w) /\ cleaned default_atol (snd z) (snd w))
          (a_vals x) (a_vals (p_result (prune_zeros default_atol x))) /\
  (a_complex (p_result (prune_zeros default_atol x)) = true <->
   a_complex x = true /\ Exists (fun z => default_atol < Qabs (snd z)) (a_vals x)).
Proof. exact prune_result. Qed.
Print Assumptions C84_prune.
Example C84_prune_ex :
  p_result (prune_zeros default_atol (Arr true [(1 # 2, 1 # 1000000000); (1 # 1000000000, 3)])) = Arr true [(1 # 2, 0); (0, 3)].
Proof. vm_compute. reflexivity. Qed.

(** The claim for every tolerance is false: entries within the given tolerance stay. *)
Theorem C84_atol_refuted : exists atol x z, a_complex x = false /\ In z (a_vals x) /\ Qabs (fst z) <= atol /\
  exists w, In w (a_vals (p_result (prune_zeros atol x))) /\ ~ fst w == 0.
Proof. exact prune_atol_refuted. Qed.
Print Assumptions C84_atol_refuted.
(** Real and imaginary parts of the same size are treated differently. *)
Theorem C84_parts_refuted : exists atol x z, a_complex x = true /\ In z (a_vals x) /\ Qabs (snd z) <= atol /\
  ~ snd z == 0 /\ p_result (prune_zeros atol x) = Arr false [(fst z, 0)] /\ ~ fst z == 0 /\ Qabs (fst z) <= atol.
Proof. exact prune_drops_refuted. Qed.
Print Assumptions C84_parts_refuted.

(** The argument is modified, and the result may be the argument itself. *)
Theorem C84_argument_refuted : exists x, p_argument (prune_zeros default_atol x) <> x /\ p_shares (prune_zeros default_atol x) = true.
Proof. exact prune_argument_refuted. Qed.
Print Assumptions C84_argument_refuted.
(** What happens to it: real parts up to 1e-8 are set to zero, whatever the tolerance. *)
Theorem C84_argument : forall atol x,
  Forall2 (fun z w => cleaned default_atol (fst z) (fst w)) (a_vals x) (a_vals (p_argument (prune_zeros atol x))) /\
  a_complex (p_argument (prune_zeros atol x)) = a_complex x.
Proof. exact prune_argument. Qed.
Print Assumptions C84_argument.
