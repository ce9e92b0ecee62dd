(** * C68, C69: Fourier layers and group-convolutional networks *)
From Coq Require Import List Arith ZArith Bool Reals Lra Lia.
From Verif Require Import Base Rings Masked_Model Masked_Spec ARNN_Model ToArray_Model Estim_Model
  Group_Model Group_Spec Symm_Model Symm_Spec Ansatz_Model Ansatz_Spec Ansatz_Proofs Equiv_Model Equiv_Spec Equiv_Proofs.
Import ListNotations.
Open Scope nat_scope.

(** ** C68: the layers in Fourier space compute the same as those with the full matrix *)
(** multiplying multi-dimensional transforms is the circular convolution *)
Theorem C68_convolution : forall shape, Forall (fun n => 0 < n) shape -> forall x y c, c < cells shape ->
  ifftn shape (fun k => rmul cC (fftn shape x k) (fftn shape y k)) c = circular shape x y c.
Proof. exact fftn_convolution. Qed.
Print Assumptions C68_convolution.

Theorem C68_symm_fft : forall shape spc p rows features k k' bias real x,
  lattice_group shape spc p rows ->
  length k = cells shape * spc * features -> transposed2 (cells shape * spc) features k k' ->
  Forall (real_if real) k' -> real_bias real bias -> Forall (real_if real) x ->
  dense_symm_fft rows shape features k' bias real x = dense_symm cC rows features k None bias x.
Proof. exact symm_fft_main. Qed.
Print Assumptions C68_symm_fft.

Theorem C68_equivariant_fft : forall g pt, Forall (wf (degree g)) (elems g) -> NoDup (perms g) -> product_table g = Ok pt ->
  forall shape spc p cin cout kernel bias real x,
  lattice_group shape spc p (perms g) -> degree g = cells shape * spc ->
  length kernel = cout * cin * length pt -> shaped cin (length pt) x ->
  Forall (real_if real) kernel -> real_bias real bias -> Forall (Forall (real_if real)) x ->
  dense_equivariant_fft pt shape cin cout kernel bias real x
  = reshape cout (length pt) (dense_equivariant cC pt cin cout kernel None bias x).
Proof. exact equiv_fft_main. Qed.
Print Assumptions C68_equivariant_fft.

Theorem C68_equivariant_irrep : forall g pt, Forall (wf (degree g)) (elems g) -> NoDup (perms g) -> product_table g = Ok pt ->
  forall irreps cin cout k k' bias real x,
  Forall (representation (length pt) (fun h k => nth k (nth h pt []) 0)) irreps -> complete (length pt) irreps ->
  length k = cout * cin * length pt -> transposed3 (length pt) cin cout k k' -> shaped cin (length pt) x ->
  Forall (real_if real) k' -> real_bias real bias -> Forall (Forall (real_if real)) x ->
  dense_equivariant_irrep (length pt) irreps cin cout k' bias real x
  = reshape cout (length pt) (dense_equivariant cC pt cin cout k None bias x).
Proof. exact irrep_main. Qed.
Print Assumptions C68_equivariant_irrep.

(** The order of the elements matters: with a group of the right size, translations included,
    whose elements are not listed as translation times point-group element, the network in
    Fourier space is accepted but is not invariant. *)
Theorem C68_order_refuted : exists g pt shape p act oact chars zp x s l l',
  Forall (wf (degree g)) (elems g) /\ NoDup (perms g) /\ product_table g = Ok pt /\
  length (perms g) = cells shape * 2 /\ degree g = cells shape /\ network_fits false (degree g) (length pt) p /\ length x = degree g /\
  s < length (perms g) /\ Forall (eq (r1 cC)) chars /\ length chars = length pt /\
  gcnn_fft (perms g) pt shape act oact false chars false false zp p x = Log l /\
  gcnn_fft (perms g) pt shape act oact false chars false false zp p (permuted (r0 cC) (nth s (perms g) []) x) = Log l' /\
  amplitude l' <> amplitude l.
Proof. exact order_refuted. Qed.
Print Assumptions C68_order_refuted.

(** all permutations of a ring of three sites; both irreps of the exchange of two sites *)
Example C68_ex :
  (Forall (wf (degree s3)) (elems s3) /\ NoDup (perms s3) /\ (exists pt, product_table s3 = Ok pt) /\
   lattice_group [3] 1 2 (perms s3) /\ degree s3 = cells [3] * 1) /\
  (product_table z2 = Ok [[0;1];[1;0]] /\
   Forall (representation 2 (fun h k => nth k (nth h [[0;1];[1;0]] []) 0)) z2_irreps /\ complete 2 z2_irreps).
Proof.
  split.
  - split; [exact s3_wf|]. split; [exact s3_nodup|]. split; [|split; [exact s3_lattice|reflexivity]].
    destruct (product_table s3) as [pt|e] eqn:E; [eauto|vm_compute in E; discriminate E].
  - split; [reflexivity|]. split; [exact z2_representation|exact z2_complete].
Qed.

(** ** C69: networks transform with their characters *)
Theorem C69_irrep : forall g pt, Forall (wf (degree g)) (elems g) -> NoDup (perms g) -> product_table g = Ok pt ->
  forall real real_out act oact zp, (forall z, real_if real z -> real_if real (act z)) ->
  forall irreps equal_amplitudes chars p x s l l',
  Forall (representation (length pt) (fun h k => nth k (nth h pt []) 0)) irreps -> complete (length pt) irreps ->
  network_fits real (degree g) (length pt) p -> length x = degree g -> Forall (real_if real) x ->
  real_readout real real_out oact chars ->
  s < length (perms g) -> multiplicative (perms g) (fun h => nth h chars (r0 cC)) ->
  (equal_amplitudes = true -> real_out = false /\ cnorm2 (nth s chars (r0 cC)) = 1%R /\
     gcnn_irrep (perms g) irreps act oact false chars real false zp p x <> Log None) ->
  gcnn_irrep (perms g) irreps act oact equal_amplitudes chars real real_out zp p x = Log l ->
  gcnn_irrep (perms g) irreps act oact equal_amplitudes chars real real_out zp p (permuted (r0 cC) (nth s (perms g) []) x) = Log l' ->
  amplitude l' = rmul cC (nth s chars (r0 cC)) (amplitude l).
Proof. exact gcnn_irrep_main. Qed.
Print Assumptions C69_irrep.

Theorem C69_fft : forall g pt, Forall (wf (degree g)) (elems g) -> NoDup (perms g) -> product_table g = Ok pt ->
  forall real real_out act oact zp, (forall z, real_if real z -> real_if real (act z)) ->
  forall shape spc q equal_amplitudes chars p x s l l',
  lattice_group shape spc q (perms g) -> degree g = cells shape * spc ->
  network_fits real (degree g) (length pt) p -> length x = degree g -> Forall (real_if real) x ->
  real_readout real real_out oact chars ->
  s < length (perms g) -> multiplicative (perms g) (fun h => nth h chars (r0 cC)) ->
  (equal_amplitudes = true -> real_out = false /\ cnorm2 (nth s chars (r0 cC)) = 1%R /\
     gcnn_fft (perms g) pt shape act oact false chars real false zp p x <> Log None) ->
  gcnn_fft (perms g) pt shape act oact equal_amplitudes chars real real_out zp p x = Log l ->
  gcnn_fft (perms g) pt shape act oact equal_amplitudes chars real real_out zp p (permuted (r0 cC) (nth s (perms g) []) x) = Log l' ->
  amplitude l' = rmul cC (nth s chars (r0 cC)) (amplitude l).
Proof. exact gcnn_fft_main. Qed.
Print Assumptions C69_fft.

(** the network has a value if a dtype is complex or no character is negative *)
Theorem C69_irrep_defined : forall g pt, Forall (wf (degree g)) (elems g) -> NoDup (perms g) -> product_table g = Ok pt ->
  forall real real_out act oact zp, (forall z, real_if real z -> real_if real (act z)) ->
  forall irreps equal_amplitudes chars p x,
  Forall (representation (length pt) (fun h k => nth k (nth h pt []) 0)) irreps -> complete (length pt) irreps ->
  network_fits real (degree g) (length pt) p -> length x = degree g -> Forall (real_if real) x ->
  real_readout real real_out oact chars -> (real_out = true -> Forall (fun z => 0 <= fst z)%R chars) ->
  exists l, gcnn_irrep (perms g) irreps act oact equal_amplitudes chars real real_out zp p x = Log l.
Proof. exact gcnn_irrep_positive. Qed.
Print Assumptions C69_irrep_defined.
Theorem C69_fft_defined : forall g pt, Forall (wf (degree g)) (elems g) -> NoDup (perms g) -> product_table g = Ok pt ->
  forall real real_out act oact zp, (forall z, real_if real z -> real_if real (act z)) ->
  forall shape spc q equal_amplitudes chars p x,
  lattice_group shape spc q (perms g) -> degree g = cells shape * spc ->
  network_fits real (degree g) (length pt) p -> length x = degree g -> Forall (real_if real) x ->
  real_readout real real_out oact chars -> (real_out = true -> Forall (fun z => 0 <= fst z)%R chars) ->
  exists l, gcnn_fft (perms g) pt shape act oact equal_amplitudes chars real real_out zp p x = Log l.
Proof. exact gcnn_fft_positive. Qed.
Print Assumptions C69_fft_defined.

(** with real weights and a sign representation the network is NaN on some configurations *)
Theorem C69_sign_refuted : exists g pt irreps p act oact chars zp x,
  Forall (wf (degree g)) (elems g) /\ NoDup (perms g) /\ product_table g = Ok pt /\
  Forall (representation (length pt) (fun h k => nth k (nth h pt []) 0)) irreps /\ complete (length pt) irreps /\
  network_fits true (degree g) (length pt) p /\ length x = degree g /\ Forall (real_if true) x /\
  real_readout true true oact chars /\ multiplicative (perms g) (fun h => nth h chars (r0 cC)) /\
  gcnn_irrep (perms g) irreps act oact false chars true true zp p x = NaN.
Proof. exact sign_refuted. Qed.
Print Assumptions C69_sign_refuted.

(** with equal_amplitudes every configuration has modulus 1 *)
Theorem C69_equal_amplitudes : forall sg irreps act oact chars real real_out zp p x,
  exists l, gcnn_irrep sg irreps act oact true chars real real_out zp p x = Log l /\ cnorm2 (amplitude l) = 1%R.
Proof. exact (fun sg irreps act oact chars real real_out zp p x => finish_equal real_out _ _). Qed.
Print Assumptions C69_equal_amplitudes.

(** Networks with a parity: with two or more symmetries every call raises. *)
Theorem C69_parity_refuted : forall sg pt shape irreps act oact equal_amplitudes chars parity real real_out zp p x,
  2 <= length sg -> length chars = length sg ->
  gcnn_parity_irrep sg irreps act oact equal_amplitudes chars parity real real_out zp p x = Err ValueError /\
  gcnn_parity_fft sg pt shape act oact equal_amplitudes chars parity real real_out zp p x = Err ValueError.
Proof.
  exact (fun sg pt shape irreps act oact e chars parity real real_out zp p x H L =>
    Logic.conj (parity_raises oact e chars parity real_out zp (length sg) _ L H) (parity_raises oact e chars parity real_out zp (length sg) _ L H)).
Qed.
Print Assumptions C69_parity_refuted.
(** with one symmetry: parity 1 is even; parity -1 vanishes everywhere *)
Theorem C69_parity_even : forall s irreps act oact equal_amplitudes c real real_out zp p x,
  (forall y y', zp (y ++ y') = zp (y' ++ y)) ->
  gcnn_parity_irrep [s] irreps act oact equal_amplitudes [c] 1 real real_out zp p (map (ropp cC) x)
  = gcnn_parity_irrep [s] irreps act oact equal_amplitudes [c] 1 real real_out zp p x.
Proof. exact parity_even. Qed.
Print Assumptions C69_parity_even.
Theorem C69_parity_odd_refuted : forall s irreps act oact c real zp p parity x, parity <> 1%Z ->
  gcnn_parity_irrep [s] irreps act oact false [c] parity real false zp p x = Ok (Log None).
Proof. exact parity_vanishes. Qed.
Print Assumptions C69_parity_odd_refuted.

(** Which class the function GCNN returns. *)
Theorem C69_make_lattice : forall point_group has m irreps pt shape chars parity,
  point_group || has = true -> m = MAuto \/ m = MFft -> (forall n b, chars <> APlain n b) ->
  gcnn_make (SLattice has) point_group m irreps pt shape chars parity = inr (if (parity =? 0)%Z then CFft else CParityFft).
Proof. exact make_lattice. Qed.
Print Assumptions C69_make_lattice.
Theorem C69_make_irreps : forall s point_group m irreps pt shape chars parity,
  (s = SGroup \/ (s = SArray /\ irreps = true) \/ (s = SLattice true /\ m = MIrreps)) -> m = MAuto \/ m = MIrreps ->
  (forall n b, chars <> APlain n b) ->
  gcnn_make s point_group m irreps pt shape chars parity = inr (if (parity =? 0)%Z then CIrrep else CParityIrrep).
Proof. exact make_irreps. Qed.
Print Assumptions C69_make_irreps.
(** a Graph, a Lattice without a point group, the documented mode "matrix", and characters
    given as a plain array are refused *)
Theorem C69_make_refuted :
  (forall pg m irreps pt shape chars parity, gcnn_make SGraph pg m irreps pt shape chars parity = inl NameErr) /\
  (forall m irreps pt shape chars parity, gcnn_make (SLattice false) false m irreps pt shape chars parity = inl NameErr) /\
  (forall s pg irreps pt shape chars parity, exists e, gcnn_make s pg MMatrix irreps pt shape chars parity = inl e) /\
  (forall s pg m irreps pt shape n b parity, 2 <= n -> exists e, gcnn_make s pg m irreps pt shape (APlain n b) parity = inl e).
Proof. exact make_errors. Qed.
Print Assumptions C69_make_refuted.

(** the odd network on two sites, with values -2 and 2 on two configurations *)
Example C69_ex :
  Forall (wf (degree z2)) (elems z2) /\ NoDup (perms z2) /\ network_fits false (degree z2) 2 z2_net /\
  real_readout true false (fun z => z) z2_sign /\ multiplicative (perms z2) (fun h => nth h z2_sign (r0 cC)) /\
  (exists l, gcnn_irrep (perms z2) z2_irreps (fun z => z) (fun z => z) false z2_sign true false (fun _ => 0%R) z2_net [num 1; num 0] = Log l /\
     amplitude l = (-2, 0)%R) /\
  (exists l, gcnn_irrep (perms z2) z2_irreps (fun z => z) (fun z => z) false z2_sign true false (fun _ => 0%R) z2_net [num 0; num 1] = Log l /\
     amplitude l = (2, 0)%R).
Proof.
  split; [exact z2_wf|]. split; [exact z2_nodup|]. split; [exact (z2_fits false)|]. split; [intros H; discriminate H|].
  split; [exact z2_multiplicative|].
  split; rewrite z2_value, finish_complex; eexists; (split; [reflexivity|]); rewrite clog_exp; f_equal; cbn; ring.
Qed.
(** a hidden layer with two features fits *)
Example C69_layers_ex : network_fits true (degree s3) 6
  (GcnnParams 2 (repeat (num 3) 6) (Some num) [GLayer 2 1 (repeat (num 2) 12) None]).
Proof.
  split; [reflexivity|]. split; [repeat constructor|]. split; [intros f H; reflexivity|].
  cbn. repeat (split; [first [reflexivity | repeat constructor | exact I]|]). exact I.
Qed.
