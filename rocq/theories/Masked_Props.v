(** * C41: masked layers are autoregressive *)
From Coq Require Import List Arith ZArith Lia.
From Verif Require Import Base Rings Masked_Model Masked_Spec Masked_Proofs.
Import ListNotations.
Open Scope nat_scope.

(** MaskedDense1D, for all weights, biases, numbers of sites and of features: the output
    at site [i] is the same for inputs that agree on the sites it may see. *)
Theorem C41_dense :
  forall (C : cring), cring_laws C ->
  forall exclusive features kernel bias n c (x x' : list (list (T C))),
    shaped n c x -> shaped n c x' ->
    shaped n features (masked_dense C exclusive features kernel bias x) /\
    forall i, agree exclusive i x x' ->
      nth i (masked_dense C exclusive features kernel bias x) [] =
      nth i (masked_dense C exclusive features kernel bias x') [].
Proof.
  intros C L e F k b n c x x' Hx Hx'.
  exact (conj (dense_shaped C e F k b n c x Hx) (fun i => dense_autoregressive C L e F k b n c x x' i Hx Hx')).
Qed.
Print Assumptions C41_dense.

(** MaskedConv1D, for all kernel sizes, dilations and groups that it accepts; whether it
    accepts does not depend on the values. *)
Theorem C41_conv1d :
  forall (C : cring) exclusive features kernel_size dilation groups kernel bias n c
         (x x' y : list (list (T C))),
    shaped n c x -> shaped n c x' ->
    masked_conv1d C exclusive features kernel_size dilation groups kernel bias x = Ok y ->
    shaped (if exclusive then Nat.max n dilation else n) features y /\
    forall i, agree exclusive i x x' ->
      exists y', masked_conv1d C exclusive features kernel_size dilation groups kernel bias x' = Ok y' /\
                 nth i y [] = nth i y' [].
Proof.
  intros C e F ks d g k b n c x x' y Hx Hx' H.
  exact (conj (conv_shaped C e F ks d g k b n c x y Hx H)
              (fun i Ha => conv_autoregressive C e F ks d g k b n c x x' y i Hx Hx' Ha H)).
Qed.
Print Assumptions C41_conv1d.

(** MaskedConv2D in raster order. *)
Theorem C41_conv2d :
  forall (C : cring), cring_laws C ->
  forall exclusive features kh kw dh dw groups kernel bias h w c (x x' y : list (list (list (T C)))),
    0 < h -> 0 < w -> shaped2 h w c x -> shaped2 h w c x' ->
    masked_conv2d C exclusive features kh kw dh dw groups kernel bias x = Ok y ->
    shaped2 h w features y /\
    forall i j, agree2 exclusive (i, j) x x' ->
      exists y', masked_conv2d C exclusive features kh kw dh dw groups kernel bias x' = Ok y' /\
                 nth j (nth i y []) [] = nth j (nth i y' []) [].
Proof.
  intros C L e F kh kw dh dw g k b h w c x x' y Hh Hw Hx Hx' H.
  exact (conj (conv2_shape C e F kh kw dh dw g k b h w c x y Hx Hh H)
          (fun i j Ha => conv2_autoregressive C L e F kh kw dh dw g k b h w c x x' y i j Hx Hx' Hh Hw Ha H)).
Qed.
Print Assumptions C41_conv2d.

(** Networks of any depth, with any mixture of such layers and any activation: the output
    at site [i] depends only on the values at the sites before [i]. *)
Theorem C41_network :
  forall (C : cring), cring_laws C ->
  forall activation (layers : list (layer C)) (s s' : list (T C)) y i,
    layers <> [] -> length s = length s' -> same_before i s s' ->
    network C activation layers s = Ok y ->
    exists y', network C activation layers s' = Ok y' /\ nth i y [] = nth i y' [].
Proof.
  intros C L act ls s s' y i H1 H2 H3 H4.
  exact (network_autoregressive C L act ls s s' y i H1 H2 H3 H4).
Qed.
Print Assumptions C41_network.

(** A dilation larger than the chain is accepted, and the exclusive layer then returns
    more sites than it was given. *)
Theorem C41_dilation_refuted :
  exists (x y : list (list Z)),
    shaped 2 1 x /\
    masked_conv1d zC true 1 2 3 1 (fun _ _ _ => 1%Z) None x = Ok y /\ length y = 3.
Proof.
  exact dilation_wrong.
Qed.
Print Assumptions C41_dilation_refuted.

(** Concrete cases: inputs that differ from site 1 on; the first layer is exclusive, so
    that the outputs agree up to site 1 and differ at site 2. *)
Example C41_dense_ex :
  masked_dense zC true 1 (fun p q => Z.of_nat (p + q + 1)) None [[1]; [2]; [3]]%Z = [[0]; [2]; [11]]%Z /\
  masked_dense zC true 1 (fun p q => Z.of_nat (p + q + 1)) None [[1]; [5]; [9]]%Z = [[0]; [2]; [23]]%Z /\
  masked_dense zC false 1 (fun p q => Z.of_nat (p + q + 1)) (Some (fun _ _ => 1%Z)) [[1]; [2]; [3]]%Z
    = [[2]; [9]; [27]]%Z.
Proof. repeat split; reflexivity. Qed.

Example C41_conv_ex :
  masked_conv1d zC true 2 3 1 1 (fun k c o => Z.of_nat (k + c + o + 1)) (Some (fun o => Z.of_nat o))
    [[1; 1]; [2; 0]; [3; 1]]%Z = Ok [[0; 1]; [5; 8]; [7; 12]]%Z /\
  masked_conv1d zC false 1 2 2 1 (fun k c o => Z.of_nat (k + 1)) None [[1]; [2]; [3]; [4]]%Z
    = Ok [[2]; [4]; [7]; [10]]%Z.
Proof. split; vm_compute; reflexivity. Qed.

Example C41_conv2d_ex :
  masked_conv2d zC true 1 2 3 1 1 1 (fun a b c o => Z.of_nat (3 * a + b + 1)) None
    [[[1]; [2]]; [[3]; [4]]]%Z = Ok [[[0]; [4]]; [[8]; [17]]]%Z.
Proof. vm_compute. reflexivity. Qed.

Example C41_network_ex :
  let ls := [@LDense zC 2 (fun p q => Z.of_nat (p + q)) None;
             @LConv zC 1 2 1 1 (fun k c o => Z.of_nat (k + c)) None] in
  network zC (fun z => z * z)%Z ls [1; 2; 3]%Z = Ok [[0]; [22]; [783]]%Z /\
  network zC (fun z => z * z)%Z ls [1; 7; 3]%Z = Ok [[0]; [22]; [5948]]%Z.
Proof. split; vm_compute; reflexivity. Qed.
