(** * C42: autoregressive wave functions are normalised *)
From Coq Require Import List Arith ZArith Reals.
From Verif Require Import Base Rings Masked_Model ARNN_Model ARNN_Spec ARNN_Proofs.
Import ListNotations.
Open Scope R_scope.

(** For spin and Fock spaces, any layers (dense or convolutional), any activation and any
    weights: if the model evaluates some configuration of [n] sites without raising, then
    the squared moduli over all configurations of [n] sites sum to one. *)
Theorem C42_normalised :
  forall h activation layers n s0 space,
    supported h -> (0 < local_size h)%nat -> enumerates h n space ->
    length s0 = n -> (exists lp, call h activation layers s0 = Ok lp) ->
    total (fun s => born (call h activation layers s)) space = 1.
Proof. exact normalised. Qed.
Print Assumptions C42_normalised.

(** ARNNDense never raises. *)
Theorem C42_normalised_dense :
  forall h activation layers n space,
    supported h -> (0 < local_size h)%nat -> enumerates h n space ->
    layers <> [] -> forallb is_dense layers = true ->
    layer_features (last layers (LDense 0 (fun _ _ => r0 cC) None)) = local_size h ->
    total (fun s => born (call h activation layers s)) space = 1.
Proof. exact normalised_dense. Qed.
Print Assumptions C42_normalised_dense.

(** The conditionals are positive, sum to one at every site, and those of site [i] depend
    only on the sites before [i]. *)
Theorem C42_conditionals :
  forall h activation layers s c, (0 < local_size h)%nat ->
    conditionals h activation layers s = Ok c ->
    Forall (fun row => length row = local_size h /\ Forall (fun q => 0 < q) row /\
                       total (fun q => q) row = 1) c /\
    forall s' i, length s' = length s -> firstn i s' = firstn i s ->
      exists c', conditionals h activation layers s' = Ok c' /\ nth i c' [] = nth i c [].
Proof. exact conditionals_main. Qed.
Print Assumptions C42_conditionals.

(** |psi(s)|^2 is the product over the sites of the conditional probability of the local
    state of that site: the distribution drawn by the direct sampler. *)
Theorem C42_chain_rule :
  forall h activation layers s lp ks, supported h -> Forall (local_state h) s ->
    call h activation layers s = Ok lp -> Forall2 (position h) s ks ->
    exists c, conditionals h activation layers s = Ok c /\
      born (call h activation layers s) =
      product (length s) (fun i => nth (nth i ks 0%nat) (nth i c []) 0).
Proof. exact chain_rule. Qed.
Print Assumptions C42_chain_rule.

(** Other homogeneous unconstrained spaces (for instance Qubit) are accepted by the
    constructor, but the wave function cannot be evaluated. *)
Theorem C42_other_spaces_refuted :
  forall n activation layers v s, call (HOther n) activation layers (v :: s) = Err NotImplementedError.
Proof. exact other_raises. Qed.
Print Assumptions C42_other_spaces_refuted.

(** A network of two dense layers on two spins meets the hypotheses. *)
Example C42_ex :
  let layers := [@LDense cC 3 (fun p q => (INR (p + q), 1)) None;
                 @LDense cC 2 (fun p q => (INR p, INR q)) (Some (fun s f => (INR f, 0)))] in
  supported (HSpin 2) /\ (0 < local_size (HSpin 2))%nat /\
  enumerates (HSpin 2) 2 [[-1; -1]; [-1; 1]; [1; -1]; [1; 1]]%Z /\
  (exists lp, call (HSpin 2) (fun z => z) layers [-1; 1]%Z = Ok lp) /\
  total (fun s => born (call (HSpin 2) (fun z => z) layers s)) [[-1; -1]; [-1; 1]; [1; -1]; [1; 1]]%Z = 1.
Proof.
  intros layers. split; [exact I|]. split; [repeat constructor|]. split; [exact spin2_enumerates|]. split.
  - apply dense_accepted; [exact I|discriminate|reflexivity|reflexivity|].
    constructor; [exists 0%nat; split; [repeat constructor|reflexivity]|].
    constructor; [exists 1%nat; split; [repeat constructor|reflexivity]|constructor].
  - apply (C42_normalised_dense (HSpin 2) (fun z => z) layers 2);
      [exact I|repeat constructor|exact spin2_enumerates|discriminate|reflexivity|reflexivity].
Qed.
