(** * C43, C44: symmetric and equivariant dense layers *)
From Coq Require Import List Arith ZArith Permutation Lia.
From Verif Require Import Base Rings Group_Model Group_Spec Masked_Model Masked_Spec Symm_Model Symm_Spec Symm_Proofs.
Import ListNotations.
Open Scope nat_scope.

(** C43: what the layer computes.  Feature f for group element s is the input contracted
    with the kernel permuted by s. *)
Theorem C43_formula :
  forall C n rows features kernel mask bias x f s,
  Forall (isperm n) rows -> length kernel = n * features -> f < features -> s < length rows ->
  nth s (nth f (dense_symm C rows features kernel mask bias x) []) (r0 C)
  = biased C bias f (fsum C n (fun i =>
      rmul C (nth i x (r0 C)) (weight C features kernel mask (nth i (nth s rows []) 0) f))).
Proof. exact symm_entry. Qed.
Print Assumptions C43_formula.

(** C43: permuting the input by a group element g permutes the output over group
    elements: the entry of s becomes the entry of g^-1 s.  Such a re-indexing exists. *)
Theorem C43_equivariant :
  forall C, cring_laws C -> forall n rows features kernel mask bias x g g' L,
  permutation_group n rows -> length kernel = n * features -> length x = n ->
  In g rows -> inverses n g g' -> translation rows g' L ->
  dense_symm C rows features kernel mask bias (permuted (r0 C) g x)
  = moved (r0 C) L (dense_symm C rows features kernel mask bias x).
Proof. exact symm_equivariant. Qed.
Print Assumptions C43_equivariant.

Theorem C43_translation_exists :
  forall n rows k, Forall (isperm n) rows -> is_group n rows -> In k rows -> exists L, translation rows k L.
Proof. exact translation_exists. Qed.
Print Assumptions C43_translation_exists.

(** C43: for every feature the collection of values over the group elements is unchanged,
    so every symmetric pooling of them is invariant. *)
Theorem C43_pooled_invariant :
  forall C, cring_laws C -> forall n rows features kernel mask bias x g,
  permutation_group n rows -> length kernel = n * features -> length x = n -> In g rows ->
  Forall2 (@Permutation (T C)) (dense_symm C rows features kernel mask bias (permuted (r0 C) g x))
    (dense_symm C rows features kernel mask bias x).
Proof. exact symm_pooled. Qed.
Print Assumptions C43_pooled_invariant.

(** C43: a symmetry listed twice (which neither the layer nor PermutationGroup rejects)
    breaks the invariance of the sum over group elements. *)
Theorem C43_duplicates_refuted :
  exists rows kernel x g, Forall (isperm 2) rows /\ is_group 2 rows /\ In g rows /\
  lsum zC (hd [] (dense_symm zC rows 1 kernel None None (permuted 0%Z g x)))
  <> lsum zC (hd [] (dense_symm zC rows 1 kernel None None x)).
Proof.
  exists [[0;1];[0;1];[1;0]], [1%Z; 0%Z], [1%Z; 0%Z], [1;0].
  assert (I0 : inverses 2 [0;1] [0;1]) by (split; reflexivity).
  assert (I1 : inverses 2 [1;0] [1;0]) by (split; reflexivity).
  assert (P0 : isperm 2 [0;1]) by apply Permutation_refl.
  assert (P1 : isperm 2 [1;0]) by apply perm_swap.
  split; [repeat constructor; assumption|]. split.
  - split; [discriminate|]. split.
    + intros p [<-|[<-|[<-|[]]]]; eexists; (split; [|eassumption]); cbn; auto.
    + intros p q p' Hp Hq J.
      assert (E : p' = p).
      { destruct Hp as [<-|[<-|[<-|[]]]]; eapply (Group_Proofs.inverses_unique 2); try exact J; auto;
          eapply Group_Proofs.inverses_perm; try exact J; auto. }
      subst p'. destruct Hp as [<-|[<-|[<-|[]]]], Hq as [<-|[<-|[<-|[]]]]; cbn; auto.
  - split; [cbn; auto|]. vm_compute. discriminate.
Qed.
Print Assumptions C43_duplicates_refuted.

(** C44: the layer is the group convolution y_g = sum_h x_h W_{h^-1 g} + b, summed over
    input features. *)
Theorem C44_group_convolution :
  forall C, cring_laws C -> forall g pt,
  Forall (wf (degree g)) (elems g) -> NoDup (perms g) -> product_table g = Ok pt ->
  forall cin cout kernel mask bias x q o k,
  quotients (degree g) (perms g) q ->
  length kernel = cout * cin * length pt -> shaped cin (length pt) x -> o < cout -> k < length pt ->
  nth (o * length pt + k) (dense_equivariant C pt cin cout kernel mask bias x) (r0 C)
  = biased C bias o (fsum C cin (fun i => fsum C (length pt) (fun h =>
      rmul C (nth h (nth i x []) (r0 C)) (weight3 C (length pt) cin kernel mask o i (q h k))))).
Proof. exact equiv_formula. Qed.
Print Assumptions C44_group_convolution.

(** C44: it commutes with left translation by any group element. *)
Theorem C44_equivariant :
  forall C, cring_laws C -> forall g pt,
  Forall (wf (degree g)) (elems g) -> NoDup (perms g) -> product_table g = Ok pt ->
  forall cin cout kernel mask bias x k L,
  In k (perms g) -> translation (perms g) k L ->
  length kernel = cout * cin * length pt -> shaped cin (length pt) x ->
  reshape cout (length pt) (dense_equivariant C pt cin cout kernel mask bias (moved (r0 C) L x))
  = moved (r0 C) L (reshape cout (length pt) (dense_equivariant C pt cin cout kernel mask bias x)).
Proof. exact equiv_translation. Qed.
Print Assumptions C44_equivariant.

(** C44: a whole network, symmetric layer first, any number of equivariant layers with
    any pointwise activation: symmetric pooling of its output is invariant under the group. *)
Theorem C44_network_invariant :
  forall C, cring_laws C -> forall g pt,
  Forall (wf (degree g)) (elems g) -> NoDup (perms g) -> product_table g = Ok pt ->
  forall act ls features kernel mask bias x h,
  In h (perms g) -> length kernel = degree g * features -> length x = degree g -> fits_stack (length pt) ls features ->
  Forall2 (@Permutation (T C))
    (stack C act pt ls (dense_symm C (perms g) features kernel mask bias (permuted (r0 C) h x)))
    (stack C act pt ls (dense_symm C (perms g) features kernel mask bias x)).
Proof. exact network_invariant. Qed.
Print Assumptions C44_network_invariant.

(** Concrete cases: the rotations of three sites; a network of two layers. *)
Definition rot3 : pgroup := PG [EId; EPerm [1;2;0]; EPerm [2;0;1]] 3.
Example rot3_wf : Forall (wf (degree rot3)) (elems rot3) /\ NoDup (perms rot3) /\
  product_table rot3 = Ok [[0;1;2];[2;0;1];[1;2;0]].
Proof.
  split; [|split; [|reflexivity]].
  - repeat constructor; apply NoDup_Permutation_bis; try (repeat constructor; cbn; intuition lia); cbn; auto;
      intros a; cbn; intuition lia.
  - repeat constructor; cbn; intuition discriminate.
Qed.
Definition ex_out (x : list Z) := dense_symm zC (perms rot3) 1 [1;10;100]%Z None (Some (fun _ => 5%Z)) x.
Definition ex_net (x : list Z) := stack zC Z.abs [[0;1;2];[2;0;1];[1;2;0]]
  [@EqLayer zC 1 2 [1;-2;3;0;1;1]%Z None None; @EqLayer zC 2 1 [1;-1;2;0;3;1]%Z (Some [1;1;0]%Z) (Some (fun _ => 7%Z))]
  (ex_out x).
Example rot3_values :
  ex_out [1;2;3]%Z = [[326;218;137]]%Z /\ ex_out (permuted 0%Z [1;2;0] [1;2;3]%Z) = [[137;326;218]]%Z
  /\ ex_net [1;2;3]%Z = [[1666;389;2052]]%Z /\ ex_net (permuted 0%Z [1;2;0] [1;2;3]%Z) = [[2052;1666;389]]%Z.
Proof. repeat split; vm_compute; reflexivity. Qed.
(** Left multiplication by the inverse of [1;2;0]: the hypotheses of the theorems hold. *)
Example rot3_hyps :
  In [1;2;0] (perms rot3) /\ inverses 3 [1;2;0] [2;0;1] /\
  translation (perms rot3) [2;0;1] (fun h => nth h [2;0;1] 0) /\
  quotients 3 (perms rot3) (fun h g => nth g (nth h [[0;1;2];[2;0;1];[1;2;0]] []) 0).
Proof.
  split; [cbn; auto|]. split; [split; reflexivity|]. split.
  - intros [|[|[|h]]] H; cbn in H; try lia; (split; [cbn; lia|reflexivity]).
  - intros h g p Hh Hg J.
    assert (Ph : isperm 3 (nth h (perms rot3) [])).
    { apply (Group_Proofs.perms_perm rot3); [apply rot3_wf|apply nth_In, Hh]. }
    assert (E : p = Group_Model.argsort (nth h (perms rot3) [])).
    { apply (Group_Proofs.inverses_unique 3 (nth h (perms rot3) [])); auto.
      - eapply Group_Proofs.inverses_perm; eauto.
      - apply Group_Proofs.argsort_perm, Ph.
      - apply Group_Proofs.argsort_inverses, Ph. }
    subst p. destruct h as [|[|[|h]]]; [| | |cbn in Hh; lia]; destruct g as [|[|[|g]]];
      try (cbn in Hg; lia); (split; [cbn; lia|reflexivity]).
Qed.
