(** * Property C117: arithmetic between operators of different classes

    [G] are any matrices and numbers with the laws of [algebra_laws]; [fresh] is the identity
    of new objects; [sc] is what the sum (difference) of two special Hamiltonians of one class
    gives, see C58. *)
From Coq Require Import ZArith List Bool Lia.
From Verif Require Import Base Arith_Model Arith_Spec Arith_Proofs.
Import ListNotations.

(** two by two integer matrices *)
Definition M2 : Type := (Z * Z * (Z * Z))%type.
Definition Z2 : algebra := {|
  M := M2; C := Z;
  madd := fun a b => let '(p, q, (r, s)) := a in let '(p', q', (r', s')) := b in
                     ((p + p')%Z, (q + q')%Z, ((r + r')%Z, (s + s')%Z));
  mmul := fun a b => let '(p, q, (r, s)) := a in let '(p', q', (r', s')) := b in
                     ((p * p' + q * r')%Z, (p * q' + q * s')%Z,
                      ((r * p' + s * r')%Z, (r * q' + s * s')%Z));
  madj := fun a => let '(p, q, (r, s)) := a in (p, r, (q, s));
  num := fun c => (c, 0%Z, (0%Z, c));
  cneg := Z.opp; cinv := fun c => (1 / c)%Z; czero := Z.eqb 0; cmone := (-1)%Z |}.
Example Z2_laws : algebra_laws Z2.
Proof.
  constructor; cbn.
  - intros [[a b] [c d]] [[e f] [g h]]. apply f_equal2; apply f_equal2; ring.
  - intros x [[a b] [c d]]. apply f_equal2; apply f_equal2; ring.
  - intros x. apply f_equal2; apply f_equal2; ring.
Qed.
Definition no_sc (_ : bool) (_ : nat) (_ _ : oper Z2) : meth Z2 := NotImpl.
(** sigma_x as a LocalOperator, a special Hamiltonian with matrix ((1,0),(0,-1)), and an
    operator on another space *)
Definition ox : oper Z2 := @mkOper Z2 1 0 (0, 1, (1, 0))%Z true.
Definition oz : oper Z2 := @mkOper Z2 2 0 (1, 0, (0, -1))%Z true.
Definition oy : oper Z2 := @mkOper Z2 3 1 (0, 1, (1, 0))%Z true.

(** ** Sums and differences are right whenever they are accepted, *)
Theorem C117_plus :
  forall G (L : algebra_laws G) fresh sc a b v, ~ one_class G a b ->
  plus G fresh sc a b = Ok v -> value G v = madd G (value G a) (value G b).
Proof. exact Arith_Proofs.plus_value. Qed.
Print Assumptions C117_plus.
Theorem C117_minus :
  forall G (L : algebra_laws G) fresh sc a b v, ~ one_class G a b ->
  minus G fresh sc a b = Ok v -> value G v = madd G (value G a) (negative G (value G b)).
Proof. exact Arith_Proofs.minus_value. Qed.
Print Assumptions C117_minus.
(** and a sum is accepted exactly if it is [summable], otherwise a TypeError *)
Theorem C117_plus_accepted :
  forall G fresh sc a b, ~ one_class G a b ->
  (summable G a b /\ exists v, plus G fresh sc a b = Ok v) \/
  (~ summable G a b /\ plus G fresh sc a b = Err TypeError).
Proof. exact Arith_Proofs.plus_iff. Qed.
Print Assumptions C117_plus_accepted.
(** while a difference is refused for a LocalOperator minus a special Hamiltonian *)
Theorem C117_minus_accepted_partial :
  forall G fresh sc a b, ~ one_class G a b ->
  (summable G a b /\ ~ local_special G a b /\ exists v, minus G fresh sc a b = Ok v) \/
  ((~ summable G a b \/ local_special G a b) /\ minus G fresh sc a b = Err TypeError).
Proof. exact Arith_Proofs.minus_iff. Qed.
Print Assumptions C117_minus_accepted_partial.
Example C117_sums_ex :
  ~ one_class Z2 (Loc ox) (Spec 0 oz) /\ summable Z2 (Loc ox) (Spec 0 oz) /\
  (exists v, plus Z2 9 no_sc (Loc ox) (Spec 0 oz) = Ok v /\ value Z2 v = (1, 1, (1, -1))%Z) /\
  (exists v, minus Z2 9 no_sc (Spec 0 oz) (Loc ox) = Ok v /\ value Z2 v = (1, -1, (-1, -1))%Z) /\
  (exists v, minus Z2 9 no_sc (@Num Z2 3%Z) (Spec 0 oz) = Ok v /\ value Z2 v = (2, 0, (0, 4))%Z) /\
  plus Z2 9 no_sc (Loc ox) (Loc oy) = Err TypeError.
Proof.
  split; [intros (k & o & p & E1 & E2); discriminate|]. split; [reflexivity|].
  split; [eexists; split; reflexivity|]. split; [eexists; split; reflexivity|].
  split; [eexists; split; reflexivity|reflexivity].
Qed.
Theorem C117_minus_special_refuted :
  exists a b v w, summable Z2 a b /\ plus Z2 9 no_sc a b = Ok v /\
    minus Z2 9 no_sc b a = Ok w /\ minus Z2 9 no_sc a b = Err TypeError.
Proof. exists (Loc ox), (Spec 0 oz). do 2 eexists. repeat split; reflexivity. Qed.
Print Assumptions C117_minus_special_refuted.

(** ** Products, by * and by @, are right except for a LocalOperator times a special
    Hamiltonian, *)
Theorem C117_times_partial :
  forall G (L : algebra_laws G) fresh a b v, ~ local_special G a b ->
  times G fresh a b = Ok v -> value G v = mmul G (value G a) (value G b).
Proof. exact Arith_Proofs.times_value. Qed.
Print Assumptions C117_times_partial.
Theorem C117_matmul_partial :
  forall G fresh a b v, operands G fresh a b -> ~ local_special G a b ->
  matmul G fresh a b = Ok v -> value G v = mmul G (value G a) (value G b).
Proof. exact Arith_Proofs.matmul_value. Qed.
Print Assumptions C117_matmul_partial.
Example C117_products_ex :
  operands Z2 9 (Spec 0 oz) (Loc ox) /\ ~ local_special Z2 (Spec 0 oz) (Loc ox) /\
  (exists v, matmul Z2 9 (Spec 0 oz) (Loc ox) = Ok v /\ value Z2 v = (0, 1, (-1, 0))%Z) /\
  (exists v, times Z2 9 (Spec 0 oz) (Loc ox) = Ok v /\ value Z2 v = (0, 1, (-1, 0))%Z) /\
  (exists v, times Z2 9 (@Num Z2 3%Z) (Spec 0 oz) = Ok v /\ value Z2 v = (3, 0, (0, -3))%Z) /\
  matmul Z2 9 (Spec 0 oz) (Spec 0 oz) = Ok (Sqr oz).
Proof.
  split; [|split; [intros (o & k & p & E1 & E2); discriminate|]].
  - repeat split; try reflexivity; discriminate.
  - split; [eexists; split; reflexivity|]. split; [eexists; split; reflexivity|].
    split; [eexists; split; reflexivity|reflexivity].
Qed.
(** for which the factors are always exchanged: *)
Theorem C117_times_exchanged :
  forall G fresh o k p, exists v, times G fresh (Loc o) (Spec k p) = Ok v /\
  value G v = mmul G (o_mat p) (o_mat o).
Proof. exact Arith_Proofs.times_swapped. Qed.
Print Assumptions C117_times_exchanged.
Theorem C117_matmul_exchanged :
  forall G fresh o k p, o_id o <> fresh ->
  exists v, matmul G fresh (Loc o) (Spec k p) = Ok v /\ value G v = mmul G (o_mat p) (o_mat o).
Proof. exact Arith_Proofs.matmul_swapped. Qed.
Print Assumptions C117_matmul_exchanged.
Theorem C117_product_refuted :
  exists a b v w, operands Z2 9 a b /\
    times Z2 9 a b = Ok v /\ value Z2 v <> mmul Z2 (value Z2 a) (value Z2 b) /\
    matmul Z2 9 a b = Ok w /\ value Z2 w <> mmul Z2 (value Z2 a) (value Z2 b).
Proof.
  exists (Loc ox), (Spec 0 oz). do 2 eexists.
  split; [repeat split; try reflexivity; discriminate|].
  split; [reflexivity|]. split; [discriminate|]. split; [reflexivity|discriminate].
Qed.
Print Assumptions C117_product_refuted.

(** ** Two special Hamiltonians: * is an error even for one object, @ is one for different
    objects, although the product of the matrices is defined; H @ H is the lazy square. *)
Theorem C117_special_products :
  forall G fresh k o l p,
  times G fresh (Spec k o) (Spec l p) = Err TypeError /\
  (o_id o <> o_id p -> matmul G fresh (Spec k o) (Spec l p) = Err TypeError).
Proof. exact Arith_Proofs.special_products. Qed.
Print Assumptions C117_special_products.
Theorem C117_special_square :
  forall G fresh k o, o_herm o = true -> matmul G fresh (Spec k o) (Spec k o) = Ok (Sqr o).
Proof. exact Arith_Proofs.special_square. Qed.
Print Assumptions C117_special_square.
Theorem C117_special_product_refuted :
  exists a, (exists v, matmul Z2 9 a a = Ok v) /\ times Z2 9 a a = Err TypeError.
Proof. exists (Spec 0 oz). split; [eexists; reflexivity|reflexivity]. Qed.
Print Assumptions C117_special_product_refuted.

(** ** Operators on different spaces cannot be added, but they can be multiplied *)
Theorem C117_spaces_refuted :
  exists a b v w, space_of Z2 a <> space_of Z2 b /\
    plus Z2 9 no_sc a b = Err TypeError /\ times Z2 9 a b = Ok v /\ matmul Z2 9 a b = Ok w.
Proof. exists (Loc ox), (Loc oy). do 2 eexists. split; [discriminate|]. repeat split; reflexivity. Qed.
Print Assumptions C117_spaces_refuted.

(** ** Division: by a number other than zero, of LocalOperators only *)
Theorem C117_divide :
  forall G fresh a b v, divide G fresh a b = Ok v ->
  exists c, b = Num c /\ czero G c = false /\ value G v = mmul G (value G a) (num G (cinv G c)).
Proof. exact Arith_Proofs.divide_value. Qed.
Print Assumptions C117_divide.
Theorem C117_divide_zero :
  forall G fresh o c, czero G c = true -> divide G fresh (Loc o) (Num c) = Err ValueError.
Proof. exact Arith_Proofs.divide_zero. Qed.
Print Assumptions C117_divide_zero.
Example C117_divide_ex :
  exists v, divide Z2 9 (Loc ox) (@Num Z2 (-1)%Z) = Ok v /\ value Z2 v = (0, -1, (-1, 0))%Z.
Proof. eexists. split; reflexivity. Qed.
Theorem C117_special_divide_refuted :
  exists a c v, times Z2 9 a (Num (cinv Z2 c)) = Ok v /\ czero Z2 c = false /\
    divide Z2 9 a (Num c) = Err TypeError.
Proof. exists (Spec 0 oz), (-1)%Z. eexists. repeat split; reflexivity. Qed.
Print Assumptions C117_special_divide_refuted.

(** ** The in-place forms give what the plain ones give *)
Theorem C117_in_place_sums :
  forall G (L : algebra_laws G) fresh sc a b, ~ one_class G a b ->
  (forall v, iplus G fresh sc a b = Ok v -> value G v = madd G (value G a) (value G b)) /\
  (forall v, iminus G fresh sc a b = Ok v -> value G v = madd G (value G a) (negative G (value G b))).
Proof. exact Arith_Proofs.in_place_sum. Qed.
Print Assumptions C117_in_place_sums.
Theorem C117_in_place_products :
  forall G fresh a b,
  itimes G fresh a b = times G fresh a b /\
  (id_of G a <> id_of G b -> imatmul G fresh a b = matmul G fresh a b).
Proof.
  exact (fun G fresh a b => conj (Arith_Proofs.in_place_product G fresh a b)
                                 (Arith_Proofs.in_place_matmul G fresh a b)).
Qed.
Print Assumptions C117_in_place_products.
Example C117_in_place_ex :
  (exists v, iminus Z2 9 no_sc (Spec 0 oz) (Loc ox) = Ok v /\ value Z2 v = (1, -1, (-1, -1))%Z) /\
  (exists v, itimes Z2 9 (Loc ox) (@Num Z2 2%Z) = Ok v /\ value Z2 v = (0, 2, (2, 0))%Z).
Proof. split; eexists; split; reflexivity. Qed.
