(** * Proofs for C117 *)
From Coq Require Import List Bool Arith Lia.
From Verif Require Import Base Arith_Model Arith_Spec.
Import ListNotations.

Section P.
Variable G : algebra.
Variable L : algebra_laws G.
Variable fresh : nat.
Variable sc : bool -> nat -> oper G -> oper G -> meth G.

Ltac un1 := unfold plus, minus, times, matmul, divide, iplus, iminus, itimes, imatmul, in_place,
  protocol, loc_sub, loc_rsub, spec_sub, spec_rsub, spec_add, spec_radd, spec_mul, spec_rmul,
  spec_matmul, spec_rmatmul, loc_matmul, pauli_matmul, loc_radd, loc_rmul, loc_add, loc_mul, neg, as_meth,
  same_type, to_local, loc_neg, new_loc in *.
Ltac un := un1; un1; un1; un1.
Ltac spl := repeat match goal with
  | H : context [match (if ?b then _ else _) with _ => _ end] |- _ => destruct b eqn:?
  | H : context [if ?b then _ else _] |- _ => destruct b eqn:?
  | |- context [if ?b then _ else _] => destruct b eqn:?
  | H : Err _ = Ok _ |- _ => discriminate H
  | H : Ok _ = Ok _ |- _ => injection H as <-
  end; cbn in *; try congruence.

Lemma plus_value a b v : ~ one_class G a b ->
  plus G fresh sc a b = Ok v -> value G v = madd G (value G a) (value G b).
Proof.
  intros Hc H. destruct a, b; un; cbn in *; try discriminate H;
    try (exfalso; now apply Hc; do 3 eexists); spl; cbn;
    try reflexivity; try apply (l_comm G L).
  all: exfalso; destruct (Nat.eq_dec k k0) as [->|Hn];
    [apply Hc; do 3 eexists; split; reflexivity|];
    rewrite ?(proj2 (Nat.eqb_neq k k0) Hn), ?(proj2 (Nat.eqb_neq k0 k) (not_eq_sym Hn)) in *;
    cbn in *; congruence.
Qed.

Lemma plus_iff a b : ~ one_class G a b ->
  (summable G a b /\ exists v, plus G fresh sc a b = Ok v) \/
  (~ summable G a b /\ plus G fresh sc a b = Err TypeError).
Proof.
  intros Hc. destruct a, b; un; cbn;
    try (right; split; [tauto|reflexivity]); try (left; split; [exact I|eexists; reflexivity]).
  all: repeat match goal with
    | |- context [Nat.eqb ?x ?y] => destruct (Nat.eqb_spec x y)
    end; cbn; subst;
    try (left; split; [congruence|eexists; reflexivity]);
    try (right; split; [congruence|reflexivity]).
  all: try (right; split; [tauto|reflexivity]).
  all: try (exfalso; apply Hc; do 3 eexists; split; reflexivity).
Qed.

Lemma minus_value a b v : ~ one_class G a b ->
  minus G fresh sc a b = Ok v -> value G v = madd G (value G a) (negative G (value G b)).
Proof.
  intros Hc H. unfold negative. destruct a, b; un; cbn in *; try discriminate H; spl; cbn;
    rewrite ?(l_neg G L); try reflexivity; try apply (l_comm G L).
  all: exfalso; destruct (Nat.eq_dec k k0) as [->|Hn];
    [apply Hc; do 3 eexists; split; reflexivity|];
    rewrite ?(proj2 (Nat.eqb_neq k k0) Hn), ?(proj2 (Nat.eqb_neq k0 k) (not_eq_sym Hn)) in *;
    cbn in *; congruence.
Qed.

Lemma minus_iff a b : ~ one_class G a b ->
  (summable G a b /\ ~ local_special G a b /\ exists v, minus G fresh sc a b = Ok v) \/
  ((~ summable G a b \/ local_special G a b) /\ minus G fresh sc a b = Err TypeError).
Proof.
  intros Hc.
  assert (forall o k p, local_special G (Loc o) (Spec k p)) as Hls by (intros; do 3 eexists; split; reflexivity).
  destruct a, b; un; cbn;
    try (right; split; [left; tauto|reflexivity]);
    try (right; split; [right; apply Hls|reflexivity]);
    try (left; split; [exact I|split; [intros (? & ? & ? & E1 & E2); discriminate|eexists; reflexivity]]).
  all: repeat match goal with
    | |- context [Nat.eqb ?x ?y] => destruct (Nat.eqb_spec x y)
    end; cbn; subst;
    try (left; split; [congruence|split; [intros (? & ? & ? & E1 & E2); discriminate|eexists; reflexivity]]);
    try (right; split; [left; congruence|reflexivity]).
  all: try (right; split; [left; tauto|reflexivity]).
  all: try (exfalso; apply Hc; do 3 eexists; split; reflexivity).
Qed.

Lemma minus_special o k p : minus G fresh sc (Loc o) (Spec k p) = Err TypeError.
Proof. reflexivity. Qed.

Lemma times_value a b v : ~ local_special G a b ->
  times G fresh a b = Ok v -> value G v = mmul G (value G a) (value G b).
Proof.
  intros Hc H.
  destruct a as [o|k o|o|c|o], b as [p|l p|p|c'|p]; un; cbn in H; try discriminate H; spl; cbn;
    try reflexivity; try (symmetry; apply (l_central G L)).
  all: try (exfalso; apply Hc; do 3 eexists; split; reflexivity).
Qed.

Lemma times_swapped o k p : exists v, times G fresh (Loc o) (Spec k p) = Ok v /\
  value G v = mmul G (o_mat p) (o_mat o).
Proof. eexists. split; reflexivity. Qed.
Lemma matmul_swapped o k p : o_id o <> fresh ->
  exists v, matmul G fresh (Loc o) (Spec k p) = Ok v /\
  value G v = mmul G (o_mat p) (o_mat o).
Proof.
  intros H. un. cbn. destruct (Nat.eqb_spec fresh (o_id o)); [congruence|]. cbn.
  eexists. split; reflexivity.
Qed.

Lemma matmul_value a b v : operands G fresh a b -> ~ local_special G a b ->
  matmul G fresh a b = Ok v -> value G v = mmul G (value G a) (value G b).
Proof.
  intros (Ha & Hb & Fa & Fb & Hid) Hc H.
  destruct a as [o|k o|o|c|o], b as [p|l p|p|c'|p]; un; cbn in H; try discriminate H.
  all: try (exfalso; apply Hc; do 3 eexists; split; reflexivity).
  all: cbn in Ha, Hb, Fa, Fb, Hid.
  all: repeat match goal with
    | H : context [Nat.eqb ?x ?y && ?h] |- _ =>
        destruct (Nat.eqb_spec x y); [destruct h eqn:?|]; cbn in H
    | H : context [if Nat.eqb ?x ?y then _ else _] |- _ => destruct (Nat.eqb_spec x y); cbn in H
    end; try discriminate H; try (injection H as <-); cbn; try reflexivity; try congruence.
  all: try (assert (Ep : Some (o_id o) = Some (o_id p)) by congruence;
            apply Hid in Ep; [|discriminate]; injection Ep; intros; subst; rewrite Ha by auto; reflexivity).
Qed.

Lemma special_products k o l p :
  times G fresh (Spec k o) (Spec l p) = Err TypeError /\
  (o_id o <> o_id p -> matmul G fresh (Spec k o) (Spec l p) = Err TypeError).
Proof.
  split.
  - un. cbn. destruct (Nat.eqb k l); reflexivity.
  - intros H. un. cbn. destruct (Nat.eqb_spec (o_id o) (o_id p)); [congruence|]. cbn.
    destruct (Nat.eqb k l); reflexivity.
Qed.
Lemma special_square k o : o_herm o = true -> matmul G fresh (Spec k o) (Spec k o) = Ok (Sqr o).
Proof. intros H. un. cbn. rewrite Nat.eqb_refl, H. reflexivity. Qed.

Lemma divide_value a b v : divide G fresh a b = Ok v ->
  exists c, b = Num c /\ czero G c = false /\ value G v = mmul G (value G a) (num G (cinv G c)).
Proof.
  intros H. destruct a as [o|k o|o|c|o]; try discriminate H. destruct b as [p|l p|p|c|p]; try discriminate H.
  un. cbn in H. destruct (czero G c) eqn:E; [discriminate H|]. injection H as <-.
  exists c. auto.
Qed.
Lemma divide_zero o c : czero G c = true -> divide G fresh (Loc o) (Num c) = Err ValueError.
Proof. intros H. cbn. now rewrite H. Qed.

Lemma in_place_sum a b : ~ one_class G a b ->
  (forall v, iplus G fresh sc a b = Ok v -> value G v = madd G (value G a) (value G b)) /\
  (forall v, iminus G fresh sc a b = Ok v -> value G v = madd G (value G a) (negative G (value G b))).
Proof.
  intros Hc. split; intros v H.
  - apply plus_value; auto. rewrite <- H. unfold iplus, in_place.
    destruct a as [o|k o|o|c|o]; try reflexivity.
    + unfold plus, protocol. destruct (loc_add G fresh o b); reflexivity.
    + destruct b as [p|l p|p|c|p]; try reflexivity.
      destruct (Nat.eqb_spec k l); [|reflexivity].
      exfalso. subst. apply Hc. do 3 eexists; split; reflexivity.
  - destruct a as [o|k o|o|c|o].
    2: { apply minus_value; auto. unfold iminus, in_place in H.
         destruct b as [p|l p|p|c|p]; try exact H.
         destruct (Nat.eqb_spec k l); [|exact H].
         exfalso. subst. apply Hc. do 3 eexists; split; reflexivity. }
    2,3,4: apply minus_value; auto.
    unfold iminus, in_place in H. destruct b as [p|l p|p|c|p]; cbn in H; try discriminate H.
    + destruct (Nat.eqb (o_space o) (o_space p)) eqn:E; [|apply minus_value; auto].
      injection H as <-. reflexivity.
    + injection H as <-. cbn. unfold negative. now rewrite (l_neg G L).
Qed.

Lemma in_place_product a b : itimes G fresh a b = times G fresh a b.
Proof.
  unfold itimes, in_place. destruct a as [o|k o|o|c|o]; try reflexivity.
  unfold times, protocol. destruct (loc_mul G fresh o b); reflexivity.
Qed.
Lemma in_place_matmul a b : id_of G a <> id_of G b -> imatmul G fresh a b = matmul G fresh a b.
Proof.
  intros H. unfold imatmul, in_place. destruct a as [o|k o|o|c|o]; try reflexivity.
  destruct b as [p|l p|p|c|p]; try reflexivity. cbn in H. un. cbn.
  destruct (Nat.eqb_spec (o_id o) (o_id p)); [congruence|]. reflexivity.
Qed.
End P.
