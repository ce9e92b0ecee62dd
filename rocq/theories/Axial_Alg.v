(** Algebra of the groups of C89. *)
From Coq Require Import List Arith ZArith FinFun Lia.
Import ListNotations.
Open Scope nat_scope.

Lemma NoDup_app_in {A} (a b : list A) : NoDup a -> NoDup b -> (forall x, In x a -> In x b -> False) -> NoDup (a ++ b).
Proof.
  intros N N' D. induction N as [|x a Hx N IH]; [exact N'|]. cbn. constructor.
  - rewrite in_app_iff. intros [H|H]; [auto|]. apply (D x); [now left|assumption].
  - apply IH. intros y Hy. apply D. now right.
Qed.
Section Monoid.
Context {M : Type} (mul : M -> M -> M) (one : M).
Hypothesis assoc : forall a b c, mul a (mul b c) = mul (mul a b) c.
Hypothesis one_l : forall a, mul one a = a.
Hypothesis one_r : forall a, mul a one = a.
Record mgrp (H : list M) : Prop := {
  mg_one : In one H;
  mg_closed : forall a b, In a H -> In b H -> In (mul a b) H;
  mg_inv : forall a, In a H -> exists b, In b H /\ mul a b = one /\ mul b a = one;
  mg_nodup : NoDup H
}.
Fixpoint pow (g : M) (n : nat) : M := match n with O => one | S n => mul g (pow g n) end.
Lemma pow_add g a b : pow g (a + b) = mul (pow g a) (pow g b).
Proof. induction a as [|a IH]; cbn; [now rewrite one_l|]. now rewrite IH, assoc. Qed.
Lemma cyclic g n : 0 < n -> pow g n = one -> (forall i, 0 < i < n -> pow g i <> one) -> mgrp (map (pow g) (seq 0 n)).
Proof.
  intros N E P.
  assert (Y : forall q, pow g (n * q) = one).
  { induction q as [|q IH]; [now rewrite Nat.mul_0_r|]. replace (n * S q) with (n + n * q) by lia. now rewrite pow_add, E, IH, one_l. }
  assert (X : forall k, pow g (k mod n) = pow g k).
  { intros k. rewrite (Nat.div_mod k n) at 2 by lia. rewrite pow_add, Y. now rewrite one_l. }
  assert (I : forall k, In (pow g k) (map (pow g) (seq 0 n))).
  { intros k. rewrite <- X. apply in_map, in_seq. pose proof (Nat.mod_upper_bound k n). lia. }
  constructor.
  - exact (I 0).
  - intros a b Ha Hb. apply in_map_iff in Ha, Hb. destruct Ha as (i & <- & _), Hb as (j & <- & _). rewrite <- pow_add. apply I.
  - intros a Ha. apply in_map_iff in Ha. destruct Ha as (i & <- & Hi%in_seq). exists (pow g (n - i)). split; [apply I|].
    rewrite <- !pow_add. replace (i + (n - i)) with n by lia. replace (n - i + i) with n by lia. now split.
  - assert (D : forall i j, i < j -> j < n -> pow g i <> pow g j).
    { intros i j L L' Q. apply (P (j - i)); [lia|].
      transitivity (mul (pow g (n - i)) (pow g j)); [rewrite <- pow_add; replace (n - i + j) with (n + (j - i)) by lia; now rewrite pow_add, E, one_l|].
      rewrite <- Q, <- pow_add. now replace (n - i + i) with n by lia. }
    apply NoDup_nth with (d := one). rewrite map_length, seq_length. intros i j Hi Hj Q.
    assert (NT : forall k, k < n -> nth k (map (pow g) (seq 0 n)) one = pow g k).
    { intros k Hk. rewrite (nth_indep _ one (pow g 0)) by (rewrite map_length, seq_length; lia). rewrite map_nth, seq_nth by lia. reflexivity. }
    rewrite !NT in Q by assumption.
    destruct (Nat.lt_trichotomy i j) as [L|[L|L]]; [destruct (D i j L Hj Q)|exact L|destruct (D j i L Hi (eq_sym Q))].
Qed.
(** a group and one coset *)
Lemma extend H a : mgrp H -> In (mul a a) H -> (forall h, In h H -> exists h', In h' H /\ mul h a = mul a h') -> ~ In a H ->
  mgrp (H ++ map (mul a) H).
Proof.
  intros [O C I N] Q X Y.
  destruct (I _ Q) as (k & Hk & K1 & K2).
  assert (KA : mul k a = mul a k).
  { transitivity (mul (mul k (mul a (mul a a))) k); [rewrite <- !assoc, (assoc a a k), K1; now rewrite one_r|]. rewrite (assoc a a a), (assoc k (mul a a) a), K2. now rewrite one_l. }
  assert (INV : mul a (mul a k) = one) by now rewrite assoc.
  assert (INV' : mul (mul a k) a = one) by (rewrite <- assoc, KA; exact INV).
  constructor.
  - apply in_or_app. now left.
  - intros x y Hx Hy. rewrite in_app_iff in *. rewrite in_map_iff in *. destruct Hx as [Hx|(h & <- & Hx)], Hy as [Hy|(h' & <- & Hy)].
    + left. auto.
    + right. destruct (X _ Hx) as (h'' & H'' & E). exists (mul h'' h'). split; [|auto]. rewrite !assoc. now rewrite E.
    + right. exists (mul h y). split; [now rewrite assoc|auto].
    + left. destruct (X _ Hx) as (h'' & H'' & E). rewrite <- assoc, (assoc h a h'), E, <- assoc, assoc. auto.
  - intros x Hx. rewrite in_app_iff, in_map_iff in Hx. destruct Hx as [Hx|(h & <- & Hx)].
    + destruct (I _ Hx) as (y & Hy & E). exists y. rewrite in_app_iff. auto.
    + destruct (I _ Hx) as (y & Hy & E & E'). destruct (X _ Hy) as (h'' & H'' & F). exists (mul a (mul h'' k)). split; [|split].
      * rewrite in_app_iff, in_map_iff. right. exists (mul h'' k). auto.
      * rewrite (assoc a h'' k), <- F, <- !assoc, (assoc h y), E, one_l. exact INV.
      * rewrite (assoc a h'' k), <- F, <- !assoc, (assoc k a h), KA, <- assoc, (assoc a a), (assoc (mul a a) k h), K1, one_l. exact E'.
  - pose proof I as I'. assert (CAN : forall x y, mul a x = mul a y -> x = y).
    { intros x y E. rewrite <- (one_l x), <- INV', <- assoc, E, assoc, INV', one_l. reflexivity. }
    apply NoDup_app_in; [exact N|now apply Injective_map_NoDup|].
    intros x Hx Hx'. rewrite in_map_iff in Hx'. destruct Hx' as (h & E & Hh). subst x. apply Y.
    destruct (I' _ Hh) as (y & Hy & E & _). replace a with (mul (mul a h) y) by (rewrite <- assoc, E; apply one_r). auto.
Qed.
End Monoid.
