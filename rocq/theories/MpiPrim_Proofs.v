From Coq Require Import Decimal DecimalString DecimalFacts DecimalN.
From Coq Require Import String Ascii List ZArith NArith Bool Lia.
From Verif Require Import Base MpiPrim_Model MpiPrim_Spec.
Import ListNotations.
Open Scope nat_scope.

Notation prod l := (fold_right Nat.mul 1 (map fst l)).

(** ** layouts *)
Lemma flat_blocks P n (f : Z -> Z) (s o : Z) :
  flat_map (fun i => map (fun k => (o + Z.of_nat i * (Z.of_nat P * s)) + Z.of_nat k * s)%Z (seq 0 P)) (seq 0 n)
  = map (fun k => o + Z.of_nat k * s)%Z (seq 0 (n * P)).
Proof.
  induction n as [|n IH]; [reflexivity|].
  rewrite seq_S, flat_map_app, IH. cbn [flat_map plus]. rewrite app_nil_r.
  replace (S n * P) with (n * P + P) by lia. rewrite seq_app, map_app. f_equal.
  assert (E : forall a, map (fun k => (o + Z.of_nat n * (Z.of_nat P * s)) + Z.of_nat k * s)%Z (seq a P) = map (fun k => o + Z.of_nat k * s)%Z (seq (n * P + a) P)).
  { clear. induction P as [|P IH] in |- *; intros a; [reflexivity|]. revert a.
    assert (G : forall Q R a b, b = n * R + a -> map (fun k => (o + Z.of_nat n * (Z.of_nat R * s)) + Z.of_nat k * s)%Z (seq a Q) = map (fun k => o + Z.of_nat k * s)%Z (seq b Q)).
    { induction Q as [|Q IQ]; intros R a b E; [reflexivity|]. cbn [seq map]. f_equal; [subst b; nia|]. apply IQ. lia. }
    intros a. apply G. reflexivity. }
  rewrite (E 0). f_equal. f_equal. lia.
Qed.
Lemma nested_outer n s r t : nested ((n, s) :: r) = Some t -> (s = Z.of_nat (prod r) * t)%Z.
Proof.
  revert n s. induction r as [|[n' s'] r IH]; intros n s E.
  - cbn [nested] in E. injection E as ->. cbn [map fst fold_right]. lia.
  - cbn [nested] in E. destruct (Z.eqb_spec s (Z.of_nat n' * s')) as [Es|]; [|discriminate].
    apply (IH n' s') in E. rewrite Es, E. cbn [map fst fold_right]. lia.
Qed.
Lemma nested_tail n s a r t : nested ((n, s) :: a :: r) = Some t -> nested (a :: r) = Some t.
Proof. destruct a as [n' s']. cbn [nested]. destruct (_ =? _)%Z; [auto|discriminate]. Qed.
Lemma nested_spaced ax t : nested ax = Some t -> ax <> [] -> forall o,
  positions ax o = map (fun k => o + Z.of_nat k * t)%Z (seq 0 (prod ax)).
Proof.
  intros E _. revert E. induction ax as [|[n s] r IH]; intros E o.
  - cbn. f_equal. lia.
  - cbn [positions]. pose proof (nested_outer _ _ _ _ E) as Es. cbn [map fst fold_right].
    assert (IH' : forall o', positions r o' = map (fun k => o' + Z.of_nat k * t)%Z (seq 0 (prod r))).
    { intros o'. destruct r as [|a r]; [cbn; f_equal; lia|]. apply IH. exact (nested_tail _ _ _ _ _ E). }
    rewrite Es, <- (flat_blocks (prod r) n (fun x => x)). apply flat_map_ext. intros i. apply IH'.
Qed.
Lemma positions_length ax o : length (positions ax o) = prod ax.
Proof.
  revert o. induction ax as [|[n s] r IH]; intros o; [reflexivity|]. cbn [positions map fst fold_right].
  set (P := prod r) in *. clearbody P. generalize 0. induction n as [|n IHn]; intros a; [reflexivity|]. cbn [seq flat_map]. rewrite app_length, IH, IHn. reflexivity.
Qed.
Lemma spaced_nested ax t o : Forall (fun a => 2 <= fst a) ax -> ax <> [] ->
  positions ax o = map (fun k => o + Z.of_nat k * t)%Z (seq 0 (prod ax)) -> nested ax = Some t.
Proof.
  intros F NE. revert o. induction F as [|[n s] r Hn F IH]; intros o E; [contradiction|]. cbn [fst] in Hn.
  destruct n as [|[|n]]; [lia|lia|].
  assert (Pp : 1 <= prod r). { clear -F. induction F as [|a r H F IH]; cbn; [lia|nia]. }
  cbn [positions seq flat_map map fst fold_right] in E.
  assert (E1 : positions r (o + Z.of_nat 0 * s) = map (fun k => o + Z.of_nat k * t)%Z (seq 0 (prod r))).
  { apply (f_equal (firstn (prod r))) in E. rewrite firstn_app, positions_length, Nat.sub_diag in E. cbn [firstn] in E.
    rewrite app_nil_r, firstn_all2 in E by (rewrite positions_length; lia). rewrite E, firstn_map. f_equal.
    replace (S (S n) * prod r) with (prod r + S n * prod r) by lia. rewrite seq_app, firstn_app, seq_length, Nat.sub_diag.
    cbn [firstn]. rewrite app_nil_r, firstn_all2 by (rewrite seq_length; lia). reflexivity. }
  assert (Es : (s = Z.of_nat (prod r) * t)%Z).
  { apply (f_equal (fun l => nth (prod r) l 0%Z)) in E. rewrite app_nth2 in E by (rewrite positions_length; lia).
    rewrite positions_length, Nat.sub_diag in E. rewrite app_nth1 in E by (rewrite positions_length; lia).
    rewrite (nth_indep _ 0%Z (o + Z.of_nat 0 * t)%Z) in E by (rewrite positions_length; lia).
    rewrite (nth_indep _ 0%Z (o + Z.of_nat 0 * t)%Z) in E by (rewrite map_length, seq_length; nia).
    rewrite (map_nth (fun k => o + Z.of_nat k * t)%Z), seq_nth in E by nia.
    assert (H0 : forall ax o' d, 1 <= prod ax -> nth 0 (positions ax o') d = o').
    { clear. induction ax as [|[m u] ax IHa]; intros o' d H; [reflexivity|]. cbn [positions map fst fold_right] in *.
      destruct m as [|m]; [lia|]. cbn [seq flat_map]. rewrite app_nth1 by (rewrite positions_length; nia). rewrite IHa by nia. lia. }
    rewrite H0 in E by lia. lia. }
  replace (o + Z.of_nat 0 * s)%Z with o in E1 by lia.
  destruct r as [|[n' s'] r]; [cbn [nested]; cbn [map fst fold_right] in Es; f_equal; lia|].
  pose proof (IH ltac:(discriminate) o E1) as IN. cbn [nested]. pose proof (nested_outer _ _ _ _ IN) as E'.
  destruct (Z.eqb_spec s (Z.of_nat n' * s')) as [|N]; [exact IN|]. destruct N. rewrite Es, E'. cbn [map fst fold_right]. lia.
Qed.
(** axes of size one do not matter *)
Notation proper ax := (filter (fun a : nat * Z => negb (fst a =? 1)) ax).
Lemma positions_proper ax o : positions (proper ax) o = positions ax o.
Proof.
  revert o. induction ax as [|[n s] r IH]; intros o; [reflexivity|]. cbn [filter fst]. destruct (Nat.eqb_spec n 1) as [->|]; cbn [negb positions seq flat_map].
  - rewrite app_nil_r, IH. f_equal. lia.
  - apply flat_map_ext. intros i. apply IH.
Qed.
Lemma prod_proper ax : prod (proper ax) = prod ax.
Proof. induction ax as [|[n s] r IH]; [reflexivity|]. cbn [filter fst]. destruct (Nat.eqb_spec n 1) as [->|]; cbn [negb map fst fold_right]; lia. Qed.
Lemma proper_two ax : prod ax <> 0 -> Forall (fun a => 2 <= fst a) (proper ax).
Proof.
  induction ax as [|[n s] r IH]; intros P; [constructor|]. cbn [map fst fold_right filter] in *. 
  destruct (Nat.eqb_spec n 1); cbn [negb]; [apply IH; nia|]. constructor; [cbn; nia|apply IH; nia].
Qed.
Lemma proper_none ax : proper ax = [] -> prod ax = 1.
Proof. rewrite <- prod_proper. intros ->. reflexivity. Qed.

Lemma flatten_window v o s n : flatten v = Window o s n -> size v <> 0 -> spaced s v /\ o = offset v /\ n = size v.
Proof.
  unfold flatten. intros E Hs. destruct (Nat.eqb_spec (size v) 0); [contradiction|].
  destruct (nested (proper (axes v))) as [t|] eqn:N; [|discriminate]. injection E as <- <- <-. split; [|auto].
  unfold spaced. rewrite <- positions_proper. unfold size. rewrite <- prod_proper.
  destruct (proper (axes v)) as [|a r] eqn:P; [cbn; f_equal; lia|]. apply nested_spaced; [exact N|discriminate].
Qed.
Lemma flatten_spaced v s : 2 <= size v -> spaced s v -> flatten v = Window (offset v) s (size v).
Proof.
  intros Hs E. unfold flatten. destruct (Nat.eqb_spec (size v) 0); [lia|].
  unfold spaced in E. rewrite <- positions_proper in E. unfold size in *. rewrite <- prod_proper in E at 1.
  rewrite (spaced_nested (proper (axes v)) s (offset v)); [reflexivity|apply proper_two; lia| |exact E].
  intros P. apply proper_none in P. lia.
Qed.
Lemma buffer_fit v : consecutive v -> writable v = true -> the_buffer v = Ok (InPlace (offset v) (size v)).
Proof.
  intros C Wr. unfold the_buffer. destruct (le_lt_dec 2 (size v)) as [H|H].
  - rewrite (flatten_spaced v 1 H C). cbn [negb Z.eqb]. rewrite andb_false_r, Wr. reflexivity.
  - unfold flatten. destruct (Nat.eqb_spec (size v) 0) as [E|E].
    + rewrite E. cbn [Nat.leb andb]. rewrite Wr. reflexivity.
    + assert (S1 : size v = 1) by lia. destruct (nested (proper (axes v))) as [t|] eqn:N.
      * rewrite S1. cbn [Nat.leb andb]. rewrite Wr. reflexivity.
      * exfalso. assert (P : proper (axes v) = []).
        { pose proof (proper_two (axes v) E) as F. unfold size in S1. rewrite <- prod_proper in S1. destruct (proper (axes v)) as [|a r]; [reflexivity|].
          exfalso. inversion F; subst. cbn [map fold_right] in S1. apply Nat.eq_mul_1 in S1. lia. }
        rewrite P in N. discriminate.
Qed.
Lemma buffer_strided v s : 2 <= size v -> spaced s v -> s <> 1%Z -> the_buffer v = Err ValueError.
Proof.
  intros H C N. unfold the_buffer. rewrite (flatten_spaced v s H C).
  destruct (Nat.leb_spec 2 (size v)); [|lia]. destruct (Z.eqb_spec s 1); [contradiction|reflexivity].
Qed.
Lemma buffer_lost v : (forall s, ~ spaced s v) -> the_buffer v = Ok Temporary.
Proof.
  intros N. unfold the_buffer. destruct (flatten v) as [o s n|n] eqn:F; [|reflexivity]. exfalso.
  destruct (Nat.eq_dec (size v) 0) as [E|E].
  - apply (N 0%Z). unfold spaced. rewrite E. cbn. apply length_zero_iff_nil. rewrite positions_length. exact E.
  - destruct (flatten_window v o s n F E) as [Sp _]. exact (N s Sp).
Qed.
Lemma buffer_readonly v : consecutive v -> writable v = false -> the_buffer v = Err ValueError.
Proof.
  intros C Wr. destruct v as [o ax wr]. cbn in Wr. subst wr.
  pose proof (buffer_fit (View o ax true) C eq_refl) as E. unfold the_buffer in E |- *.
  change (flatten (View o ax true)) with (flatten (View o ax false)) in E. destruct (flatten (View o ax false)) as [o' s n|n]; [|discriminate].
  destruct (_ && _); [discriminate|]. reflexivity.
Qed.
Lemma the_buffer_err v e : the_buffer v = Err e -> e = ValueError.
Proof. unfold the_buffer. destruct (flatten v); [|discriminate]. destruct (_ && _); [intros E; injection E as <-; reflexivity|]. destruct (writable v); [discriminate|]. intros E; injection E as <-; reflexivity. Qed.
Lemma new_consecutive o shape wr : consecutive (View o (c_strides shape) wr) /\ size (View o (c_strides shape) wr) = fold_right Nat.mul 1 shape.
Proof.
  assert (P : forall sh, prod (c_strides sh) = fold_right Nat.mul 1 sh) by (induction sh as [|n sh IH]; [reflexivity|]; cbn; rewrite <- IH; reflexivity).
  split; [|apply P]. unfold consecutive, spaced, size. cbn [axes offset]. rewrite P. revert o.
  induction shape as [|n sh IH]; intros o; [cbn; f_equal; lia|]. cbn [c_strides positions fold_right].
  rewrite <- (flat_blocks (fold_right Nat.mul 1 sh) n (fun x => x)). apply flat_map_ext. intros i. rewrite IH. apply map_ext. intros k. lia.
Qed.
