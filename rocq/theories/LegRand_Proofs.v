(** * Proofs for C122 *)
From Coq Require Import List Bool Arith ZArith Lia Reals Lra.
From Verif Require Import Base LegRand_Model.
Import ListNotations.
Open Scope nat_scope.

Section Gen.
Variable state : Type.
Variable start : Z -> state.
Variable draw : state -> Z * state.

Lemma draws_length n s : length (draws state draw n s) = n.
Proof. revert s. induction n; intros s; cbn; [reflexivity|now rewrite IHn]. Qed.
Lemma draws_nth n : forall m s r, r < n -> r < m ->
  nth r (draws state draw n s) 0%Z = nth r (draws state draw m s) 0%Z.
Proof.
  induction n; intros m s r H1 H2; [lia|]. destruct m; [lia|]. cbn. destruct r; [reflexivity|].
  apply IHn; lia.
Qed.
Lemma given r n z s s' : seed_of state start draw r n (Some z) s = seed_of state start draw r n (Some z) s'.
Proof. reflexivity. Qed.
Lemma more_nodes r n m sd s : r < n -> r < m ->
  seed_of state start draw r n sd s = seed_of state start draw r m sd s.
Proof. intros H1 H2. unfold seed_of. f_equal. now apply draws_nth. Qed.

Lemma in_range M : (forall s, (0 <= fst (draw s) < M)%Z) -> forall n s x, In x (draws state draw n s) -> (0 <= x < M)%Z.
Proof. intros H n. induction n; intros s x Hi; [contradiction|]. cbn in Hi. destruct Hi as [<-|Hi]; eauto. Qed.
Lemma crowded M n z s : (forall s, (0 <= fst (draw s) < M)%Z) -> (M < Z.of_nat n)%Z ->
  exists r r', r < r' < n /\
    seed_of state start draw r n (Some z) s = seed_of state start draw r' n (Some z) s.
Proof.
  intros B L. pose proof (B (start z)) as B0. set (l := draws state draw n (start z)).
  assert (~ NoDup (map Z.to_nat l)) as Nd.
  { intros H. assert (length (map Z.to_nat l) <= length (seq 0 (Z.to_nat M))) as Hl.
    { apply NoDup_incl_length; [exact H|]. intros x Hx. apply in_map_iff in Hx. destruct Hx as (y & <- & Hy).
      apply (in_range M B) in Hy. apply in_seq. lia. }
    unfold l in Hl. rewrite map_length, draws_length, seq_length in Hl. lia. }
  assert (~ NoDup l) as Nl.
  { intros H. apply Nd. assert (forall x, In x l -> (0 <= x)%Z) as P by (intros x Hx; apply (in_range M B) in Hx; lia).
    clear -H P. induction H as [|x l Hx H IH]; cbn; constructor.
    - intros Hi. apply in_map_iff in Hi. destruct Hi as (y & E & Hy). apply Hx.
      replace x with y; [exact Hy|]. pose proof (P y (or_intror Hy)). pose proof (P x (or_introl eq_refl)). lia.
    - apply IH. intros; apply P; now right. }
  assert (forall k : list Z, ~ NoDup k -> exists r r', r < r' < length k /\ nth r k 0%Z = nth r' k 0%Z) as D.
  { clear. induction k as [|x k IH]; intros H; [exfalso; apply H; constructor|].
    destruct (in_dec Z.eq_dec x k) as [Hi|Hi].
    - destruct (In_nth k x 0%Z Hi) as (i & Hl & E). exists 0, (S i). cbn. split; [lia|now symmetry].
    - destruct IH as (r & r' & Hr & E); [intros Hk; apply H; now constructor|].
      exists (S r), (S r'). cbn. split; [lia|exact E]. }
  destruct (D l Nl) as (r & r' & Hr & E). exists r, r'. unfold l in *. rewrite draws_length in Hr.
  split; [exact Hr|]. unfold seed_of. now rewrite E.
Qed.
End Gen.

(** the state is a number, seeds are states, the draw is the state *)
Definition g_start (z : Z) : Z := z.
Definition g_draw (s : Z) : Z * Z := (Z.modulo s 4294967296, s + 1)%Z.

Lemma not_propagated : exists s0 s1 : Z,
  ~ exists sd, seed_of Z g_start g_draw 0 2 None s0 = seed_of Z g_start g_draw 0 2 (Some sd) s0 /\
               seed_of Z g_start g_draw 1 2 None s1 = seed_of Z g_start g_draw 1 2 (Some sd) s1.
Proof.
  exists 5%Z, 8%Z. intros (sd & E0 & E1). unfold seed_of, g_start, g_draw in *. cbn [draws nth fst snd] in *.
  change ((5 mod 4294967296) mod 4294967296)%Z with 5%Z in E0.
  change ((8 mod 4294967296 + 1) mod 4294967296)%Z with 9%Z in E1.
  rewrite Z.add_mod, <- E0 in E1 by lia. discriminate E1.
Qed.

(** ** randint *)
Lemma floor_iff y k : Int_part y = k <-> (IZR k <= y < IZR k + 1)%R.
Proof.
  destruct (base_Int_part y) as [H1 H2]. split.
  - intros <-. lra.
  - intros [H3 H4].
    assert (Int_part y < k + 1)%Z by (apply lt_IZR; rewrite plus_IZR; lra).
    assert (k < Int_part y + 1)%Z by (apply lt_IZR; rewrite plus_IZR; lra). lia.
Qed.
Lemma fibre low high x v : (low < high)%Z ->
  randint low high x = v <->
  (IZR (v - low) / IZR (high - low) <= x < IZR (v - low + 1) / IZR (high - low))%R.
Proof.
  intros H. unfold randint. assert (0 < IZR (high - low))%R as P by (apply IZR_lt; lia).
  transitivity (Int_part (x * IZR (high - low)) = v - low)%Z; [lia|]. rewrite floor_iff, plus_IZR.
  split; intros [A B]; split.
  - apply Rmult_le_reg_r with (IZR (high - low)); [exact P|]. unfold Rdiv. rewrite Rmult_assoc, Rinv_l by lra. lra.
  - apply Rmult_lt_reg_r with (IZR (high - low)); [exact P|]. unfold Rdiv. rewrite Rmult_assoc, Rinv_l by lra. lra.
  - apply Rmult_le_compat_r with (r := IZR (high - low)) in A; [|lra].
    unfold Rdiv in A. rewrite Rmult_assoc, Rinv_l in A by lra. lra.
  - apply Rmult_lt_compat_r with (r := IZR (high - low)) in B; [|lra].
    unfold Rdiv in B. rewrite Rmult_assoc, Rinv_l in B by lra. lra.
Qed.
Lemma range low high x : (low < high)%Z -> (0 <= x < 1)%R -> (low <= randint low high x < high)%Z.
Proof.
  intros H [H1 H2]. unfold randint. assert (0 < IZR (high - low))%R as P by (apply IZR_lt; lia).
  destruct (base_Int_part (x * IZR (high - low))) as [A B].
  assert (0 <= x * IZR (high - low))%R by (apply Rmult_le_pos; lra).
  assert (x * IZR (high - low) < 1 * IZR (high - low))%R by (apply Rmult_lt_compat_r; lra).
  assert (0 < Int_part (x * IZR (high - low)) + 1)%Z by (apply lt_IZR; rewrite plus_IZR; lra).
  assert (Int_part (x * IZR (high - low)) < high - low)%Z by (apply lt_IZR; lra). lia.
Qed.
Lemma empty_range low x : randint low low x = low.
Proof.
  unfold randint. rewrite Z.sub_diag, Rmult_0_r. assert (Int_part 0 = 0%Z) as E by (apply floor_iff; lra).
  rewrite E. lia.
Qed.
