(** * Proofs: the law of the particles when no site can be full before the end *)
From Coq Require Import ZArith QArith List Bool Reals Permutation Factorial Lra Lia.
From Verif Require Import Base BaseFacts Hilbert_Model Hilbert_Spec Hilbert_Proofs HilbertOps_Model HilbertOps_Spec HilbertOps_Proofs Balance_Spec Balance_Proofs Rules_Spec Unif_Model Unif_Spec Unif_Proofs Unif_Fill Unif_Main.
Import ListNotations.
Open Scope R_scope.

Definition dif (out x : list Z) (j : nat) : nat := Z.to_nat (nth j x 0 - nth j out 0)%Z.
Fixpoint rprod (f : nat -> R) (l : list nat) : R := match l with [] => 1 | j :: l => f j * rprod f l end.
Definition facts (out x : list Z) (l : list nat) : R := rprod (fun j => INR (fact (dif out x j))) l.

Lemma rprod_ext f g l : (forall j, In j l -> f j = g j) -> rprod f l = rprod g l.
Proof. induction l as [|a l IH]; intros H; cbn; [reflexivity|]. rewrite (H a) by (left; reflexivity). rewrite IH by (intros j Hj; apply H; right; exact Hj). reflexivity. Qed.
Lemma rprod_one l : rprod (fun _ => 1) l = 1.
Proof. induction l as [|a l IH]; cbn [rprod]; [reflexivity|]. rewrite IH. ring. Qed.
Lemma facts_neq out x l : facts out x l <> 0.
Proof. unfold facts. induction l as [|a l IH]; cbn; [lra|]. apply Rmult_integral_contrapositive_currified; [apply INR_fact_neq_0|exact IH]. Qed.

Lemma dif_other out x s v j : j <> s -> dif (upd out s v) x j = dif out x j.
Proof. intros H. unfold dif. rewrite nth_upd_other by congruence. reflexivity. Qed.
Lemma dif_same out x s : (s < length out)%nat -> dif (upd out s (nth s out 0 + 1)%Z) x s = (dif out x s - 1)%nat.
Proof. intros H. unfold dif. rewrite nth_upd_same by exact H. lia. Qed.

Lemma facts_upd out x s l : NoDup l -> In s l -> (s < length out)%nat -> (0 < dif out x s)%nat ->
  facts out x l = INR (dif out x s) * facts (upd out s (nth s out 0 + 1)%Z) x l.
Proof.
  intros Hn Hi Hs Hd. unfold facts. induction l as [|a l IH]; [destruct Hi|]. inversion Hn as [|? ? Ha Hl]; subst. cbn [rprod].
  destruct (Nat.eq_dec a s) as [->|Hne].
  - rewrite (dif_same out x s Hs). rewrite (rprod_ext (fun j => INR (fact (dif (upd out s (nth s out 0 + 1)%Z) x j))) (fun j => INR (fact (dif out x j)))).
    + destruct (dif out x s) as [|k]; [lia|]. replace (S k - 1)%nat with k by lia. change (fact (S k)) with (S k * fact k)%nat. rewrite mult_INR. ring.
    + intros j Hj. rewrite dif_other by (intros ->; contradiction). reflexivity.
  - destruct Hi as [|Hi]; [congruence|]. rewrite IH by assumption. rewrite (dif_other out x s _ a) by exact Hne. ring.
Qed.

Lemma fill_mono step full n : (0 <= step)%Z -> forall sites out x j, (forall k, In k sites -> (k < length out)%nat) -> (nth j x 0 < nth j out 0)%Z ->
  prob (fill_prog step full n sites out) x = 0.
Proof.
  intros Hst. induction n as [|n IH]; intros sites out x j Hsi Hx.
  - unfold prob. cbn. destruct (cfg_eqd out x) as [->|]; [lia|reflexivity].
  - destruct sites as [|s0 sites]; [reflexivity|]. rewrite fill_step_prog. unfold prob. cbn [expect].
    rewrite rsum_zero; [ring|]. intros s Hs. apply in_seq in Hs. cbv zeta.
    set (k := nth s (s0 :: sites) O). assert (Hk : In k (s0 :: sites)) by (apply nth_In; lia).
    apply (IH _ _ x j).
    + rewrite upd_length. match goal with |- context [if ?b then _ else _] => destruct b end; intros q Hq; apply Hsi; [exact (del_incl _ _ _ Hq)|exact Hq].
    + destruct (Nat.eq_dec j k) as [->|Hj]; [rewrite nth_upd_same by (apply Hsi, Hk); lia|rewrite nth_upd_other by congruence; exact Hx].
Qed.

Lemma fill_multi m N : forall n out x, length out = N -> length x = N ->
  (forall j, (j < N)%nat -> nth j out 0 + Z.of_nat n <= m)%Z -> (forall j, (j < N)%nat -> nth j out 0 <= nth j x 0)%Z ->
  rsum (fun j => INR (dif out x j)) (seq 0 N) = INR n ->
  prob (fill_prog 1 (fun z => z =? m)%Z n (seq 0 N) out) x = INR (fact n) / facts out x (seq 0 N) * (/ INR N) ^ n.
Proof.
  induction n as [|n IH]; intros out x Ho Hx Hm Hle Hsum.
  - assert (Z0 : forall j, (j < N)%nat -> dif out x j = 0%nat).
    { intros j Hj. destruct (dif out x j) as [|k] eqn:E; [reflexivity|]. exfalso.
      assert (0 < rsum (fun j => INR (dif out x j)) (seq 0 N)); [|rewrite Hsum in *; cbn in *; lra].
      apply (rsum_one_pos _ _ j); [intros; apply pos_INR|apply in_seq; lia|]. rewrite E. apply lt_0_INR. lia. }
    assert (E : out = x).
    { apply (nth_ext _ _ 0%Z 0%Z); [congruence|]. intros j Hj. rewrite Ho in Hj. specialize (Z0 j Hj). specialize (Hle j Hj). unfold dif in Z0. lia. }
    assert (F : facts out x (seq 0 N) = 1).
    { unfold facts. rewrite (rprod_ext _ (fun _ => 1)); [apply rprod_one|].
      intros j Hj. apply in_seq in Hj. rewrite Z0 by lia. reflexivity. }
    rewrite F. subst x. unfold prob. cbn. destruct (cfg_eqd out out); [field|congruence].
  - destruct N as [|N']; [exfalso; cbn [seq rsum] in Hsum; symmetry in Hsum; revert Hsum; apply not_0_INR; lia|].
    set (N := S N') in *. assert (HN : (0 < N)%nat) by (unfold N; lia).
    change (seq 0 N) with (0%nat :: seq 1 N') at 1. rewrite fill_step_prog. change (0%nat :: seq 1 N') with (seq 0 N).
    unfold prob. cbn [expect]. cbv zeta. rewrite seq_length.
    rewrite (rsum_ext _ (fun s => (INR (fact n) / facts out x (seq 0 N) * (/ INR N) ^ n) * INR (dif out x s))).
    + rewrite rsum_scal, Hsum. change (fact (S n)) with (S n * fact n)%nat. rewrite mult_INR. cbn [pow].
      field. split; [apply not_0_INR; lia|apply facts_neq].
    + intros s Hs. apply in_seq in Hs. rewrite seq_nth by lia. cbn [Nat.add].
      rewrite nth_upd_same by lia.
      assert (E : fill_prog 1 (fun z => z =? m)%Z n (if (nth s out 0 + 1 =? m)%Z then del s (seq 0 N) else seq 0 N) (upd out s (nth s out 0 + 1)%Z)
                = fill_prog 1 (fun z => z =? m)%Z n (seq 0 N) (upd out s (nth s out 0 + 1)%Z)).
      { destruct (Z.eqb_spec (nth s out 0%Z + 1) m) as [Ef|]; [|reflexivity]. specialize (Hm s ltac:(lia)).
        assert (n = 0%nat) as -> by lia. reflexivity. }
      rewrite E. clear E. fold (prob (fill_prog 1 (fun z => z =? m)%Z n (seq 0 N) (upd out s (nth s out 0 + 1)%Z)) x).
      destruct (dif out x s) as [|k] eqn:Ed.
      * rewrite (fill_mono 1 _ n ltac:(lia) _ _ _ s).
        -- cbn [INR]. ring.
        -- intros j Hj. apply in_seq in Hj. rewrite upd_length. lia.
        -- rewrite nth_upd_same by lia. specialize (Hle s ltac:(lia)). unfold dif in Ed. lia.
      * assert (Fu := facts_upd out x s (seq 0 N) (seq_NoDup _ _) ltac:(apply in_seq; lia) ltac:(lia) ltac:(lia)).
        rewrite IH.
        -- rewrite Fu, Ed. field. repeat first [apply facts_neq|apply not_0_INR; lia|split].
        -- rewrite upd_length. exact Ho.
        -- exact Hx.
        -- intros j Hj. specialize (Hm j Hj). destruct (Nat.eq_dec j s) as [->|]; [rewrite nth_upd_same by lia|rewrite nth_upd_other by congruence]; lia.
        -- intros j Hj. specialize (Hle j Hj). destruct (Nat.eq_dec j s) as [->|]; [rewrite nth_upd_same by lia; unfold dif in Ed; lia|rewrite nth_upd_other by congruence; lia].
        -- assert (G : rsum (fun j => INR (dif out x j)) (seq 0 N) = rsum (fun j => INR (dif (upd out s (nth s out 0 + 1)%Z) x j)) (seq 0 N) + 1).
           { rewrite <- (rsum_delta Nat.eq_dec (fun _ => 1) s (seq 0 N) (seq_NoDup _ _) ltac:(apply in_seq; lia)), <- rsum_plus.
             apply rsum_ext. intros j Hj. destruct (Nat.eq_dec j s) as [->|Hne].
             - rewrite dif_same, Ed by lia. replace (S k - 1)%nat with k by lia. rewrite S_INR. ring.
             - rewrite dif_other by exact Hne. ring. }
           rewrite Hsum, S_INR in G. lra.
Qed.

Lemma rsum_shift (f : nat -> R) n : forall k, rsum f (seq (S k) n) = rsum (fun j => f (S j)) (seq k n).
Proof. induction n as [|n IH]; intros k; cbn; [reflexivity|]. rewrite IH. reflexivity. Qed.
Lemma rprod_shift (f : nat -> R) n : forall k, rprod f (seq (S k) n) = rprod (fun j => f (S j)) (seq k n).
Proof. induction n as [|n IH]; intros k; cbn; [reflexivity|]. rewrite IH. reflexivity. Qed.

Lemma sum_occ x : (forall z, In z x -> (0 <= z)%Z) -> rsum (fun j => INR (Z.to_nat (nth j x 0%Z))) (seq 0 (length x)) = IZR (zsum x).
Proof.
  induction x as [|a x IH]; intros H; [reflexivity|]. cbn [length seq rsum nth]. rewrite rsum_shift. cbn [nth]. rewrite IH by (intros; apply H; right; assumption).
  change (zsum (a :: x)) with (a + zsum x)%Z. rewrite plus_IZR. f_equal. rewrite INR_IZR_INZ, Z2Nat.id by (apply H; left; reflexivity). reflexivity.
Qed.
Lemma prod_occ x : rprod (fun j => INR (fact (Z.to_nat (nth j x 0%Z)))) (seq 0 (length x)) = occ_facts x.
Proof.
  induction x as [|a x IH]; [reflexivity|]. cbn [length seq rprod nth occ_facts]. rewrite rprod_shift. cbn [nth]. rewrite IH. reflexivity.
Qed.

Lemma multinomial_thm n_max N p id h x : mk_Fock n_max N (Some p) id = Ok h -> (0 < N)%nat ->
  (match n_max with Some m => p <= m | None => True end)%Z -> config h x ->
  prob (random_state h) x = INR (fact (Z.to_nat p)) / occ_facts x * (/ INR N) ^ Z.to_nat p.
Proof.
  intros E HN Hp C. destruct (mk_Fock_constrained _ _ _ _ _ E HN) as (m & Eh & Hp1 & Hm1).
  assert (Hpm : (p <= m)%Z).
  { clear C. subst h. revert E. unfold mk_Fock. destruct n_max as [m'|]; cbn [bind];
    repeat match goal with |- context [if ?b then _ else _] => destruct b eqn:?; cbn [bind]; try discriminate end; intros E; injection E; intros; subst; lia. }
  subst h. pose proof (proj1 (config_Fock_iff _ _ _ _) C) as (L & V & Sm). specialize (Sm p id eq_refl).
  cbn [random_state]. unfold fock_fill.
  assert (V0 : forall z, In z x -> (0 <= z)%Z) by (intros z Hz; apply V, Hz).
  assert (D : forall j, dif (repeat 0%Z N) x j = Z.to_nat (nth j x 0%Z)) by (intros j; unfold dif; rewrite nth_repeat; f_equal; lia).
  rewrite fill_multi.
  - unfold facts. rewrite (rprod_ext _ (fun j => INR (fact (Z.to_nat (nth j x 0%Z))))) by (intros j _; rewrite D; reflexivity).
    rewrite <- L at 1. rewrite prod_occ. reflexivity.
  - apply repeat_length.
  - exact L.
  - intros j Hj. rewrite nth_repeat. lia.
  - intros j Hj. rewrite nth_repeat. apply V0, nth_In. lia.
  - rewrite (rsum_ext _ (fun j => INR (Z.to_nat (nth j x 0%Z)))) by (intros j _; rewrite D; reflexivity).
    rewrite <- L, sum_occ by exact V0. rewrite Sm, INR_IZR_INZ, Z2Nat.id by lia. reflexivity.
Qed.

Lemma occ_zeros k : occ_facts (repeat 0%Z k) = 1.
Proof. induction k as [|k IH]; cbn [repeat occ_facts]; [reflexivity|]. rewrite IH. change (INR (fact (Z.to_nat 0))) with 1. ring. Qed.
Lemma zsum_zeros k : zsum (repeat 0%Z k) = 0%Z.
Proof. induction k as [|k IH]; [reflexivity|]. cbn [repeat]. change (0 + zsum (repeat 0%Z k) = 0)%Z. rewrite IH. reflexivity. Qed.

Lemma not_uniform_thm n_max N p id h : mk_Fock n_max (S (S N)) (Some p) id = Ok h -> (2 <= p)%Z ->
  (match n_max with Some m => p <= m | None => True end)%Z ->
  exists x y, config h x /\ config h y /\ prob (random_state h) y = IZR p * prob (random_state h) x.
Proof.
  intros E Hp Hpm. exists (p :: 0%Z :: repeat 0%Z N), ((p - 1)%Z :: 1%Z :: repeat 0%Z N).
  destruct (mk_Fock_constrained _ _ _ _ _ E ltac:(lia)) as (m & Eh & Hp1 & Hm1).
  assert (Hm : (p <= m)%Z).
  { subst h. revert E. unfold mk_Fock. destruct n_max as [m'|]; cbn [bind];
    repeat match goal with |- context [if ?b then _ else _] => destruct b eqn:?; cbn [bind]; try discriminate end; intros E; injection E; intros; subst; try lia. }
  assert (C1 : config h (p :: 0%Z :: repeat 0%Z N)).
  { subst h. apply config_Fock_iff. split; [cbn; rewrite repeat_length; reflexivity|]. split.
    - intros z [<-|[<-|Hz]]; [lia|lia|apply repeat_spec in Hz; lia].
    - intros p' id' Ep. injection Ep as <- <-. change (p + (0 + zsum (repeat 0%Z N)) = p)%Z. rewrite zsum_zeros. lia. }
  assert (C2 : config h ((p - 1)%Z :: 1%Z :: repeat 0%Z N)).
  { subst h. apply config_Fock_iff. split; [cbn; rewrite repeat_length; reflexivity|]. split.
    - intros z [<-|[<-|Hz]]; [lia|lia|apply repeat_spec in Hz; lia].
    - intros p' id' Ep. injection Ep as <- <-. change (p - 1 + (1 + zsum (repeat 0%Z N)) = p)%Z. rewrite zsum_zeros. lia. }
  split; [exact C1|]. split; [exact C2|].
  rewrite !(multinomial_thm _ _ _ _ _ _ E ltac:(lia) Hpm) by assumption. cbn [occ_facts]. rewrite occ_zeros.
  destruct (Z.to_nat p) as [|k] eqn:Ek; [lia|]. replace (Z.to_nat (p - 1)) with k by lia.
  change (INR (fact (Z.to_nat 0))) with 1. change (INR (fact (Z.to_nat 1))) with 1.
  assert (Ep : IZR p = INR (S k)) by (rewrite INR_IZR_INZ; f_equal; lia). rewrite Ep.
  change (fact (S k)) with (S k * fact k)%nat. rewrite mult_INR. generalize ((/ INR (S (S N))) ^ S k). intros w.
  field. split; [apply INR_fact_neq_0|apply not_0_INR; lia].
Qed.
