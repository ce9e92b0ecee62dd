From Coq Require Import List Arith ZArith Lia Bool Reals Lra.
From Verif Require Import Base Rings ARNN_Model ARNN_Proofs ToArray_Model Estim_Model Estim_Spec Estim_Proofs
  Balance_Spec Balance_Proofs LegQsr_Model LegQsr_Spec LegQsr_Proofs LegQsr_Step LegQsr_Final LegQsr_Nll
  LegVmc_Model LegVmc_Spec LegVmc_Proofs LegVmc_Mean.
Import ListNotations.
Open Scope R_scope.

(** ** independent samples *)
Lemma expected_pair {X} (O : list (R * X)) (h k : X -> nat) (a b : nat -> R) M :
  Forall (fun o => (h (snd o) < M)%nat /\ (k (snd o) < M)%nat) O ->
  rsum (fun o => fst o * (a (h (snd o)) * b (k (snd o)))) O
  = rsum (fun s => rsum (fun t => probability O (fun w => (h w =? s)%nat && (k w =? t)%nat) * (a s * b t)) (seq 0 M)) (seq 0 M).
Proof.
  intros F. unfold probability.
  rewrite (rsum_ext (fun s => rsum (fun t => _ * (a s * b t)) (seq 0 M))
    (fun s => rsum (fun o => rsum (fun t => (if (h (snd o) =? s)%nat && (k (snd o) =? t)%nat then fst o else 0) * (a s * b t)) (seq 0 M)) O)).
  2:{ intros s _. rewrite rsum_swap. apply rsum_ext. intros t _. rewrite Rmult_comm, <- rsum_scal. apply rsum_ext. intros o _. ring. }
  rewrite rsum_swap. apply rsum_ext. intros o Ho. rewrite Forall_forall in F. destruct (F o Ho) as [H1 H2].
  rewrite (rsum_ext _ (fun s => (fst o * (a s * b (k (snd o)))) * (if Nat.eq_dec s (h (snd o)) then 1 else 0))).
  - rewrite (rsum_delta Nat.eq_dec (fun s => fst o * (a s * b (k (snd o))))); [reflexivity|apply seq_NoDup|apply in_seq; lia].
  - intros s _. destruct (Nat.eq_dec s (h (snd o))) as [->|Hs].
    + rewrite Nat.eqb_refl. cbn [andb].
      rewrite (rsum_ext _ (fun t => (fst o * (a (h (snd o)) * b t)) * (if Nat.eq_dec t (k (snd o)) then 1 else 0))).
      * rewrite (rsum_delta Nat.eq_dec (fun t => fst o * (a (h (snd o)) * b t))); [ring|apply seq_NoDup|apply in_seq; lia].
      * intros t _. destruct (Nat.eqb_spec (k (snd o)) t), (Nat.eq_dec t (k (snd o))); subst; try contradiction; try ring; congruence.
    + rewrite (rsum_ext _ (fun _ => 0)); [rewrite rsum_cst; ring|]. intros t _.
      destruct (Nat.eqb_spec (h (snd o)) s); [congruence|]. cbn [andb]. ring.
Qed.
Lemma expected_one {X} (O : list (R * X)) (h : X -> nat) (a : nat -> R) M : Forall (fun o => (h (snd o) < M)%nat) O ->
  rsum (fun o => fst o * a (h (snd o))) O = rsum (fun s => probability O (fun w => (h w =? s)%nat) * a s) (seq 0 M).
Proof. exact (expected_value 1 1 1 ltac:(lia) ltac:(lia) ltac:(lia) O h a M). Qed.

Section Random.
  Variables (N total : nat) (log_psi : nat -> cpx) (O : list (R * list batches)).
  Hypothesis HT : (0 < total)%nat.
  Hypothesis HL : Forall (fun o => length (all_of (snd o)) = total /\ Forall (fun s => (s < N)%nat) (all_of (snd o))) O.
  Hypothesis HI : independent N total log_psi O.
  Notation bm := (born_mean N log_psi).
  Lemma position_lt o i : In o O -> (i < total)%nat -> (position i (snd o) < N)%nat.
  Proof.
    intros Ho Hi. rewrite Forall_forall in HL. destruct (HL o Ho) as [L F]. rewrite Forall_forall in F.
    apply F, nth_In. lia.
  Qed.
  Lemma average_position (f : nat -> R) o : In o O ->
    average f (all_of (snd o)) = average (fun i => f (position i (snd o))) (seq 0 total).
  Proof.
    intros Ho. rewrite Forall_forall in HL. destruct (HL o Ho) as [L _]. rewrite (average_nth f _ 0%nat), L. reflexivity.
  Qed.
  Lemma seq_nonempty : seq 0 total <> [].
  Proof. destruct total; [lia|discriminate]. Qed.
  Lemma expected_average (f : nat -> R) : rsum (fun o => fst o * average f (all_of (snd o))) O = bm f.
  Proof.
    rewrite (rsum_ext _ (fun o => fst o * average (fun i => f (position i (snd o))) (seq 0 total)))
      by (intros o Ho; rewrite average_position by exact Ho; reflexivity).
    rewrite (rsum_weighted_average O (fun i w => f (position i w))).
    rewrite (average_ext _ (fun _ => bm f)); [apply average_cst, seq_nonempty|].
    intros i Hi. apply in_seq in Hi. rewrite (expected_one O (position i) f N).
    - apply rsum_ext. intros s Hs. apply in_seq in Hs. rewrite (proj1 HI) by lia. reflexivity.
    - apply Forall_forall. intros o Ho. apply position_lt; [exact Ho|lia].
  Qed.
  Lemma expected_terms (a b : nat -> R) i j : (i < total)%nat -> (j < total)%nat ->
    rsum (fun o => fst o * (a (position i (snd o)) * b (position j (snd o)))) O
    = bm a * bm b + (if Nat.eq_dec j i then bm (fun s => a s * b s) - bm a * bm b else 0).
  Proof.
    intros Hi Hj. destruct (Nat.eq_dec j i) as [->|H].
    - rewrite (expected_one O (position i) (fun s => a s * b s) N).
      + rewrite (rsum_ext _ (fun s => born N (psi_of log_psi) s * (a s * b s))); [unfold born_mean; ring|].
        intros s Hs. apply in_seq in Hs. rewrite (proj1 HI) by lia. reflexivity.
      + apply Forall_forall. intros o Ho. apply position_lt; [exact Ho|lia].
    - rewrite (expected_pair O (position i) (position j) a b N).
      2:{ apply Forall_forall. intros o Ho. split; apply position_lt; [exact Ho|lia|exact Ho|lia]. }
      rewrite (rsum_ext _ (fun s => born_mean N log_psi b * (born N (psi_of log_psi) s * a s))).
      + rewrite rsum_scal. unfold born_mean. ring.
      + intros s Hs. apply in_seq in Hs.
        rewrite (rsum_ext _ (fun t => (born N (psi_of log_psi) s * a s) * (born N (psi_of log_psi) t * b t))).
        * rewrite rsum_scal. unfold born_mean. ring.
        * intros t Ht. apply in_seq in Ht. rewrite (proj2 HI) by lia. ring.
  Qed.
  Lemma expected_product (a b : nat -> R) :
    rsum (fun o => fst o * (average a (all_of (snd o)) * average b (all_of (snd o)))) O
    = bm a * bm b + (bm (fun s => a s * b s) - bm a * bm b) / INR total.
  Proof.
    set (c := bm (fun s => a s * b s) - bm a * bm b).
    rewrite (rsum_ext _ (fun o => fst o * average (fun i => average (fun j => a (position i (snd o)) * b (position j (snd o))) (seq 0 total)) (seq 0 total))).
    2:{ intros o Ho. rewrite !average_position by exact Ho. f_equal.
        rewrite <- average_scal_r. apply average_ext. intros i _. rewrite average_scal. reflexivity. }
    rewrite (rsum_weighted_average O (fun i w => average (fun j => a (position i w) * b (position j w)) (seq 0 total))).
    rewrite (average_ext _ (fun _ => bm a * bm b + c / INR total)); [apply average_cst, seq_nonempty|].
    intros i Hi. apply in_seq in Hi.
    rewrite (rsum_weighted_average O (fun j w => a (position i w) * b (position j w))).
    rewrite (average_ext _ (fun j => bm a * bm b + c * (if Nat.eq_dec j i then 1 else 0))).
    - rewrite average_plus, average_cst by apply seq_nonempty. f_equal. unfold average. rewrite seq_length. f_equal.
      rewrite (rsum_delta Nat.eq_dec (fun _ => c)); [reflexivity|apply seq_NoDup|apply in_seq; lia].
    - intros j Hj. apply in_seq in Hj. rewrite expected_terms by lia. destruct (Nat.eq_dec j i); fold c; ring.
  Qed.
  Lemma expected_rcov (a b : nat -> R) :
    rsum (fun o => fst o * rcov a b (all_of (snd o))) O = (1 - / INR total) * (bm (fun s => a s * b s) - bm a * bm b).
  Proof.
    unfold rcov. rewrite (rsum_ext _ (fun o => fst o * average (fun s => a s * b s) (all_of (snd o))
      - fst o * (average a (all_of (snd o)) * average b (all_of (snd o))))) by (intros; ring).
    rewrite rsum_minus, expected_average, expected_product. unfold Rdiv. ring.
  Qed.
End Random.

(** ** exact frequencies *)
Lemma average_fraction (f : nat -> R) N l : Forall (fun s => (s < N)%nat) l ->
  average f l = rsum (fun s => fraction l s * f s) (seq 0 N).
Proof.
  intros F. unfold average, fraction.
  rewrite (rsum_ext (fun s => _ / _ * f s) (fun s => / INR (length l) * (INR (count_occ Nat.eq_dec l s) * f s))) by (intros; unfold Rdiv; ring).
  rewrite rsum_scal. unfold Rdiv. rewrite Rmult_comm. f_equal.
  induction F as [|x l Hx F IH].
  - cbn [rsum count_occ]. rewrite (rsum_ext _ (fun _ => 0)); [rewrite rsum_cst; ring|]. intros s _. cbn. ring.
  - cbn [rsum]. rewrite IH.
    rewrite (rsum_ext (fun s => INR (count_occ Nat.eq_dec (x :: l) s) * f s)
      (fun s => f s * (if Nat.eq_dec s x then 1 else 0) + INR (count_occ Nat.eq_dec l s) * f s)).
    + rewrite rsum_plus. f_equal. symmetry. apply (rsum_delta Nat.eq_dec f); [apply seq_NoDup|apply in_seq; lia].
    + intros s _. cbn [count_occ]. destruct (Nat.eq_dec x s) as [->|H].
      * rewrite S_INR. destruct (Nat.eq_dec s s); [ring|contradiction].
      * destruct (Nat.eq_dec s x); [congruence|]. ring.
Qed.
Lemma average_exact (f : nat -> R) N log_psi l : Forall (fun s => (s < N)%nat) l ->
  (forall s, (s < N)%nat -> fraction l s = born N (psi_of log_psi) s) -> average f l = born_mean N log_psi f.
Proof.
  intros F H. rewrite (average_fraction f N l F). apply rsum_ext. intros s Hs. apply in_seq in Hs. rewrite H by lia. reflexivity.
Qed.
