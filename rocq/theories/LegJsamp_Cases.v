From Coq Require Import List ZArith Bool Reals Permutation Lia.
From Verif Require Import Base Rules_Model LegSamp_Model LegSamp_Spec Keys_Model Keys_Spec LegJsamp_Model LegJsamp_Spec LegJsamp_Proofs Keys_Proofs.
Import ListNotations.
Open Scope nat_scope.

Definition rng0 : rng := Rng (fun _ _ => 0%R) (fun _ _ _ => 0).
Definition flat : unit -> cfg -> R := fun _ _ => 0%R.
Lemma local_case : bounded rng0 /\ NoDup [1%Z; (-1)%Z].
Proof. split; [intros k h i H; exact H|]. repeat constructor; cbn; intuition discriminate. Qed.
Lemma keys_case : length (local_used rng0 [1%Z; (-1)%Z] 2 flat
  (JSmp tt (Seed 0) [[1%Z; 1%Z]] 3 2%R 1 1) [JNext; JGenerate 2 true; JSetChains 2]) = 3 * 3 + (1 + 2 * 3 * 3) + 2.
Proof. reflexivity. Qed.
Definition rng1 : rng := Rng (fun _ _ => 0%R) (fun k _ _ => match k with Seed _ => 1 | _ => 0 end).
Lemma agree_case : exists r', r_int rng0 (Seed 1) 3 0 <> r_int r' (Seed 1) 3 0 /\
  Forall (agree rng0 r') (local_used rng0 [1%Z; (-1)%Z] 2 flat (JSmp tt (Seed 0) [[1%Z; 1%Z]] 1 2%R 1 1) [JNext]).
Proof. exists rng1. split; [discriminate|]. cbn. repeat constructor. Qed.
Definition rng2 : rng := Rng (fun _ _ => 0%R) (fun k _ _ => match k with Child (Seed _) _ _ => 0 | _ => 1 end).
Lemma local_start : exists r s, make 1 (jlocal_random r [1%Z; (-1)%Z] 1) tt (Seed 0) 2 None = Ok s /\
  j_state s = [[(-1)%Z]; [1%Z]].
Proof. exists rng2. eexists. split; reflexivity. Qed.
Lemma sweep_main {Par} size logv unif mv rd n v (s : jsmp Par) : 0 < n -> (v <= 0)%Z ->
  snd (set_sweep size (Some v) s) = (if (v =? 0)%Z then Ok tt else Err ValueError) /\
  snd (generate logv unif mv rd n false (fst (set_sweep size (Some v) s))) = Ok (Some (repeat (j_state s) n)).
Proof.
  intros H V. split.
  - unfold set_sweep. cbn [snd]. destruct (Z.eqb_spec v 0) as [->|N]; [reflexivity|]. destruct (Z.ltb_spec v 0); [reflexivity|lia].
  - rewrite still_main; [reflexivity|exact H|exact V].
Qed.
Lemma no_samples {Par} logv unif mv rd b (s : jsmp Par) : generate logv unif mv rd 0 b s = (s, Ok None).
Proof. reflexivity. Qed.

(** every proposal of the numpy kernels *)
Definition two_ints (i j : nat) : rng :=
  Rng (fun _ _ => 0%R) (fun k h _ => Nat.min (match k with Child _ _ 0 => i | _ => j end) (h - 1)).
Lemma two_bounded i j : bounded (two_ints i j).
Proof. intros k h x H. cbn. lia. Qed.
Lemma local_all ls size k i j : i < size -> j < length ls - 1 -> exists r, bounded r /\
  forall x, jlocal_move r ls size k x = leg_local_move (leg_local_states ls) i j x.
Proof.
  intros Hi Hj. exists (two_ints i j). split; [apply two_bounded|]. intros x. unfold jlocal_move. rewrite !sub_eq by lia. cbn [r_int two_ints].
  rewrite !Nat.min_l by lia. reflexivity.
Qed.
Lemma exch_all cs k c : In c cs -> exists r, bounded r /\ forall x, jexch_move r cs k x = leg_exchange_move c x.
Proof.
  intros I. destruct (In_nth cs c (0, 0) I) as (i & Hi & E). exists (two_ints i i). split; [apply two_bounded|].
  intros x. unfold jexch_move. cbn [r_int two_ints]. rewrite <- E. do 2 f_equal. destruct k as [|? ? [|?]]; apply Nat.min_l; lia.
Qed.
Definition list_ints (rs : list nat) : rng := Rng (fun _ _ => 0%R) (fun k h i => Nat.min (nth i rs 0) (h - 1)).
Lemma local_random_all ls size k rs : length rs = size -> Forall (fun i => i < length ls) rs -> exists r, bounded r /\
  snd (jlocal_random r ls size k) = leg_local_random (leg_local_states ls) rs.
Proof.
  intros L F. exists (list_ints rs). split; [intros k0 h i H; cbn; lia|]. unfold jlocal_random, leg_local_random. cbn [snd r_int list_ints]. subst size.
  transitivity (map (fun r => nth r (leg_local_states ls) 0%Z) (map (fun i => nth i rs 0) (seq 0 (length rs)))).
  - rewrite map_map. apply map_ext_in. intros i I. apply in_seq in I. f_equal. apply Nat.min_l. rewrite Forall_forall in F.
    assert (Ii : In (nth i rs 0) rs) by (apply nth_In; lia). specialize (F _ Ii). lia.
  - f_equal. apply nth_ext with (d := 0) (d' := 0); [rewrite map_length, seq_length; reflexivity|]. intros i H. rewrite map_length, seq_length in H.
    rewrite (nth_indep _ 0 ((fun i => nth i rs 0) 0)) by (rewrite map_length, seq_length; exact H).
    rewrite (map_nth (fun i => nth i rs 0)), seq_nth by exact H. reflexivity.
Qed.
