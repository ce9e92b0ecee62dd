(** * Proofs: random numbers of the legacy Metropolis sampler are used once *)
From Coq Require Import List ZArith Bool Reals Lia.
From Verif Require Import Base Rules_Model LegSamp_Model LegSamp_Spec.
Import ListNotations.
Open Scope nat_scope.

Lemma iter_r {A} (f : A -> A) n a : Nat.iter (S n) f a = Nat.iter n f (f a).
Proof. induction n as [|n IH]; [reflexivity|]. change (f (Nat.iter (S n) f a) = f (Nat.iter n f (f a))). rewrite IH. reflexivity. Qed.
Lemma acc_loop_gen {Gen} (unif : Gen -> Gen * R) pow : forall rows props g, length props = length rows ->
  fst (fst (acc_loop unif pow g rows props)) = Nat.iter (length rows) (fun g => fst (unif g)) g.
Proof.
  induction rows as [|[x l] rows IH]; intros [|[[y l1] c] props] g H; try discriminate; [reflexivity|].
  cbn [acc_loop]. destruct (unif g) as [g' u] eqn:E. specialize (IH props g' ltac:(cbn in H; lia)).
  destruct (acc_loop unif pow g' rows props) as [[g2 out] n]. cbn [fst] in *. rewrite IH. cbn [length].

  rewrite iter_r, E. reflexivity.
Qed.
Lemma sweep_gen {Par Gen} (logv : Par -> cfg -> R) (k_move : Gen -> list cfg -> Gen * list (cfg * R)) (unif : Gen -> Gen * R)
  (s : smp Par Gen) :
  length (s_lv s) = length (s_state s) -> length (snd (k_move (s_gen s) (s_state s))) = length (s_state s) ->
  s_gen (one_sweep logv k_move unif s) = Nat.iter (length (s_state s)) (fun g => fst (unif g)) (fst (k_move (s_gen s) (s_state s))).
Proof.
  intros Hl Hk. unfold one_sweep. destruct (k_move (s_gen s) (s_state s)) as [g prop]. cbn [fst snd] in *.
  pose proof (acc_loop_gen unif (s_pow s) (combine (s_state s) (s_lv s)) (map (fun t => (fst t, logv (s_par s) (fst t), snd t)) prop) g) as E.
  rewrite map_length, combine_length in E. specialize (E ltac:(lia)). replace (Nat.min (length (s_state s)) (length (s_lv s))) with (length (s_state s)) in E by lia.
  destruct (acc_loop unif _ g _ _) as [[g2 rows] n]. exact E.
Qed.
