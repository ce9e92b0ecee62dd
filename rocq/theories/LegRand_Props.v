(** * Property C122: seeds and integers of the legacy random module *)
From Coq Require Import List Bool Arith ZArith Lia Reals Lra.
From Verif Require Import Base LegRand_Model LegRand_Proofs.
Import ListNotations.
Open Scope nat_scope.

(** ** A seed that is given decides the generator of every process: what was drawn before
    does not matter *)
Theorem C122_reproducible :
  forall state start draw r n z s s',
  seed_of state start draw r n (Some z) s = seed_of state start draw r n (Some z) s'.
Proof. exact LegRand_Proofs.given. Qed.
Print Assumptions C122_reproducible.

(** ** A process draws the same whatever the number of processes *)
Theorem C122_more_nodes :
  forall state start draw r n m sd s, r < n -> r < m ->
  seed_of state start draw r n sd s = seed_of state start draw r m sd s.
Proof. exact LegRand_Proofs.more_nodes. Qed.
Print Assumptions C122_more_nodes.

(** ** "Each process is assigned a different sub-seed": the sub-seeds are drawn, so for every
    generator two of more processes than there are values have the same *)
Theorem C122_different_refuted :
  forall state start draw M n z s,
  (forall s, (0 <= fst (draw s) < M)%Z) -> (M < Z.of_nat n)%Z ->
  exists r r', r < r' < n /\
    seed_of state start draw r n (Some z) s = seed_of state start draw r' n (Some z) s.
Proof. exact LegRand_Proofs.crowded. Qed.
Print Assumptions C122_different_refuted.

(** ** Without a seed, "initialized with a random seed (on node 0) and then propagated": no
    one seed explains the generators of both processes *)
Theorem C122_propagated_refuted :
  exists s0 s1 : Z,
  ~ exists sd, seed_of Z g_start g_draw 0 2 None s0 = seed_of Z g_start g_draw 0 2 (Some sd) s0 /\
               seed_of Z g_start g_draw 1 2 None s1 = seed_of Z g_start g_draw 1 2 (Some sd) s1.
Proof. exact LegRand_Proofs.not_propagated. Qed.
Print Assumptions C122_propagated_refuted.

(** the generator that counts: the processes 0, 1, 2 have the seeds 7, 8, 9; a generator
    of two values gives two of three processes the same *)
Example C122_seed_ex :
  map (fun r => seed_of Z g_start g_draw r 3 (Some 7%Z) 100%Z) [0; 1; 2] = [7; 8; 9]%Z /\
  map (fun r => seed_of Z g_start (fun s => (Z.modulo s 2, s + 1)%Z) r 3 (Some 7%Z) 100%Z) [0; 1; 2] = [1; 0; 1]%Z.
Proof. split; reflexivity. Qed.
Example C122_range_ex : forall s : Z, (0 <= fst (Z.modulo s 2, s + 1)%Z < 2)%Z.
Proof. intros s. cbn [fst]. apply Z.mod_pos_bound. lia. Qed.

(** ** randint: a value between low and high; each comes from an interval of the draws of
    length 1 / (high - low) *)
Theorem C122_randint_range :
  forall low high x, (low < high)%Z -> (0 <= x < 1)%R -> (low <= randint low high x < high)%Z.
Proof. exact LegRand_Proofs.range. Qed.
Print Assumptions C122_randint_range.
Theorem C122_randint_uniform :
  forall low high x v, (low < high)%Z ->
  randint low high x = v <->
  (IZR (v - low) / IZR (high - low) <= x < IZR (v - low + 1) / IZR (high - low))%R.
Proof. exact LegRand_Proofs.fibre. Qed.
Print Assumptions C122_randint_uniform.

(** ** An empty range is not refused: the value is high, which the documentation excludes *)
Theorem C122_randint_empty : forall low x, randint low low x = low.
Proof. exact LegRand_Proofs.empty_range. Qed.
Print Assumptions C122_randint_empty.

(** from 2 to 4: three quarters gives 3 *)
Example C122_randint_ex : randint 2 4 (3 / 4) = 3%Z.
Proof.
  apply LegRand_Proofs.fibre; [lia|].
  change (3 - 2)%Z with 1%Z. change (4 - 2)%Z with 2%Z. change (1 + 1)%Z with 2%Z. lra.
Qed.
