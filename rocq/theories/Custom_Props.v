(** * C91: Metropolis moves given by an operator (CustomRuleNumpy) *)
From Coq Require Import ZArith List Bool QArith Qcanon.
From Verif Require Import Base ExTac Scalar LocalOp_Model LocalOp_Spec Custom_Model Custom_Spec Custom_Proofs Custom_Ex.
Import ListNotations.
Open Scope nat_scope.
Open Scope list_scope.

(** With symmetric doubly stochastic moves (no matrix element within the cut-off, different
    moves on different sites) and usable weights, the rule can be constructed, and every step
    succeeds: each chain proposes a configuration drawn with the matrix elements of a move
    drawn with its weight, from its own two random numbers; the correction is zero. *)
Theorem C91_transition : forall depth hs ts w,
  sorted_space hs -> moves_ok hs ts -> weights_ok (length ts) w ->
  exists o c law,
    mk_lop gqS (S depth) hs gq0 ts = Ok o /\ custom_new o w = Ok c /\ draws_rows hs ts law /\
    forall xs us vs, Forall (configuration hs) xs -> length us = length xs -> length vs = length xs ->
      (forall u, In u (us ++ vs) -> (0 < u)%Qc /\ (u < 1)%Qc) ->
      exists ys, custom_transition hs o (custom_init c) us vs xs = Ok (ys, repeat 0%Qc (length xs)) /\
        length ys = length xs /\
        forall b, b < length xs ->
          proposal_ok ts w law (nth b xs []) (nth b us 0%Qc) (nth b vs 0%Qc) (nth b ys []).
Proof. exact (fun depth hs ts w Hs Hok Hw => custom_step hs Hs ts Hok w Hw depth). Qed.
Print Assumptions C91_transition.

(** A zero correction is the right one: going there is as likely as coming back. *)
Theorem C91_symmetric : forall hs ts w x y,
  moves_ok hs ts -> configuration hs x -> configuration hs y ->
  step_prob hs ts w x y = step_prob hs ts w y x.
Proof. exact step_symmetric. Qed.
Print Assumptions C91_symmetric.

Example C91_ex : sorted_space two_sites /\ moves_ok two_sites ex_moves /\
  weights_ok (length ex_moves) (Some [Q2Qc 1; Q2Qc 2; Q2Qc 1]) /\
  configuration two_sites [0; 1]%Z /\ configuration two_sites [1; 0]%Z /\
  step_prob two_sites ex_moves (Some [Q2Qc 1; Q2Qc 2; Q2Qc 1]) [0; 1]%Z [1; 0]%Z = Q2Qc (1 # 4) /\
  exists o c, mk_lop gqS 3 two_sites gq0 ex_moves = Ok o /\
    custom_new o (Some [Q2Qc 1; Q2Qc 2; Q2Qc 1]) = Ok c /\
    custom_transition two_sites o (custom_init c) [Q2Qc (1#2); Q2Qc (1#5); Q2Qc (9#10)]
      [Q2Qc (3#4); Q2Qc (3#4); Q2Qc (1#4)] [[0; 1]; [0; 1]; [0; 1]]%Z
    = Ok ([[1; 0]; [1; 1]; [0; 1]]%Z, [0%Qc; 0%Qc; 0%Qc]).
Proof.
  split; [repeat constructor|]. split; [exact ex_moves_ok|]. split.
  { split; [reflexivity|]. split; [|reflexivity].
    cbn [In]. intros x [<-|[<-|[<-|[]]]]; discriminate. }
  split; [repeat (constructor; [cbn; auto|]); constructor|].
  split; [repeat (constructor; [cbn; auto|]); constructor|].
  split; [apply Qc_is_canon; vm_compute; reflexivity|].
  compute_ex.
Qed.

(** A rule that was constructed has moves without negative elements, whose rows and columns
    sum to one and which are symmetric, all within the tolerances; given weights are
    non-negative and one per move. *)
Theorem C91_checked : forall o w c, custom_new o w = Ok c ->
  (forall m, In m (lo_ops gqS o) -> (forall r, In r m -> length r = length m) ->
    (forall r z, In r m -> In z r -> (0 <= fst z)%Qc /\ (snd z < Q2Qc (1 # 10 ^ 10))%Qc) /\
    (forall r, In r m -> within (total (map fst r), total (map snd r)) gq1) /\
    (forall j, j < length m ->
       within (total (map (fun r => fst (nth j r gq0)) m), total (map (fun r => snd (nth j r gq0)) m)) gq1) /\
    (forall i j, i < length m -> j < length m ->
       within (nth j (nth i m []) gq0) (nth i (nth j m []) gq0))) /\
  match w with
  | Some w => length w = length (lo_ops gqS o) /\ forall x, In x w -> (0 <= x)%Qc
  | None => True
  end.
Proof. exact custom_new_checked. Qed.
Print Assumptions C91_checked.

Example C91_checked_ex :
  (exists o, mk_lop gqS 3 two_sites gq0 [([[rl 1; rl 0]; [rl (1#2); rl (1#2)]], [0])] = Ok o /\
     custom_new o None = Err AssertionError) /\
  (exists o, mk_lop gqS 3 two_sites gq0 ex_moves = Ok o /\
     custom_new o (Some [Q2Qc 1; Q2Qc 1]) = Err ValueError /\
     custom_new o (Some [Q2Qc 1; Q2Qc (-1); Q2Qc 1]) = Err ValueError) /\
  (exists o c, mk_lop gqS 3 two_sites gq0 ex_moves = Ok o /\ custom_new o None = Ok c /\ c <> None).
Proof. split; [compute_ex|split; [compute_ex|compute_ex]]. Qed.

(** The constant of the operator takes part in every row but is not checked: a step may read
    past the end of the connected configurations. *)
Theorem C91_constant_refuted : exists c o r u v x,
  (0 < u)%Qc /\ (u < 1)%Qc /\ (0 < v)%Qc /\ (v < 1)%Qc /\ configuration two_sites x /\
  doubly_stochastic flip 2 /\
  mk_lop gqS 3 two_sites c [(flip, [0])] = Ok o /\ custom_new o None = Ok r /\
  custom_transition two_sites o (custom_init r) [u] [v] [x] = Err Fault.
Proof. exact constant_fault. Qed.
Print Assumptions C91_constant_refuted.

(** LocalOperator drops matrix elements up to 1e-6, so that a row sums to less than one; the
    rule then reads on into the next chain, and proposes a configuration which no move
    reaches. *)
Theorem C91_cutoff_refuted : exists ts o r us vs xs ys,
  (forall u, In u (us ++ vs) -> (0 < u)%Qc /\ (u < 1)%Qc) /\ Forall (configuration two_sites) xs /\
  Forall (fun t => doubly_stochastic (fst t) (local_dim two_sites (snd t))) ts /\
  mk_lop gqS 3 two_sites gq0 ts = Ok o /\ custom_new o None = Ok r /\
  custom_transition two_sites o (custom_init r) us vs xs = Ok ys /\
  step_prob two_sites ts None (nth 0 xs []) (nth 0 (fst ys) []) = 0%Qc.
Proof. exact cutoff_leak. Qed.
Print Assumptions C91_cutoff_refuted.

(** The same happens at the last chain by reading past the end. *)
Theorem C91_cutoff_fault_refuted : exists ts o r u v x,
  (0 < u)%Qc /\ (u < 1)%Qc /\ (0 < v)%Qc /\ (v < 1)%Qc /\ configuration two_sites x /\
  Forall (fun t => doubly_stochastic (fst t) (local_dim two_sites (snd t))) ts /\
  mk_lop gqS 3 two_sites gq0 ts = Ok o /\ custom_new o None = Ok r /\
  custom_transition two_sites o (custom_init r) [u] [v] [x] = Err Fault.
Proof. exact cutoff_fault. Qed.
Print Assumptions C91_cutoff_fault_refuted.

(** Two moves on the same sites are merged by LocalOperator, and refused. *)
Theorem C91_merged_refuted : exists a b o,
  doubly_stochastic a 2 /\ doubly_stochastic b 2 /\
  mk_lop gqS 3 two_sites gq0 [(a, [0]); (b, [0])] = Ok o /\ custom_new o None = Err AssertionError.
Proof. exact merged_refused. Qed.
Print Assumptions C91_merged_refuted.

(** Weights that are all zero are accepted: the first move is then always taken.  A move of
    weight zero is taken when the random number is exactly zero. *)
Theorem C91_weights_refuted : exists o,
  mk_lop gqS 3 two_sites gq0 ex_moves = Ok o /\
  (exists c, custom_new o (Some [0%Qc; 0%Qc; 0%Qc]) = Ok c /\ forall u, pick_operator (custom_init c) u = 0) /\
  (exists c, custom_new o (Some [0%Qc; 1%Qc; 0%Qc]) = Ok c /\ pick_operator (custom_init c) 0%Qc = 0).
Proof. exact weights_zero. Qed.
Print Assumptions C91_weights_refuted.
