(** * Concrete moves for the examples and counterexamples of C91 *)
From Coq Require Import ZArith List Bool QArith Qcanon Lia Sorting.Sorted.
From Verif Require Import Base ExTac Scalar LocalOp_Model LocalOp_Spec Custom_Model Custom_Spec Custom_Proofs.
Import ListNotations.
Open Scope nat_scope.
Open Scope list_scope.

Definition rl (q : Q) : GQ := (Q2Qc q, 0%Qc).
(** flip one site; flip it with probability [e]; exchange two sites *)
Definition mixing (e : Q) : list (list GQ) := [[rl (1 - e); rl e]; [rl e; rl (1 - e)]].
Definition flip : list (list GQ) := mixing 1.
Definition exchange : list (list GQ) :=
  [[rl 1; rl 0; rl 0; rl 0]; [rl 0; rl (1#2); rl (1#2); rl 0]; [rl 0; rl (1#2); rl (1#2); rl 0]; [rl 0; rl 0; rl 0; rl 1]].
Definition two_sites : list (list Z) := [[0; 1]; [0; 1]]%Z.
Definition ex_moves : list (list (list GQ) * list nat) := [(flip, [0]); (exchange, [0; 1]); (mixing (1#3), [1])].


Lemma ds_ex m d : length m = d -> forallb (fun r => Nat.eqb (length r) d) m = true ->
  forallb (forallb (fun z => Qeq_bool (this (snd z)) 0 && qc_leb 0 (fst z))%bool) m = true ->
  forallb (fun i => Qeq_bool (this (total (map (fun j => re_entry m i j) (seq 0 d)))) 1 &&
     forallb (fun j => Qeq_bool (this (re_entry m i j)) (this (re_entry m j i))) (seq 0 d)) (seq 0 d) = true ->
  doubly_stochastic m d.
Proof.
  intros H1 H2 H3 H4. rewrite forallb_forall in H2, H3, H4. constructor.
  - split; auto. intros r Hr. apply Nat.eqb_eq. auto.
  - intros r z Hr Hz. specialize (H3 r Hr). rewrite forallb_forall in H3. specialize (H3 z Hz).
    apply andb_true_iff in H3. destruct H3 as [A B]. split; [|apply qc_leb_le; auto].
    apply Qc_is_canon. apply Qeq_bool_eq in A. exact A.
  - intros i Hi. assert (G : In i (seq 0 d)) by (apply in_seq; lia). specialize (H4 i G).
    apply andb_true_iff in H4. destruct H4 as [A _]. apply Qc_is_canon. apply Qeq_bool_eq in A. exact A.
  - intros i j Hi Hj. assert (G : In i (seq 0 d)) by (apply in_seq; lia). specialize (H4 i G).
    apply andb_true_iff in H4. destruct H4 as [_ A]. rewrite forallb_forall in A.
    apply Qc_is_canon. apply Qeq_bool_eq. apply A. apply in_seq. lia.
Qed.

Lemma tiny_ex m : forallb (forallb (fun z => Qeq_bool (this (fst z)) 0 || qc_ltb (Q2Qc (1 # 10 ^ 6)) (fst z))%bool) m = true ->
  no_tiny m.
Proof.
  intros H r z Hr Hz. rewrite forallb_forall in H. specialize (H r Hr). rewrite forallb_forall in H. specialize (H z Hz).
  apply orb_true_iff in H. destruct H as [H|H]; [left|right; apply qc_ltb_lt; auto].
  apply Qc_is_canon. apply Qeq_bool_eq in H. exact H.
Qed.

Ltac one_move :=
  cbn [fst snd]; split; [discriminate|]; split; [repeat (constructor; auto)|];
  split; [cbn [In two_sites length]; intros; lia|]; split; [vm_compute; lia|];
  split; [apply ds_ex; vm_compute; reflexivity|apply tiny_ex; vm_compute; reflexivity].

Lemma ex_moves_ok : moves_ok two_sites ex_moves.
Proof.
  split.
  - unfold ex_moves. apply Forall_cons; [one_move|]. apply Forall_cons; [one_move|]. apply Forall_cons; [one_move|]. constructor.
  - cbn. repeat (constructor; [cbn; intuition discriminate|]). constructor.
Qed.

Lemma mixing_ds e : (e = 1 \/ e = 1 # 2000000)%Q -> doubly_stochastic (mixing e) 2.
Proof. intros [ -> | -> ]; apply ds_ex; vm_compute; reflexivity. Qed.

Lemma conf2 a b : In a [0; 1]%Z -> In b [0; 1]%Z -> configuration two_sites [a; b].
Proof. intros. repeat (constructor; auto). Qed.

Lemma constant_fault : exists c o r u v x,
  (0 < u)%Qc /\ (u < 1)%Qc /\ (0 < v)%Qc /\ (v < 1)%Qc /\ configuration two_sites x /\
  doubly_stochastic flip 2 /\
  mk_lop gqS 3 two_sites c [(flip, [0])] = Ok o /\ custom_new o None = Ok r /\
  custom_transition two_sites o (custom_init r) [u] [v] [x] = Err Fault.
Proof.
  exists (rl (-1#2)).
  assert (G : exists o r, mk_lop gqS 3 two_sites (rl (-1#2)) [(flip, [0])] = Ok o /\ custom_new o None = Ok r /\
    custom_transition two_sites o (custom_init r) [Q2Qc (1#2)] [Q2Qc (3#4)] [[0; 1]%Z] = Err Fault) by compute_ex.
  destruct G as (o & r & G1 & G2 & G3). exists o, r, (Q2Qc (1#2)), (Q2Qc (3#4)), [0; 1]%Z.
  repeat (split; [reflexivity|]). split; [apply conf2; cbn; auto|]. split; [apply mixing_ds; auto|]. auto.
Qed.

Lemma small_ds : Forall (fun t => doubly_stochastic (fst t) (local_dim two_sites (snd t))) [(mixing (1 # 2000000), [0])].
Proof. constructor; [apply mixing_ds; auto|constructor]. Qed.

Lemma cutoff_leak : exists ts o r us vs xs ys,
  (forall u, In u (us ++ vs) -> (0 < u)%Qc /\ (u < 1)%Qc) /\ Forall (configuration two_sites) xs /\
  Forall (fun t => doubly_stochastic (fst t) (local_dim two_sites (snd t))) ts /\
  mk_lop gqS 3 two_sites gq0 ts = Ok o /\ custom_new o None = Ok r /\
  custom_transition two_sites o (custom_init r) us vs xs = Ok ys /\
  step_prob two_sites ts None (nth 0 xs []) (nth 0 (fst ys) []) = 0%Qc.
Proof.
  exists [(mixing (1 # 2000000), [0])].
  assert (G : exists o r ys, mk_lop gqS 3 two_sites gq0 [(mixing (1 # 2000000), [0])] = Ok o /\ custom_new o None = Ok r /\
    custom_transition two_sites o (custom_init r) [Q2Qc (1#2); Q2Qc (1#2)] [Q2Qc (9999999 # 10000000); Q2Qc (1#2)]
      [[0; 0]; [1; 1]]%Z = Ok ys /\ fst ys = [[1; 1]; [1; 1]]%Z) by compute_ex.
  destruct G as (o & r & ys & G1 & G2 & G3 & G4).
  exists o, r, [Q2Qc (1#2); Q2Qc (1#2)], [Q2Qc (9999999 # 10000000); Q2Qc (1#2)], [[0; 0]; [1; 1]]%Z, ys.
  split. { cbn [app In]. intros u [<-|[<-|[<-|[<-|[]]]]]; split; reflexivity. }
  split. { constructor; [apply conf2; cbn; auto|]. constructor; [apply conf2; cbn; auto|constructor]. }
  split; [apply small_ds|]. repeat (split; [assumption|]). rewrite G4.
  apply Qc_is_canon; vm_compute; reflexivity.
Qed.

Lemma cutoff_fault : exists ts o r u v x,
  (0 < u)%Qc /\ (u < 1)%Qc /\ (0 < v)%Qc /\ (v < 1)%Qc /\ configuration two_sites x /\
  Forall (fun t => doubly_stochastic (fst t) (local_dim two_sites (snd t))) ts /\
  mk_lop gqS 3 two_sites gq0 ts = Ok o /\ custom_new o None = Ok r /\
  custom_transition two_sites o (custom_init r) [u] [v] [x] = Err Fault.
Proof.
  exists [(mixing (1 # 2000000), [0])].
  assert (G : exists o r, mk_lop gqS 3 two_sites gq0 [(mixing (1 # 2000000), [0])] = Ok o /\ custom_new o None = Ok r /\
    custom_transition two_sites o (custom_init r) [Q2Qc (1#2)] [Q2Qc (9999999 # 10000000)] [[0; 1]%Z] = Err Fault) by compute_ex.
  destruct G as (o & r & G1 & G2 & G3). exists o, r, (Q2Qc (1#2)), (Q2Qc (9999999 # 10000000)), [0; 1]%Z.
  repeat (split; [reflexivity|]). split; [apply conf2; cbn; auto|]. split; [apply small_ds|]. auto.
Qed.

Lemma merged_refused : exists a b o,
  doubly_stochastic a 2 /\ doubly_stochastic b 2 /\
  mk_lop gqS 3 two_sites gq0 [(a, [0]); (b, [0])] = Ok o /\ custom_new o None = Err AssertionError.
Proof.
  exists flip, flip.
  assert (G : exists o, mk_lop gqS 3 two_sites gq0 [(flip, [0]); (flip, [0])] = Ok o /\
    custom_new o None = Err AssertionError) by compute_ex.
  destruct G as (o & G). exists o. split; [apply mixing_ds; auto|]. split; [apply mixing_ds; auto|]. auto.
Qed.

Lemma weights_zero : exists o,
  mk_lop gqS 3 two_sites gq0 ex_moves = Ok o /\
  (exists c, custom_new o (Some [0%Qc; 0%Qc; 0%Qc]) = Ok c /\ forall u, pick_operator (custom_init c) u = 0) /\
  (exists c, custom_new o (Some [0%Qc; 1%Qc; 0%Qc]) = Ok c /\ pick_operator (custom_init c) 0%Qc = 0).
Proof.
  assert (G : exists o, mk_lop gqS 3 two_sites gq0 ex_moves = Ok o /\
    custom_new o (Some [0%Qc; 0%Qc; 0%Qc]) = Ok None /\
    match custom_new o (Some [0%Qc; 1%Qc; 0%Qc]) with Ok c => pick_operator (custom_init c) 0%Qc = 0 | Err _ => False end)
    by compute_ex.
  destruct G as (o & G1 & G2 & G3). exists o. split; auto. split.
  - exists None. split; auto.
  - destruct (custom_new o (Some [0%Qc; 1%Qc; 0%Qc])) as [c|]; [|tauto]. exists c. auto.
Qed.
