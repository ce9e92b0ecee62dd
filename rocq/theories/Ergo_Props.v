(** * Property C102: convergence of the Metropolis chains *)
From Coq Require Import List ZArith Reals Lra Lia Permutation Relations.
From Verif Require Import Base BaseFacts Hilbert_Model HilbertOps_Model HilbertOps_Spec HilbertOps_Proofs
  Balance_Model Balance_Spec Balance_Proofs Rules_Model Rules_Spec Rules_Proofs
  Ergo_Spec Ergo_Proofs Ergo_Metro Ergo_Rules Ergo_Exch Ergo_LLN Ergo_Final.
Import ListNotations.
Open Scope R_scope.

(** The chain of any rule with a right correction converges to |psi|^machine_pow
    -- geometrically, uniformly in the initial distribution -- exactly if the
    configurations are connected by proposals possible both ways and either some
    configuration can return to itself in an odd number of proposals or some proposal
    can be turned down. *)
Theorem C102_converges_iff :
  forall X (eqd : forall x y : X, {x = y} + {x <> y}) space psi mp corr T a,
    NoDup space -> space <> [] -> proposal space T -> corrected space T corr ->
    (forall x y, In x space -> In y space -> probability_of (accepts psi mp corr x y) (a x y)) ->
    let K := kernel eqd space T a in
    let ergodic := connected space T /\ (odd_return space T \/ may_reject space T (accepts psi mp corr)) in
    (ergodic -> mixes space K (target psi mp)) /\
    (mixes space K (target psi mp) -> tends space K (target psi mp)) /\
    (tends space K (target psi mp) -> ergodic).
Proof. exact (@general). Qed.
Print Assumptions C102_converges_iff.

(** LocalRule, any unconstrained space (tensor products and doubled spaces included)
    with at least two values on every site: the chain converges if some site has
    three or more values, or if |psi| is not constant -- and only then. *)
Theorem C102_local_rule :
  forall h leaf space psi mp a,
    NoDup space -> space <> [] -> flippable h -> (0 < n_sites h)%nat ->
    (forall i, (i < n_sites h)%nat -> at_site h i (leaf i) /\ (2 <= n_local_values (leaf i))%Z) ->
    (forall x, In x space <-> site_valid h x) ->
    (forall x y, In x space -> In y space ->
       probability_of (accepts psi mp (fun _ _ => None) x y) (a x y)) ->
    let K := kernel cfg_eqd space (local_T h leaf) a in
    let live := (exists i, (i < n_sites h)%nat /\ (3 <= n_local_values (leaf i))%Z) \/
                (exists x y, In x space /\ In y space /\ target psi mp x <> target psi mp y) in
    (live -> mixes space K (target psi mp)) /\ (tends space K (target psi mp) -> live).
Proof. exact local_mixes_iff. Qed.
Print Assumptions C102_local_rule.

(** The same for LocalRuleNumpy with its own form of the test. *)
Theorem C102_local_rule_numpy :
  forall ls n space psi mp a,
    NoDup space -> space <> [] -> increasing ls -> (2 <= length ls)%nat -> (0 < n)%nat ->
    (forall x, In x space <-> length x = n /\ Forall (fun v => In v ls) x) ->
    (forall x y, In x space -> In y space ->
       probability_of (np_accepts psi mp (fun _ _ => None) x y) (a x y)) ->
    let K := kernel cfg_eqd space (np_local_T ls n) a in
    let live := (3 <= length ls)%nat \/
                (exists x y, In x space /\ In y space /\ target psi mp x <> target psi mp y) in
    (live -> mixes space K (target psi mp)) /\ (tends space K (target psi mp) -> live).
Proof. exact np_local_mixes_iff. Qed.
Print Assumptions C102_local_rule_numpy.

(** Two values per site and constant |psi|: after [n] steps the chain is on
    configurations that differ from the initial one on a number of sites of the
    parity of [n] -- with an even number of steps per sample, half of the space is
    never sampled. *)
Theorem C102_parity_locked :
  forall h leaf space psi mp a,
    NoDup space -> flippable h -> (0 < n_sites h)%nat ->
    (forall i, (i < n_sites h)%nat -> at_site h i (leaf i) /\ n_local_values (leaf i) = 2%Z) ->
    (forall x, In x space <-> site_valid h x) ->
    (forall x y, In x space -> In y space ->
       probability_of (accepts psi mp (fun _ _ => None) x y) (a x y)) ->
    (forall x y, In x space -> In y space -> target psi mp x = target psi mp y) ->
    forall x z n, In x space -> In z space ->
      pushes space (kernel cfg_eqd space (local_T h leaf) a) n (fun y => if cfg_eqd y x then 1 else 0) z <> 0 ->
      Nat.odd (differing x z) = Nat.odd n.
Proof. exact parity_locked. Qed.
Print Assumptions C102_parity_locked.

(** "A LocalRule chain converges to |psi|^2 for every psi" is false. *)
Theorem C102_local_rule_always_refuted :
  exists h leaf space psi mp a,
    NoDup space /\ space <> [] /\ flippable h /\ (0 < n_sites h)%nat /\
    (forall i, (i < n_sites h)%nat -> at_site h i (leaf i) /\ (2 <= n_local_values (leaf i))%Z) /\
    (forall x, In x space <-> site_valid h x) /\
    (forall x y, In x space -> In y space ->
       probability_of (accepts psi mp (fun _ _ => None) x y) (a x y)) /\
    ~ tends space (kernel cfg_eqd space (local_T h leaf) a) (target psi mp).
Proof. exact local_refuted. Qed.
Print Assumptions C102_local_rule_always_refuted.

(** ExchangeRule, started from [x0]: if the clusters link all sites and [x0] has a
    repeated value or |psi| is not constant, the chain converges to |psi|^machine_pow
    restricted to the rearrangements of [x0]. *)
Theorem C102_exchange_rule :
  forall x0 clusters space psi mp a,
    NoDup space -> clusters <> [] -> on_sites (length x0) clusters ->
    (forall x, In x space <-> Permutation x0 x) ->
    (forall i j, (i < length x0)%nat -> (j < length x0)%nat -> linked clusters i j) ->
    (forall x y, In x space -> In y space ->
       probability_of (accepts psi mp (fun _ _ => None) x y) (a x y)) ->
    ~ NoDup x0 \/ (exists x y, In x space /\ In y space /\ target psi mp x <> target psi mp y) ->
    mixes space (kernel cfg_eqd space (exchange_T clusters) a) (target psi mp).
Proof. exact exchange_mixes. Qed.
Print Assumptions C102_exchange_rule.

(** ... and without the last condition it need not. *)
Theorem C102_exchange_rule_always_refuted :
  exists x0 clusters space psi mp a,
    NoDup space /\ clusters <> [] /\ on_sites (length x0) clusters /\
    (forall x, In x space <-> Permutation x0 x) /\
    (forall i j, (i < length x0)%nat -> (j < length x0)%nat -> linked clusters i j) /\
    (forall x y, In x space -> In y space ->
       probability_of (accepts psi mp (fun _ _ => None) x y) (a x y)) /\
    ~ tends space (kernel cfg_eqd space (exchange_T clusters) a) (target psi mp).
Proof. exact exchange_refuted. Qed.
Print Assumptions C102_exchange_rule_always_refuted.

(** HamiltonianRule: if the operator joins all configurations and some configuration
    is connected to itself (or |psi|^machine_pow is not proportional to the number of
    connected configurations), the chain converges. *)
Theorem C102_hamiltonian_rule :
  forall conn space psi mp a,
    NoDup space ->
    (forall x, In x space -> conn x <> [] /\ forall y, In y (conn x) -> In y space) ->
    (forall x y, In x space -> In y space ->
       count_occ cfg_eqd (conn x) y = count_occ cfg_eqd (conn y) x) ->
    (forall x y, In x space -> In y space -> joined conn x y) ->
    (forall x y, In x space -> In y space ->
       probability_of (accepts psi mp (fun x y =>
         Some (Fin (ln (INR (length (conn x))) - ln (INR (length (conn y)))))) x y) (a x y)) ->
    (exists x, In x space /\ In x (conn x)) \/
    (exists x y, In x space /\ In y space /\
       target psi mp x * INR (length (conn y)) <> target psi mp y * INR (length (conn x))) ->
    mixes space (kernel cfg_eqd space (ham_T conn) a) (target psi mp).
Proof. exact hamiltonian_mixes. Qed.
Print Assumptions C102_hamiltonian_rule.

(** Under the conditions of C102_converges_iff, averages over the recorded
    configurations estimate expectation values: whatever the initial configuration
    and the number [s] of steps per recorded configuration, the mean square error of
    the average of any function over [n] of them is at most C/n. *)
Theorem C102_averages :
  forall X (eqd : forall x y : X, {x = y} + {x <> y}) space psi mp corr T a,
    NoDup space -> proposal space T -> corrected space T corr ->
    (forall x y, In x space -> In y space -> probability_of (accepts psi mp corr x y) (a x y)) ->
    connected space T -> odd_return space T \/ may_reject space T (accepts psi mp corr) ->
    forall s f, (0 < s)%nat -> exists C, forall n x, In x space -> (0 < n)%nat ->
      mean_square_error space (every space eqd s (kernel eqd space T a)) f
        (rsum (fun z => normalised space (target psi mp) z * f z) space) n x <= C / INR n.
Proof. exact (@averages). Qed.
Print Assumptions C102_averages.

(** In particular for LocalRule. *)
Theorem C102_local_rule_averages :
  forall h leaf space psi mp a,
    NoDup space -> space <> [] -> flippable h -> (0 < n_sites h)%nat ->
    (forall i, (i < n_sites h)%nat -> at_site h i (leaf i) /\ (2 <= n_local_values (leaf i))%Z) ->
    (forall x, In x space <-> site_valid h x) ->
    (forall x y, In x space -> In y space ->
       probability_of (accepts psi mp (fun _ _ => None) x y) (a x y)) ->
    (exists i, (i < n_sites h)%nat /\ (3 <= n_local_values (leaf i))%Z) \/
    (exists x y, In x space /\ In y space /\ target psi mp x <> target psi mp y) ->
    forall s f, (0 < s)%nat -> exists C, forall n x, In x space -> (0 < n)%nat ->
      mean_square_error space (every space cfg_eqd s (kernel cfg_eqd space (local_T h leaf) a)) f
        (rsum (fun z => normalised space (target psi mp) z * f z) space) n x <= C / INR n.
Proof. exact local_averages. Qed.
Print Assumptions C102_local_rule_averages.

(** ** Concrete cases *)

(** Two qubits with log psi = first bit: the weights differ, the chain converges. *)
Example local_rule_case :
  exists a, mixes two_qubits
    (kernel cfg_eqd two_qubits (local_T (Qubit 2) (fun _ => Qubit 2)) a)
    (target (fun x => IZR (nth 0 x 0%Z)) 2).
Proof.
  exists (fun x y => Rmin 1 (exp (log_prob (fun x => IZR (nth 0 x 0%Z)) 2 y - log_prob (fun x => IZR (nth 0 x 0%Z)) 2 x))).
  apply (C102_local_rule (Qubit 2) (fun _ => Qubit 2)).
  - exact two_qubits_nodup.
  - discriminate.
  - constructor. exact I.
  - cbn. lia.
  - intros i Hi. split; [constructor; [exact I|exact Hi]|cbn; lia].
  - exact two_qubits_valid.
  - intros x y _ _. apply prob_exists. apply Rlt_le, exp_pos.
  - right. exists [0; 0]%Z, [1; 0]%Z. split; [cbn; auto|]. split; [cbn; auto|].
    unfold target. cbn [powerRZ nth]. change (Pos.to_nat 2) with 2%nat. cbn [pow]. rewrite exp_0. pose proof (exp_ineq1 1 R1_neq_R0).
    intros E. assert (1 < exp 1 * exp 1) by nra. lra.
Qed.

(** Three qubits with one excitation on a chain 0-1-2, constant psi. *)
Example exchange_rule_case :
  exists space a, mixes space (kernel cfg_eqd space (exchange_T [(0, 1); (1, 2)]%Z) a) (target (fun _ => 0) 2).
Proof.
  exists [[1; 0; 0]; [0; 1; 0]; [0; 0; 1]]%Z, (fun _ _ => 1).
  apply (C102_exchange_rule [1; 0; 0]%Z).
  - repeat constructor; cbn; intuition discriminate.
  - discriminate.
  - repeat constructor; cbn; lia.
  - intros x. split.
    + intros [<-|[<-|[<-|[]]]]; [apply Permutation_refl|apply perm_swap|].
      apply (Permutation_trans (l' := [0; 1; 0]%Z)); [apply perm_swap|apply perm_skip, perm_swap].
    + intros H. pose proof (Permutation_length H) as Hl. destruct x as [|p [|q [|r [|? x]]]]; try discriminate Hl.
      pose proof (proj1 (Permutation_count_occ Z.eq_dec _ _) H 0%Z) as C0.
      pose proof (proj1 (Permutation_count_occ Z.eq_dec _ _) H 1%Z) as C1. cbn in C0, C1.
      repeat match type of C0 with context[Z.eq_dec ?u 0%Z] => destruct (Z.eq_dec u 0%Z); subst end;
      repeat match type of C1 with context[Z.eq_dec ?u 1%Z] => destruct (Z.eq_dec u 1%Z); subst end;
      try discriminate; try lia; cbn; auto.
  - assert (H01 : linked [(0, 1); (1, 2)]%Z 0 1) by (apply rt_step; left; cbn; auto).
    assert (H10 : linked [(0, 1); (1, 2)]%Z 1 0) by (apply rt_step; right; cbn; auto).
    assert (H12 : linked [(0, 1); (1, 2)]%Z 1 2) by (apply rt_step; left; cbn; auto).
    assert (H21 : linked [(0, 1); (1, 2)]%Z 2 1) by (apply rt_step; right; cbn; auto).
    intros i j Hi Hj. cbn [length] in Hi, Hj.
    destruct i as [|[|[|i]]]; [| | |lia]; (destruct j as [|[|[|j]]]; [| | |lia]); try apply rt_refl; try assumption.
    + exact (rt_trans _ _ _ _ _ H01 H12).
    + exact (rt_trans _ _ _ _ _ H21 H10).
  - intros x y _ _. apply accept_const.
  - left. intros H. inversion H as [|? ? _ H']; subst. inversion H' as [|? ? Hn _]; subst. apply Hn. left. reflexivity.
Qed.

(** One qubit with the operator 1 + sigma_x. *)
Example hamiltonian_rule_case :
  exists a, mixes [[0]; [1]]%Z (kernel cfg_eqd [[0]; [1]]%Z (ham_T (fun _ => [[0]; [1]]%Z)) a) (target (fun x => IZR (nth 0 x 0%Z)) 2).
Proof.
  exists (fun x y => Rmin 1 (exp (log_prob (fun x => IZR (nth 0 x 0%Z)) 2 y - log_prob (fun x => IZR (nth 0 x 0%Z)) 2 x
     + (ln (INR (@length cfg [[0]; [1]]%Z)) - ln (INR (@length cfg [[0]; [1]]%Z)))))).
  apply (C102_hamiltonian_rule (fun _ => [[0]; [1]]%Z)).
  - repeat constructor; cbn; intuition discriminate.
  - intros x _. split; [discriminate|]. intros y Hy. exact Hy.
  - intros x y [<-|[<-|[]]] [<-|[<-|[]]]; reflexivity.
  - intros x y _ Hy. apply rt_step. exact Hy.
  - intros x y _ _. apply prob_exists. apply Rlt_le, exp_pos.
  - left. exists [0]%Z. cbn. auto.
Qed.

(** One site with three values and constant psi for LocalRuleNumpy. *)
Example local_rule_numpy_case :
  exists a, mixes [[0]; [1]; [2]]%Z (kernel cfg_eqd [[0]; [1]; [2]]%Z (np_local_T [0; 1; 2]%Z 1) a) (target (fun _ => 0) 2).
Proof.
  exists (fun _ _ => 1). apply (C102_local_rule_numpy [0; 1; 2]%Z 1).
  - repeat constructor; cbn; intuition discriminate.
  - discriminate.
  - cbn. lia.
  - cbn. lia.
  - lia.
  - intros x. split.
    + intros [<-|[<-|[<-|[]]]]; (split; [reflexivity|constructor; [cbn; auto|constructor]]).
    + intros [Hl Hv]. destruct x as [|v [|? ?]]; try discriminate Hl. inversion Hv as [|? ? H1 _]; subst.
      destruct H1 as [<-|[<-|[<-|[]]]]; cbn; auto.
  - intros x y _ _. destruct (accept_const 2 x y) as [B H]. split; [exact B|]. intros u Hu.
    rewrite <- accepts_iff_np. apply H, Hu.
  - left. cbn. lia.
Qed.

(** The first bit of two qubits, recorded every two steps. *)
Example local_rule_averages_case :
  exists a C, forall n x, In x two_qubits -> (0 < n)%nat ->
    mean_square_error two_qubits
      (every two_qubits cfg_eqd 2 (kernel cfg_eqd two_qubits (local_T (Qubit 2) (fun _ => Qubit 2)) a))
      (fun x => IZR (nth 0 x 0%Z))
      (rsum (fun z => normalised two_qubits (target (fun x => IZR (nth 0 x 0%Z)) 2) z * IZR (nth 0 z 0%Z)) two_qubits)
      n x <= C / INR n.
Proof.
  exists (fun x y => Rmin 1 (exp (log_prob (fun x => IZR (nth 0 x 0%Z)) 2 y - log_prob (fun x => IZR (nth 0 x 0%Z)) 2 x))).
  apply (C102_local_rule_averages (Qubit 2) (fun _ => Qubit 2)) with (f := fun x => IZR (nth 0 x 0%Z)).
  - exact two_qubits_nodup.
  - discriminate.
  - constructor. exact I.
  - cbn. lia.
  - intros i Hi. split; [constructor; [exact I|exact Hi]|cbn; lia].
  - exact two_qubits_valid.
  - intros x y _ _. apply prob_exists. apply Rlt_le, exp_pos.
  - right. exists [0; 0]%Z, [1; 0]%Z. split; [cbn; auto|]. split; [cbn; auto|].
    unfold target. cbn [powerRZ nth]. change (Pos.to_nat 2) with 2%nat. cbn [pow]. rewrite exp_0.
    pose proof (exp_ineq1 1 R1_neq_R0).
    intros E. assert (1 < exp 1 * exp 1) by nra. lra.
  - lia.
Qed.
