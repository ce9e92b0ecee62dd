(** * Proofs: counter-examples and examples *)
From Coq Require Import ZArith QArith List Bool Reals Permutation Lra Lia.
From Verif Require Import Base BaseFacts Hilbert_Model Hilbert_Spec Hilbert_Proofs HilbertOps_Model HilbertOps_Spec HilbertOps_Proofs Balance_Spec Balance_Proofs Rules_Spec Unif_Model Unif_Spec Unif_Proofs Unif_Fill Unif_Main Unif_Multi.
Import ListNotations.
Open Scope R_scope.

Lemma legacy_fock_uniform_thm m N : (0 < m)%Z ->
  uniform_on (random_state_legacy (Fock m true N None)) (fun x => length x = N /\ forall z, In z x -> (0 <= z < m)%Z).
Proof.
  intros Hm. destruct (iid_good (Z.to_nat m) Z.of_nat N) as [A B]; [lia|intros; lia|].
  assert (E : forall x, length x = N /\ Forall (values (Z.to_nat m) Z.of_nat) x <-> length x = N /\ (forall z, In z x -> (0 <= z < m)%Z)).
  { intros x. symmetry. apply iff_Forall. intros z. unfold values. split; [intros H; exists (Z.to_nat z); lia|intros (i & Hi & <-); lia]. }
  apply good_uniform; [eapply good_ext; [exact E|exact A]|eapply flat_ext; [exact E|exact B]].
Qed.

Lemma legacy_fock_refuted_thm m N : (0 <= m)%Z -> (0 < N)%nat ->
  drawable (Fock m true N None) /\ ~ supported_on (random_state_legacy (Fock m true N None)) (config (Fock m true N None)).
Proof.
  intros Hm HN. split; [constructor; exact Hm|]. intros [H1 H2]. destruct (Z.eq_dec m 0) as [->|Hm0].
  - destruct N as [|N]; [lia|]. exact H1.
  - specialize (H2 (repeat m N)). destruct H2 as [_ H2].
    rewrite legacy_fock_thm in H2; [|lia|destruct N; [lia|left; reflexivity]].
    apply (Rlt_irrefl 0). apply H2. apply config_Fock_iff. split; [apply repeat_length|]. split; [|discriminate].
    intros z Hz. apply repeat_spec in Hz. lia.
Qed.
Lemma legacy_fock_zero_thm N : random_state_legacy (Fock 0 true (S N) None) = Fail ValueError.
Proof. reflexivity. Qed.

Lemma refuted_fock : drawable (Fock 2 true 2 (Some (2%Z, O))) /\
  ~ uniform_on (random_state (Fock 2 true 2 (Some (2%Z, O)))) (config (Fock 2 true 2 (Some (2%Z, O)))).
Proof.
  assert (E : mk_Fock (Some 2%Z) 2 (Some 2%Z) 0 = Ok (Fock 2 true 2 (Some (2%Z, O)))) by reflexivity.
  split; [eapply draw_Fock_constrained; [exact E|lia]|]. intros (_ & _ & U).
  assert (Lst : forall x, In x [[0; 2]; [1; 1]; [2; 0]]%Z <-> config (Fock 2 true 2 (Some (2%Z, O))) x).
  { intros x. rewrite config_Fock_iff. split.
    - intros H. cbn in H. destruct H as [<-|[<-|[<-|[]]]]; (split; [reflexivity|split; [intros z Hz; cbn in Hz; destruct Hz as [<-|[<-|[]]]; lia|intros p id E0; injection E0 as <- <-; reflexivity]]).
    - intros (L & V & Sm). specialize (Sm 2%Z O eq_refl). destruct x as [|a [|b [|c x]]]; try discriminate. cbn in Sm.
      pose proof (V a (or_introl eq_refl)). pose proof (V b (or_intror (or_introl eq_refl))). cbn.
      assert (a = 0 \/ a = 1 \/ a = 2)%Z as [->|[->| ->]] by lia; [left|right; left|right; right; left]; do 2 f_equal; try lia; f_equal; lia. }
  assert (ND : NoDup [[0; 2]; [1; 1]; [2; 0]]%Z).
  { repeat constructor; cbn; intuition discriminate. }
  pose proof (U _ ND Lst [1; 1]%Z ltac:(cbn; auto)) as P1.
  rewrite (multinomial_thm _ _ _ _ _ _ E ltac:(lia) ltac:(cbn; lia)) in P1 by (apply Lst; cbn; auto).
  change (Z.to_nat 2) with 2%nat in P1. cbn in P1. change (INR (fact (Pos.to_nat 1))) with 1 in P1.
  assert (X : / 2 = / 3) by (etransitivity; [|etransitivity; [exact P1|]]; field). lra.
Qed.

Lemma refuted_spin : drawable (Spin 2 2 (Some (0%Q, O))) /\
  ~ uniform_on (random_state (Spin 2 2 (Some (0%Q, O)))) (config (Spin 2 2 (Some (0%Q, O)))).
Proof.
  assert (E : mk_Spin 2 2 (Some 0%Q) 0 = Ok (Spin 2 2 (Some (0%Q, O)))) by reflexivity.
  split; [eapply (draw_Spin_constrained _ _ _ _ _ 0); [exact E|reflexivity]|]. intros (_ & _ & U).
  assert (Lst : forall x, In x [[-2; 2]; [0; 0]; [2; -2]]%Z <-> config (Spin 2 2 (Some (0%Q, O))) x).
  { intros x. rewrite config_Spin_iff. split.
    - intros H. cbn in H. destruct H as [<-|[<-|[<-|[]]]]; (split; [reflexivity|split; [intros z Hz; cbn in Hz; destruct Hz as [<-|[<-|[]]]; first [exists 0%Z; lia|exists 1%Z; lia|exists 2%Z; lia]|intros p id E0; injection E0 as <- <-; reflexivity]]).
    - intros (L & V & Sm). specialize (Sm 0%Q O eq_refl). destruct x as [|a [|b [|c x]]]; try discriminate.
      destruct (V a (or_introl eq_refl)) as (i & Hi & ->). destruct (V b (or_intror (or_introl eq_refl))) as (j & Hj & ->).
      assert (Sz : (- Z.of_nat 2 + 2 * i + (- Z.of_nat 2 + 2 * j + 0) = 0)%Z).
      { assert (Q0 : zsum [(- Z.of_nat 2 + 2 * i)%Z; (- Z.of_nat 2 + 2 * j)%Z] = 0%Z); [|exact Q0].
        revert Sm. generalize (zsum [(- Z.of_nat 2 + 2 * i)%Z; (- Z.of_nat 2 + 2 * j)%Z]). intros q. unfold Qeq. cbn. lia. }
      assert (j = 2 - i)%Z as -> by lia.
      assert (i = 0 \/ i = 1 \/ i = 2)%Z as [->|[->| ->]] by lia; cbn; auto. }
  assert (ND : NoDup [[-2; 2]; [0; 0]; [2; -2]]%Z).
  { repeat constructor; cbn; intuition discriminate. }
  pose proof (U _ ND Lst [0; 0]%Z ltac:(cbn; auto)) as P1.
  revert P1. unfold prob. cbv -[Rplus Rmult Rinv IZR INR length]. cbn. lra.
Qed.

Lemma legacy_tensor_thm l : random_state_legacy (Tensor l) = Fail AttributeError.
Proof. reflexivity. Qed.
Lemma constrained_custom_thm ls N c : random_state (Custom (Some ls) N (Some c)) = Fail NotImplementedError /\ random_state_legacy (Custom (Some ls) N (Some c)) = Fail NotImplementedError.
Proof. split; reflexivity. Qed.
Lemma dispatch_thm : (forall l s, dispatch_random (ATuple l) s = Legacy (ATuple l)) /\
  (forall n, dispatch_random NotGiven (AnInt n) = Legacy (AnInt n) /\ dispatch_random AKey (AnInt n) = WithKey AKey (AnInt n) /\ dispatch_random (AnInt n) NotGiven = Legacy (AnInt n)) /\
  dispatch_random AKey NotGiven = WithKey AKey ANone /\ dispatch_random NotGiven NotGiven = Legacy ANone.
Proof. repeat split. Qed.

Lemma example_space : drawable (Tensor [Fock 1 true 3 (Some (2%Z, O)); Doubled (Spin 1 4 (Some (0%Q, O))); Custom (Some [3; 5; 7]%Z) 2 None]) /\
  two_valued (Tensor [Fock 1 true 3 (Some (2%Z, O)); Doubled (Spin 1 4 (Some (0%Q, O))); Custom (Some [3; 5; 7]%Z) 2 None]).
Proof.
  split; [|cbn; auto]. apply draw_Tensor. apply Forall_cons; [|apply Forall_cons; [|apply Forall_cons; [|apply Forall_nil]]].
  - apply (draw_Fock_constrained (Some 1%Z) 3 2 O); [reflexivity|lia].
  - apply draw_Doubled. apply (draw_Spin_constrained 1 4 0 O _ 0); reflexivity.
  - apply draw_Custom; [|discriminate]. repeat constructor; cbn; intuition lia.
Qed.
Lemma example_prob : prob (random_state (Spin 1 4 (Some (0%Q, O)))) [1; -1; -1; 1]%Z = / 6.
Proof.
  assert (E : mk_Spin 1 4 (Some 0%Q) 0 = Ok (Spin 1 4 (Some (0%Q, O)))) by reflexivity.
  cbn [random_state]. change (1 =? 1)%nat with true. cbv iota zeta. rewrite (shuffle_prob 1 (-1)); [| |reflexivity| |].
  - change (cnt 1 (spin_half_unshuffled 4 0)) with 2%nat. change (cnt (-1) (spin_half_unshuffled 4 0)) with 2%nat. change (length (spin_half_unshuffled 4 0)) with 4%nat. cbn. lra.
  - lia.
  - intros z Hz. vm_compute in Hz. intuition lia.
  - change (spin_half_unshuffled 4 0) with [1; 1; -1; -1]%Z. apply perm_skip. apply (perm_trans (l' := [-1; 1; -1]%Z)); [apply perm_swap|apply perm_skip, perm_swap].
Qed.
