From Coq Require Import List ZArith Reals Arith Lra Lia Permutation Relations Bool.
From Verif Require Import Base BaseFacts Hilbert_Model HilbertOps_Model HilbertOps_Spec HilbertOps_Proofs
  Balance_Model Balance_Spec Balance_Proofs Rules_Model Rules_Spec Rules_Proofs Ergo_Spec Ergo_Proofs Ergo_Metro Ergo_Rules Ergo_Exch Ergo_LLN.
Import ListNotations.
Open Scope R_scope.

Lemma general {X} (eqd : forall x y : X, {x = y} + {x <> y}) space psi mp corr T a :
  NoDup space -> space <> [] -> proposal space T -> corrected space T corr ->
  (forall x y, In x space -> In y space -> probability_of (accepts psi mp corr x y) (a x y)) ->
  let K := kernel eqd space T a in
  let ergodic := connected space T /\ (odd_return space T \/ may_reject space T (accepts psi mp corr)) in
  (ergodic -> mixes space K (target psi mp)) /\
  (mixes space K (target psi mp) -> tends space K (target psi mp)) /\
  (tends space K (target psi mp) -> ergodic).
Proof.
  intros Hnd Hne HT Hc Ha K ergodic. split; [|split].
  - intros [H1 H2]. apply (mixes_if eqd space Hnd psi mp corr T a HT Hc Ha H1 H2).
  - apply mixes_tends.
  - apply (tends_only_if eqd space Hnd psi mp corr T a HT Hc Ha Hne).
Qed.

(** ** LocalRuleNumpy *)
Lemma np_kernel ls n space a : (forall x, In x space -> length x = n) ->
  forall x y, In x space -> In y space ->
  kernel cfg_eqd space (local_T (Custom (Some ls) n None) (fun _ => Custom (Some ls) n None)) a x y =
  kernel cfg_eqd space (np_local_T ls n) a x y.
Proof.
  intros H x y Hx Hy. unfold kernel. apply rsum_ext. intros z Hz.
  rewrite np_local_T_eq by (apply H, Hx). reflexivity.
Qed.

Lemma np_local_mixes_iff ls n space psi mp a :
  NoDup space -> space <> [] -> increasing ls -> (2 <= length ls)%nat -> (0 < n)%nat ->
  (forall x, In x space <-> length x = n /\ Forall (fun v => In v ls) x) ->
  (forall x y, In x space -> In y space ->
     probability_of (np_accepts psi mp (fun _ _ => None) x y) (a x y)) ->
  let K := kernel cfg_eqd space (np_local_T ls n) a in
  let live := (3 <= length ls)%nat \/
              (exists x y, In x space /\ In y space /\ target psi mp x <> target psi mp y) in
  (live -> mixes space K (target psi mp)) /\ (tends space K (target psi mp) -> live).
Proof.
  intros Hnd Hne Hinc H2 Hn Hsp Ha K live.
  set (h := Custom (Some ls) n None). set (leaf := fun _ : nat => h).
  assert (HL : forall i, (i < n_sites h)%nat -> at_site h i (leaf i) /\ (2 <= n_local_values (leaf i))%Z).
  { intros i Hi. split; [constructor; [exact I|exact Hi]|]. cbn. lia. }
  assert (Hsv : forall x, In x space <-> site_valid h x).
  { intros x. rewrite Hsp. unfold site_valid. cbn [h n_sites]. split; intros [Hl Hv]; (split; [exact Hl|]).
    - intros i g Hg. inversion Hg; subst. cbn. apply (proj1 (Forall_forall _ _) Hv), nth_In.
      match goal with H : (i < n_sites _)%nat |- _ => cbn in H; lia end.
    - apply Forall_forall. intros v Hin. apply (In_nth x v 0%Z) in Hin. destruct Hin as (i & Hi & <-).
      apply (Hv i h). constructor; [exact I|]. cbn. lia. }
  assert (Ha' : forall x y, In x space -> In y space -> probability_of (accepts psi mp (fun _ _ => None) x y) (a x y)).
  { intros x y Hx Hy. destruct (Ha x y Hx Hy) as [B H]. split; [exact B|]. intros u Hu.
    rewrite accepts_iff_np. apply H, Hu. }
  destruct (local_mixes_iff h leaf space psi mp a Hnd Hne (flippable_homog h Hinc) Hn HL Hsv Ha') as [F G].
  pose proof (np_kernel ls n space a (fun x Hx => proj1 (proj1 (Hsp x) Hx))) as HK.
  split.
  - intros Hlive. apply (mixes_same space _ K _ HK). apply F. destruct Hlive as [H3|Hd]; [left|right; exact Hd].
    exists 0%nat. cbn. split; [exact Hn|lia].
  - intros Ht. destruct G as [(i & Hi & H3)|Hd].
    + apply (tends_same space K); [|exact Ht]. intros x y Hx Hy. symmetry. apply HK; assumption.
    + left. cbn in H3. lia.
    + right. exact Hd.
Qed.

(** ** Two values per site and a constant wave function *)
Lemma agree_filter x z l :
  Nat.odd (length (filter (fun i => negb (Z.eqb (nth i z 0%Z) (nth i x 0%Z))) l)) = xorb (agree x z l) (Nat.odd (length l)).
Proof.
  induction l as [|i l IH]; [reflexivity|]. cbn [filter agree fold_right length]. fold (agree x z l).
  rewrite (Nat.odd_succ (length l)), <- Nat.negb_odd.
  destruct (Z.eqb (nth i z 0%Z) (nth i x 0%Z)); cbn [negb length].
  - rewrite IH. destruct (agree x z l), (Nat.odd (length l)); reflexivity.
  - rewrite Nat.odd_succ, <- Nat.negb_odd, IH. destruct (agree x z l), (Nat.odd (length l)); reflexivity.
Qed.

Lemma agree_self x l : agree x x l = Nat.odd (length l).
Proof.
  induction l as [|i l IH]; [reflexivity|]. cbn [agree fold_right length]. fold (agree x x l).
  rewrite IH, Z.eqb_refl, Nat.odd_succ, <- Nat.negb_odd. destruct (Nat.odd (length l)); reflexivity.
Qed.

Lemma parity_locked h leaf space psi mp a :
  NoDup space -> flippable h -> (0 < n_sites h)%nat ->
  (forall i, (i < n_sites h)%nat -> at_site h i (leaf i) /\ n_local_values (leaf i) = 2%Z) ->
  (forall x, In x space <-> site_valid h x) ->
  (forall x y, In x space -> In y space ->
     probability_of (accepts psi mp (fun _ _ => None) x y) (a x y)) ->
  (forall x y, In x space -> In y space -> target psi mp x = target psi mp y) ->
  forall x z n, In x space -> In z space ->
    pushes space (kernel cfg_eqd space (local_T h leaf) a) n (fun y => if cfg_eqd y x then 1 else 0) z <> 0 ->
    Nat.odd (differing x z) = Nat.odd n.
Proof.
  intros Hnd HF Hn HL2 Hsp Ha Hconst x z n Hx Hz Hne.
  assert (HL : forall i, (i < n_sites h)%nat -> at_site h i (leaf i) /\ (2 <= n_local_values (leaf i))%Z).
  { intros i Hi. destruct (HL2 i Hi) as [H1 H2]. split; [exact H1|lia]. }
  pose proof (local_proposal h leaf space Hnd HF Hn HL Hsp) as HT.
  assert (Hsym : forall x y, In x space -> In y space -> local_T h leaf y x = local_T h leaf x y).
  { intros u v Hu Hv. apply local_T_sym; auto; [intros i Hi; apply HL, Hi|apply Hsp, Hv|apply Hsp, Hu]. }
  assert (Hc : corrected space (local_T h leaf) (fun _ _ => None)) by (intros u v Hu Hv _; apply Hsym; assumption).
  rewrite (pushes_kpow cfg_eqd space Hnd) in Hne by exact Hz.
  set (kp := kpow cfg_eqd space (kernel cfg_eqd space (local_T h leaf) a)) in *.
  rewrite (rsum_ext _ (fun y => kp n y z * (if cfg_eqd y x then 1 else 0))) in Hne by (intros; ring).
  rewrite (rsum_delta cfg_eqd (fun y => kp n y z)) in Hne by assumption.
  assert (K0 : forall x y, In x space -> In y space -> 0 <= kernel cfg_eqd space (local_T h leaf) a x y).
  { intros u v Hu _. apply (kernel_nonneg cfg_eqd space psi mp (fun _ _ => None) _ a HT Ha u v Hu). }
  assert (Hp : 0 < kp n x z).
  { destruct (Rle_lt_or_eq_dec _ _ (kpow_nonneg cfg_eqd space _ K0 n x z Hx)) as [|E]; [assumption|].
    exfalso. apply Hne. symmetry. exact E. }
  destruct (kpow_inv cfg_eqd space psi mp (fun _ _ => None) _ a HT Hc Ha n x z Hx Hz Hp)
    as [_ [Hw|(u & v & Hu & Hv & Hp' & Hrej)]].
  - assert (Hflip : forall u v, In u space -> In v space -> 0 < local_T h leaf u v ->
                 agree x v (seq 0 (n_sites h)) = negb (agree x u (seq 0 (n_sites h)))).
    { apply (flip_parity h leaf space HF HL Hsp); [|exact Hx]. intros i Hi. apply HL2, Hi. }
    pose proof (walk_parity space _ _ n x z Hflip Hw) as E.
    unfold differing. rewrite agree_filter. pose proof (proj1 (proj1 (Hsp x) Hx)) as Lx. rewrite Lx.
    rewrite E, agree_self. destruct (Nat.odd n), (Nat.odd (length (seq 0 (n_sites h)))); reflexivity.
  - exfalso. apply (reject_iff space psi mp (fun _ _ => None) a Ha u v Hu Hv) in Hrej.
    rewrite (uphill space psi mp (fun _ _ => None) _ a HT Hc Ha u v Hu Hv Hp' (Hsym u v Hu Hv) (Hconst u v Hu Hv)) in Hrej.
    lra.
Qed.

(** ** Concrete cases *)
Definition two_qubits : list cfg := [[0; 0]; [0; 1]; [1; 0]; [1; 1]]%Z.

Lemma two_qubits_nodup : NoDup two_qubits.
Proof. unfold two_qubits. repeat constructor; cbn; intuition discriminate. Qed.

Lemma two_qubits_valid x : In x two_qubits <-> site_valid (Qubit 2) x.
Proof.
  unfold site_valid. cbn [n_sites]. split.
  - intros H. unfold two_qubits in H. cbn in H.
    assert (Hl : length x = 2%nat) by (destruct H as [<-|[<-|[<-|[<-|[]]]]]; reflexivity).
    split; [exact Hl|]. intros i g Hg. inversion Hg as [? ? Hh Hi| | | |]; subst. cbn in Hi. cbn [local_value].
    destruct i as [|[|i]]; [| |lia]; destruct H as [<-|[<-|[<-|[<-|[]]]]]; cbn; auto.
  - intros [Hl Hv]. destruct x as [|a [|b [|c x]]]; try discriminate Hl.
    pose proof (Hv 0%nat (Qubit 2) (at_homog (Qubit 2) 0 I (le_S _ _ (le_n _)))) as H0.
    pose proof (Hv 1%nat (Qubit 2) (at_homog (Qubit 2) 1 I (le_n _))) as H1. cbn in H0, H1.
    destruct H0 as [-> | ->], H1 as [-> | ->]; unfold two_qubits; cbn; auto 6.
Qed.

Lemma accept_const {X} mp (x y : X) : probability_of (accepts (fun _ => 0) mp (fun _ _ => None) x y) 1.
Proof.
  split; [lra|]. intros u Hu. unfold accepts, log_prob. rewrite !Rmult_0_r, Rminus_0_r, exp_0. tauto.
Qed.

Lemma local_refuted : exists h leaf space psi mp a,
  NoDup space /\ space <> [] /\ flippable h /\ (0 < n_sites h)%nat /\
  (forall i, (i < n_sites h)%nat -> at_site h i (leaf i) /\ (2 <= n_local_values (leaf i))%Z) /\
  (forall x, In x space <-> site_valid h x) /\
  (forall x y, In x space -> In y space ->
     probability_of (accepts psi mp (fun _ _ => None) x y) (a x y)) /\
  ~ tends space (kernel cfg_eqd space (local_T h leaf) a) (target psi mp).
Proof.
  exists (Qubit 2), (fun _ => Qubit 2), two_qubits, (fun _ => 0), 2%Z, (fun _ _ => 1).
  assert (HL : forall i, (i < 2)%nat -> at_site (Qubit 2) i (Qubit 2) /\ (2 <= n_local_values (Qubit 2))%Z).
  { intros i Hi. split; [constructor; [exact I|exact Hi]|cbn; lia]. }
  assert (Ha : forall x y, In x two_qubits -> In y two_qubits ->
     probability_of (accepts (fun _ : cfg => 0) 2 (fun _ _ => None) x y) ((fun _ _ : cfg => 1) x y)).
  { intros x y _ _. apply accept_const. }
  split; [exact two_qubits_nodup|]. split; [discriminate|]. split; [constructor; exact I|]. split; [cbn; lia|].
  split; [exact HL|]. split; [exact two_qubits_valid|]. split; [exact Ha|]. intros Ht.
  destruct (local_mixes_iff (Qubit 2) (fun _ => Qubit 2) two_qubits (fun _ => 0) 2%Z (fun _ _ => 1)
    two_qubits_nodup ltac:(discriminate) (flippable_homog (Qubit 2) I) ltac:(cbn; lia) HL two_qubits_valid Ha) as [_ G].
  destruct (G Ht) as [(i & _ & H3)|(x & y & _ & _ & Hd)]; [cbn in H3; lia|]. apply Hd. reflexivity.
Qed.

Lemma exchange_refuted : exists x0 clusters space psi mp a,
  NoDup space /\ clusters <> [] /\ on_sites (length x0) clusters /\
  (forall x, In x space <-> Permutation x0 x) /\
  (forall i j, (i < length x0)%nat -> (j < length x0)%nat -> linked clusters i j) /\
  (forall x y, In x space -> In y space ->
     probability_of (accepts psi mp (fun _ _ => None) x y) (a x y)) /\
  ~ tends space (kernel cfg_eqd space (exchange_T clusters) a) (target psi mp).
Proof.
  set (space := [[1; -1]; [-1; 1]]%Z). set (cl := [(0, 1)]%Z).
  exists [1; -1]%Z, cl, space, (fun _ => 0), 2%Z, (fun _ _ => 1).
  assert (Hnd : NoDup space) by (unfold space; repeat constructor; cbn; intuition discriminate).
  assert (Hon : on_sites 2 cl) by (repeat constructor; cbn; lia).
  assert (Hs0 : forall x, In x space <-> Permutation [1; -1]%Z x).
  { intros x. split.
    - intros [<-|[<-|[]]]; [apply Permutation_refl|apply perm_swap].
    - intros H. apply Permutation_length_2_inv in H. destruct H as [-> | ->]; cbn; auto. }
  assert (Ha : forall x y, In x space -> In y space ->
     probability_of (accepts (fun _ : cfg => 0) 2 (fun _ _ => None) x y) ((fun _ _ : cfg => 1) x y)).
  { intros x y _ _. apply accept_const. }
  split; [exact Hnd|]. split; [discriminate|]. split; [exact Hon|]. split; [exact Hs0|]. split.
  { intros i j Hi Hj. cbn [length] in Hi, Hj. unfold linked.
    destruct i as [|[|i]]; [| |lia]; (destruct j as [|[|j]]; [| |lia]).
    - apply rt_refl.
    - apply rt_step. left. cbn. auto.
    - apply rt_step. right. cbn. auto.
    - apply rt_refl. }
  split; [exact Ha|]. intros Ht.
  assert (Hsp : forall x, In x space -> length x = 2%nat /\ forall y, Permutation x y -> In y space).
  { intros x Hx. apply Hs0 in Hx. split; [symmetry; apply (Permutation_length Hx)|].
    intros y Hy. apply Hs0. eapply Permutation_trans; eassumption. }
  pose proof (exchange_proposal 2 cl space Hnd ltac:(discriminate) Hon Hsp) as HT.
  assert (Hsym : forall x y, In x space -> In y space -> exchange_T cl y x = exchange_T cl x y).
  { intros x y Hx Hy. apply (exchange_T_sym 2); auto; apply Hsp; assumption. }
  assert (Hc : corrected space (exchange_T cl) (fun _ _ => None)) by (intros x y Hx Hy _; apply Hsym; assumption).
  destruct (tends_only_if cfg_eqd space Hnd (fun _ => 0) 2%Z (fun _ _ => None) (exchange_T cl) (fun _ _ => 1) HT Hc Ha
             ltac:(discriminate) Ht) as [_ [(x & n & Hodd & Hw)|(x & y & Hx & Hy & Hp & Hrej)]].
  - assert (Hflip : forall u v, In u space -> In v space -> 0 < exchange_T cl u v ->
              Z.eqb (nth 0 v 0%Z) 1 = negb (Z.eqb (nth 0 u 0%Z) 1)).
    { intros u v Hu _ Hp. apply uniform_prob_pos_inv in Hp. destruct Hp as [<-|[]].
      destruct Hu as [<-|[<-|[]]]; reflexivity. }
    pose proof (walk_parity space _ (fun x => Z.eqb (nth 0 x 0%Z) 1) n x x Hflip Hw) as E. apply Nat.odd_spec in Hodd.
    rewrite Hodd in E. destruct (Z.eqb (nth 0 x 0%Z) 1); discriminate E.
  - destruct Hrej as (u & Hu & Hn). apply Hn. apply (accept_const 2 x y); lra.
Qed.

Lemma local_averages h leaf space psi mp a :
  NoDup space -> space <> [] -> flippable h -> (0 < n_sites h)%nat ->
  (forall i, (i < n_sites h)%nat -> at_site h i (leaf i) /\ (2 <= n_local_values (leaf i))%Z) ->
  (forall x, In x space <-> site_valid h x) ->
  (forall x y, In x space -> In y space ->
     probability_of (accepts psi mp (fun _ _ => None) x y) (a x y)) ->
  (exists i, (i < n_sites h)%nat /\ (3 <= n_local_values (leaf i))%Z) \/
  (exists x y, In x space /\ In y space /\ target psi mp x <> target psi mp y) ->
  forall s f, (0 < s)%nat -> exists C, forall n x, In x space -> (0 < n)%nat ->
    mean_square_error space (every space cfg_eqd s (kernel cfg_eqd space (local_T h leaf) a)) f
      (rsum (fun z => normalised space (target psi mp) z * f z) space) n x <= C / INR n.
Proof.
  intros Hnd Hne HF Hn HL Hsp Ha Hlive.
  pose proof (local_proposal h leaf space Hnd HF Hn HL Hsp) as HT.
  assert (Hc : corrected space (local_T h leaf) (fun _ _ => None)).
  { intros x y Hx Hy _. apply local_T_sym; auto; [intros i Hi; apply HL, Hi|apply Hsp, Hy|apply Hsp, Hx]. }
  apply (estimate cfg_eqd space psi mp (fun _ _ => None) _ a Hnd HT Hc Ha).
  apply (local_mixes_iff h leaf space psi mp a Hnd Hne HF Hn HL Hsp Ha). exact Hlive.
Qed.
