(** * Proofs about spin and boson operators *)
From Coq Require Import List ZArith QArith Qround Qreals Reals Lia Lra Bool.
From Verif Require Import Base BaseFacts Rings ARNN_Model ToArray_Model Scalar LocalOp_Model
  SpinOps_Model SpinOps_Spec.
Import ListNotations.
Open Scope nat_scope.

(** ** Ranges *)
Lemma arange_count (start stop step : Q) (n : nat) :
  ((stop - start) / step == inject_Z (Z.of_nat n))%Q ->
  np_arange start stop step
  = map (fun k => (start + inject_Z (Z.of_nat k) * step)%Q) (seq 0 n).
Proof.
  intros E. unfold np_arange. rewrite (Qceiling_comp _ _ E), Qceiling_Z, Nat2Z.id. reflexivity.
Qed.

Lemma q2r_Z (z : Z) : Q2R (inject_Z z) = IZR z.
Proof. unfold Q2R, inject_Z. cbn. field. Qed.

Lemma inject_pred (N : nat) : 0 < N ->
  (inject_Z (Z.of_nat (N - 1)) == inject_Z (Z.of_nat N) - 1)%Q.
Proof.
  intros H. replace (Z.of_nat (N - 1)) with (Z.of_nat N - 1)%Z by lia.
  unfold Z.sub. rewrite inject_Z_plus. reflexivity.
Qed.

Lemma arange_ones (N : nat) : 0 < N ->
  np_arange 1 (inject_Z (Z.of_nat N)) 1
  = map (fun k => (1 + inject_Z (Z.of_nat k) * 1)%Q) (seq 0 (N - 1)).
Proof. intros H. apply arange_count. rewrite inject_pred by lia. field. Qed.

Lemma arange_zeros (N : nat) :
  np_arange 0 (inject_Z (Z.of_nat N)) 1
  = map (fun k => (0 + inject_Z (Z.of_nat k) * 1)%Q) (seq 0 N).
Proof. apply arange_count. field. Qed.

Lemma arange_z (N : nat) :
  np_arange (spin_S N) (- (spin_S N + 1)) (- 1)
  = map (fun k => (spin_S N + inject_Z (Z.of_nat k) * - 1)%Q) (seq 0 N).
Proof. apply arange_count. unfold spin_S. field. Qed.

Lemma arange_m (N : nat) : 0 < N ->
  np_arange (spin_S N) (- spin_S N) (- 1)
  = map (fun k => (spin_S N + inject_Z (Z.of_nat k) * - 1)%Q) (seq 0 (N - 1)).
Proof. intros H. apply arange_count. rewrite inject_pred by lia. unfold spin_S. field. Qed.

Lemma arange_p (N : nat) : 0 < N ->
  np_arange (spin_S N - 1) (- (spin_S N + 1)) (- 1)
  = map (fun k => (spin_S N - 1 + inject_Z (Z.of_nat k) * - 1)%Q) (seq 0 (N - 1)).
Proof. intros H. apply arange_count. rewrite inject_pred by lia. unfold spin_S. field. Qed.

(** ** Entries of np.diag and of sums *)
Lemma nth_map_seq {A} (f : nat -> A) n i d : i < n -> nth i (map f (seq 0 n)) d = f i.
Proof.
  intros H. rewrite (nth_indep _ d (f 0)) by (rewrite map_length, seq_length; lia).
  rewrite map_nth, seq_nth by lia. reflexivity.
Qed.

Lemma of_rows_build (n : nat) (f : nat -> nat -> cpx) i j : i < n -> j < n ->
  of_rows (map (fun i => map (f i) (seq 0 n)) (seq 0 n)) i j = f i j.
Proof.
  intros I J. unfold of_rows. rewrite (nth_map_seq (fun i => map (f i) (seq 0 n))) by lia.
  apply nth_map_seq; lia.
Qed.

Lemma is_matrix_build (n : nat) (f : nat -> nat -> cpx) :
  is_matrix n (map (fun i => map (f i) (seq 0 n)) (seq 0 n)) f.
Proof.
  split; [rewrite map_length, seq_length; reflexivity|]. split.
  - apply Forall_forall. intros r R. apply in_map_iff in R. destruct R as [i [<- _]].
    rewrite map_length, seq_length. reflexivity.
  - intros i j I J. apply of_rows_build; assumption.
Qed.

Lemma is_matrix_ext n m A B : is_matrix n m A -> same n A B -> is_matrix n m B.
Proof.
  intros [L [F E]] S. split; [exact L|]. split; [exact F|]. intros i j I J.
  rewrite E by assumption. apply S; assumption.
Qed.

Definition up (d : nat -> cpx) : op := fun i j => if Nat.eqb j (S i) then d j else (0, 0)%R.
Definition down (d : nat -> cpx) : op := fun i j => if Nat.eqb i (S j) then d i else (0, 0)%R.
Definition diagonal (d : nat -> cpx) : op := fun i j => if Nat.eqb i j then d i else (0, 0)%R.

Lemma diag_up (N : nat) (f : nat -> cpx) : 0 < N ->
  is_matrix N (np_diag (map f (seq 0 (N - 1))) 1) (up (fun a => f (a - 1))).
Proof.
  intros H. unfold np_diag. rewrite map_length, seq_length.
  replace (N - 1 + Z.to_nat (Z.abs 1)) with N by (cbn; lia).
  eapply is_matrix_ext; [apply (is_matrix_build N (fun i j =>
    if (Z.of_nat j - Z.of_nat i =? 1)%Z then nth i (map f (seq 0 (N - 1))) (0, 0)%R else (0, 0)%R))|].
  intros i j I J. unfold up.
  destruct (Nat.eqb_spec j (S i)) as [->|NE].
  - replace (Z.of_nat (S i) - Z.of_nat i)%Z with 1%Z by lia. cbn [Z.eqb Pos.eqb].
    rewrite nth_map_seq by lia. f_equal. lia.
  - replace (Z.of_nat j - Z.of_nat i =? 1)%Z with false; [reflexivity|].
    symmetry. apply Z.eqb_neq. lia.
Qed.

Lemma diag_down (N : nat) (f : nat -> cpx) : 0 < N ->
  is_matrix N (np_diag (map f (seq 0 (N - 1))) (-1)) (down (fun a => f (a - 1))).
Proof.
  intros H. unfold np_diag. rewrite map_length, seq_length.
  replace (N - 1 + Z.to_nat (Z.abs (-1))) with N by (cbn; lia).
  eapply is_matrix_ext; [apply (is_matrix_build N (fun i j =>
    if (Z.of_nat j - Z.of_nat i =? -1)%Z then nth j (map f (seq 0 (N - 1))) (0, 0)%R else (0, 0)%R))|].
  intros i j I J. unfold down.
  destruct (Nat.eqb_spec i (S j)) as [->|NE].
  - replace (Z.of_nat j - Z.of_nat (S j))%Z with (-1)%Z by lia. cbn [Z.eqb Pos.eqb].
    rewrite nth_map_seq by lia. f_equal. lia.
  - replace (Z.of_nat j - Z.of_nat i =? -1)%Z with false; [reflexivity|].
    symmetry. apply Z.eqb_neq. lia.
Qed.

Lemma diag_diag (d : list cpx) :
  is_matrix (length d) (np_diag d 0) (diagonal (fun a => nth a d (0, 0)%R)).
Proof.
  unfold np_diag. replace (length d + Z.to_nat (Z.abs 0)) with (length d) by (cbn; lia).
  eapply is_matrix_ext; [apply (is_matrix_build (length d) (fun i j =>
    if (Z.of_nat j - Z.of_nat i =? 0)%Z then nth i d (0, 0)%R else (0, 0)%R))|].
  intros i j I J. unfold diagonal.
  destruct (Nat.eqb_spec i j) as [->|NE].
  - rewrite Z.sub_diag. reflexivity.
  - replace (Z.of_nat j - Z.of_nat i =? 0)%Z with false; [reflexivity|].
    symmetry. apply Z.eqb_neq. lia.
Qed.

Lemma nth_combine_rows {A B} (a : list A) (b : list B) i da db :
  length a = length b -> nth i (combine a b) (da, db) = (nth i a da, nth i b db).
Proof. intros. apply combine_nth; assumption. Qed.

Lemma np_add_matrix N a b A B :
  is_matrix N a A -> is_matrix N b B -> is_matrix N (np_add a b) (oadd A B).
Proof.
  intros [La [Fa Ea]] [Lb [Fb Eb]].
  assert (Row : forall i, i < N -> length (nth i a []) = N /\ length (nth i b []) = N).
  { intros i I. split.
    - apply (proj1 (Forall_forall _ _) Fa). apply nth_In. lia.
    - apply (proj1 (Forall_forall _ _) Fb). apply nth_In. lia. }
  assert (R : forall i, i < N -> nth i (np_add a b) [] =
     map (fun p => radd cC (fst p) (snd p)) (combine (nth i a []) (nth i b []))).
  { intros i I. unfold np_add.
    set (g := fun r : list cpx * list cpx =>
      map (fun p => radd cC (fst p) (snd p)) (combine (fst r) (snd r))).
    rewrite (nth_indep _ _ (g ([], []))) by (rewrite map_length, combine_length; lia).
    rewrite (map_nth g), combine_nth by lia. reflexivity. }
  split; [unfold np_add; rewrite map_length, combine_length; lia|]. split.
  - apply Forall_forall. intros r I. apply In_nth with (d := []) in I.
    destruct I as [i [Li <-]].
    assert (I : i < N) by (unfold np_add in Li; rewrite map_length, combine_length in Li; lia).
    rewrite R by exact I. destruct (Row i I) as [R1 R2].
    rewrite map_length, combine_length. lia.
  - intros i j I J. unfold of_rows. rewrite R by exact I. destruct (Row i I) as [R1 R2].
    set (g := fun p : cpx * cpx => radd cC (fst p) (snd p)).
    rewrite (nth_indep _ _ (g ((0, 0)%R, (0, 0)%R)))
      by (rewrite map_length, combine_length; lia).
    rewrite (map_nth g), combine_nth by lia. unfold oadd.
    rewrite <- Ea, <- Eb by assumption. reflexivity.
Qed.

(** ** The entries of the spin matrices *)
Open Scope R_scope.
Definition amp (N a : nat) : R := sqrt (INR a * (INR N - INR a)).

Lemma q2r_spin (N : nat) : Q2R (spin_S N) = (INR N - 1) / 2.
Proof.
  unfold spin_S. rewrite Q2R_div by discriminate. rewrite Q2R_minus, q2r_Z, <- INR_IZR_INZ.
  unfold Q2R. cbn. field.
Qed.
Lemma q2r_1 : Q2R 1 = 1. Proof. unfold Q2R. cbn. field. Qed.
Lemma q2r_2 : Q2R 2 = 2. Proof. unfold Q2R. cbn. field. Qed.
Lemma q2r_m1 : Q2R (- 1) = - 1. Proof. unfold Q2R. cbn. field. Qed.
Lemma q2r_0 : Q2R 0 = 0. Proof. unfold Q2R. cbn. field. Qed.

Ltac q2r := repeat first
  [rewrite Q2R_plus | rewrite Q2R_minus | rewrite Q2R_mult | rewrite q2r_spin
  | rewrite q2r_1 | rewrite q2r_2 | rewrite q2r_m1 | rewrite q2r_0
  | rewrite q2r_Z | rewrite <- INR_IZR_INZ].

Lemma spin_D_value (N : nat) : (0 < N)%nat ->
  spin_D N = map (fun k => amp N (S k)) (seq 0 (N - 1)).
Proof.
  intros H. unfold spin_D. rewrite arange_ones by exact H. rewrite map_map.
  apply map_ext. intros k. unfold np_sqrt, amp. f_equal. q2r. rewrite S_INR. field.
Qed.

Definition P (N : nat) : op := up (fun a => (amp N a, 0)).
Definition M (N : nat) : op := down (fun a => (amp N a, 0)).
Definition Zd (N : nat) : op := diagonal (fun a => (INR N - 1 - 2 * INR a, 0)).
(** i P and i M *)
Definition iP (N : nat) : op := up (fun a => (0, - amp N a)).
Definition iM (N : nat) : op := down (fun a => (0, amp N a)).

Lemma up_ext N (d e : nat -> cpx) : (forall a, (0 < a < N)%nat -> d a = e a) ->
  same N (up d) (up e).
Proof.
  intros H i j I J. unfold up. destruct (Nat.eqb_spec j (S i)); [apply H; lia|reflexivity].
Qed.
Lemma down_ext N (d e : nat -> cpx) : (forall a, (0 < a < N)%nat -> d a = e a) ->
  same N (down d) (down e).
Proof.
  intros H i j I J. unfold down. destruct (Nat.eqb_spec i (S j)); [apply H; lia|reflexivity].
Qed.
Lemma diagonal_ext N (d e : nat -> cpx) : (forall a, (a < N)%nat -> d a = e a) ->
  same N (diagonal d) (diagonal e).
Proof.
  intros H i j I J. unfold diagonal. destruct (Nat.eqb_spec i j); [apply H; lia|reflexivity].
Qed.

Lemma sigmax_entries N : (0 < N)%nat -> is_matrix N (sigmax_mat N) (oadd (P N) (M N)).
Proof.
  intros H. unfold sigmax_mat. rewrite spin_D_value by exact H. rewrite map_map.
  apply np_add_matrix.
  - eapply is_matrix_ext; [apply diag_up; exact H|]. apply up_ext. intros a A.
    replace (S (a - 1)) with a by lia. reflexivity.
  - eapply is_matrix_ext; [apply diag_down; exact H|]. apply down_ext. intros a A.
    replace (S (a - 1)) with a by lia. reflexivity.
Qed.

Lemma sigmay_entries N : (0 < N)%nat -> is_matrix N (sigmay_mat N) (oadd (iM N) (iP N)).
Proof.
  intros H. unfold sigmay_mat. rewrite spin_D_value by exact H. rewrite !map_map.
  apply np_add_matrix.
  - eapply is_matrix_ext; [apply diag_down; exact H|]. apply down_ext. intros a A.
    replace (S (a - 1)) with a by lia. reflexivity.
  - eapply is_matrix_ext; [apply diag_up; exact H|]. apply up_ext. intros a A.
    replace (S (a - 1)) with a by lia. cbn. unfold im. cbn. f_equal; ring.
Qed.

Lemma sigmaz_entries N : is_matrix N (sigmaz_mat N) (Zd N).
Proof.
  unfold sigmaz_mat. rewrite arange_z, map_map.
  pose proof (diag_diag (map (fun k => re (Q2R (2 * (spin_S N + inject_Z (Z.of_nat k) * - 1)))) (seq 0 N))) as D.
  rewrite map_length, seq_length in D. eapply is_matrix_ext; [exact D|].
  apply diagonal_ext. intros a A. rewrite nth_map_seq by exact A. unfold re. f_equal.
  q2r. field.
Qed.

Lemma sigmam_entries N : (0 < N)%nat -> is_matrix N (sigmam_mat N) (M N).
Proof.
  intros H. unfold sigmam_mat. rewrite arange_m, map_map by exact H.
  eapply is_matrix_ext; [apply diag_down; exact H|]. apply down_ext. intros a A.
  unfold re, np_sqrt, amp. f_equal. f_equal. q2r. rewrite minus_INR by lia. cbn [INR]. field.
Qed.

Lemma sigmap_entries N : (0 < N)%nat -> is_matrix N (sigmap_mat N) (P N).
Proof.
  intros H. unfold sigmap_mat. rewrite arange_p, map_map by exact H.
  eapply is_matrix_ext; [apply diag_up; exact H|]. apply up_ext. intros a A.
  unfold re, np_sqrt, amp. f_equal. f_equal. q2r. rewrite minus_INR by lia. cbn [INR]. field.
Qed.

Definition bamp (a : nat) : cpx := (sqrt (INR a), 0).
Lemma boson_D_value N : (0 < N)%nat -> boson_D N = map (fun k => bamp (S k)) (seq 0 (N - 1)).
Proof.
  intros H. unfold boson_D. rewrite arange_ones by exact H. rewrite map_map.
  apply map_ext. intros k. unfold re, np_sqrt, bamp. f_equal. f_equal. q2r. rewrite S_INR. ring.
Qed.
Lemma destroy_entries N : (0 < N)%nat -> is_matrix N (destroy_mat N) (up bamp).
Proof.
  intros H. unfold destroy_mat. rewrite boson_D_value by exact H.
  eapply is_matrix_ext; [apply diag_up; exact H|]. apply up_ext. intros a A.
  replace (S (a - 1)) with a by lia. reflexivity.
Qed.
Lemma create_entries N : (0 < N)%nat -> is_matrix N (create_mat N) (down bamp).
Proof.
  intros H. unfold create_mat. rewrite boson_D_value by exact H.
  eapply is_matrix_ext; [apply diag_down; exact H|]. apply down_ext. intros a A.
  replace (S (a - 1)) with a by lia. reflexivity.
Qed.
Lemma number_entries N : is_matrix N (number_mat N) (diagonal (fun a => (INR a, 0))).
Proof.
  unfold number_mat. rewrite arange_zeros, map_map.
  pose proof (diag_diag (map (fun k => re (Q2R (0 + inject_Z (Z.of_nat k) * 1))) (seq 0 N))) as D.
  rewrite map_length, seq_length in D. eapply is_matrix_ext; [exact D|].
  apply diagonal_ext. intros a A. rewrite nth_map_seq by exact A. unfold re. f_equal.
  q2r. ring.
Qed.

(** ** Products of such matrices *)
Lemma csum_zero n f : (forall k, (k < n)%nat -> f k = (0, 0)) -> csum n f = (0, 0).
Proof.
  induction n; intros H; cbn [csum]; [reflexivity|]. rewrite IHn, H by auto.
  unfold cadd. cbn. f_equal; ring.
Qed.
Lemma csum_ext n f g : (forall k, (k < n)%nat -> f k = g k) -> csum n f = csum n g.
Proof. induction n; intros H; cbn [csum]; [reflexivity|]. rewrite IHn, H by auto. reflexivity. Qed.
Lemma csum_single n f a : (a < n)%nat -> (forall k, (k < n)%nat -> k <> a -> f k = (0, 0)) ->
  csum n f = f a.
Proof.
  induction n; intros A H; [lia|]. cbn [csum]. destruct (Nat.eq_dec a n) as [->|NE].
  - rewrite csum_zero by (intros; apply H; lia). unfold cadd. cbn.
    destruct (f n); cbn; f_equal; ring.
  - rewrite IHn by (intros; try apply H; lia). rewrite (H n) by lia. unfold cadd. cbn.
    destruct (f a); cbn; f_equal; ring.
Qed.
Lemma csum_add n f g : csum n (fun k => cadd (f k) (g k)) = cadd (csum n f) (csum n g).
Proof.
  induction n; cbn [csum]; [unfold cadd; cbn; f_equal; ring|]. rewrite IHn.
  unfold cadd; cbn; f_equal; ring.
Qed.
Lemma csum_mul n c f : csum n (fun k => cmul c (f k)) = cmul c (csum n f).
Proof.
  induction n; cbn [csum]; [unfold cmul; cbn; f_equal; ring|]. rewrite IHn.
  unfold cadd, cmul; cbn; f_equal; ring.
Qed.

Ltac cx := unfold cadd, csub, cmul, cconj, ci in *; cbn [fst snd] in *; f_equal; try ring.

Lemma omul_ext N A A' B B' : same N A A' -> same N B B' -> same N (omul N A B) (omul N A' B').
Proof.
  intros HA HB i j I J. unfold omul. apply csum_ext. intros k Hk. rewrite HA, HB by lia. reflexivity.
Qed.
Lemma omul_add_l N A B C i j :
  omul N (oadd A B) C i j = cadd (omul N A C i j) (omul N B C i j).
Proof.
  unfold omul. rewrite <- csum_add. apply csum_ext. intros k _. unfold oadd. cx.
Qed.
Lemma omul_add_r N A B C i j :
  omul N A (oadd B C) i j = cadd (omul N A B i j) (omul N A C i j).
Proof.
  unfold omul. rewrite <- csum_add. apply csum_ext. intros k _. unfold oadd. cx.
Qed.
Lemma omul_scale_l N c A B i j : omul N (oscale c A) B i j = cmul c (omul N A B i j).
Proof. unfold omul. rewrite <- csum_mul. apply csum_ext. intros k _. unfold oscale. cx. Qed.
Lemma omul_scale_r N c A B i j : omul N A (oscale c B) i j = cmul c (omul N A B i j).
Proof. unfold omul. rewrite <- csum_mul. apply csum_ext. intros k _. unfold oscale. cx. Qed.

Lemma zmul_l z : cmul (0, 0) z = (0, 0). Proof. cx. Qed.
Lemma zmul_r z : cmul z (0, 0) = (0, 0). Proof. cx. Qed.

Lemma omul_up_down N d e i j : (i < N)%nat -> (j < N)%nat ->
  omul N (up d) (down e) i j
  = if Nat.eqb i j then (if (S i <? N)%nat then cmul (d (S i)) (e (S i)) else (0, 0)) else (0, 0).
Proof.
  intros I J. unfold omul, up, down.
  destruct (S i <? N)%nat eqn:L; [apply Nat.ltb_lt in L|apply Nat.ltb_ge in L].
  - rewrite (csum_single _ _ (S i)) by
      (try exact L; intros k K NE; rewrite (proj2 (Nat.eqb_neq _ _) NE); apply zmul_l).
    rewrite Nat.eqb_refl.
    destruct (Nat.eqb_spec i j) as [->|NE]; [rewrite Nat.eqb_refl; reflexivity|].
    rewrite (proj2 (Nat.eqb_neq (S i) (S j))) by lia. apply zmul_r.
  - rewrite csum_zero; [destruct (Nat.eqb i j); reflexivity|].
    intros k K. rewrite (proj2 (Nat.eqb_neq k (S i))) by lia. apply zmul_l.
Qed.
Lemma omul_down_up N d e i j : (i < N)%nat -> (j < N)%nat ->
  omul N (down d) (up e) i j
  = if Nat.eqb i j then (if (0 <? i)%nat then cmul (d i) (e i) else (0, 0)) else (0, 0).
Proof.
  intros I J. unfold omul, up, down.
  destruct i as [|i].
  - cbn [Nat.ltb Nat.leb]. rewrite csum_zero; [destruct (Nat.eqb 0 j); reflexivity|].
    intros k K. cbn [Nat.eqb]. apply zmul_l.
  - rewrite (csum_single _ _ i).
    + rewrite Nat.eqb_refl. cbn [Nat.ltb Nat.leb].
      destruct (Nat.eqb_spec (S i) j) as [<-|NE]; [rewrite Nat.eqb_refl; reflexivity|].
      rewrite (proj2 (Nat.eqb_neq j (S i))) by lia. apply zmul_r.
    + lia.
    + intros k K NE. rewrite (proj2 (Nat.eqb_neq (S i) (S k))) by lia. apply zmul_l.
Qed.
Lemma omul_diag_l N d A i j : (i < N)%nat -> omul N (diagonal d) A i j = cmul (d i) (A i j).
Proof.
  intros I. unfold omul, diagonal. rewrite (csum_single _ _ i).
  - rewrite Nat.eqb_refl. reflexivity.
  - exact I.
  - intros k K NE. rewrite (proj2 (Nat.eqb_neq i k)) by lia. apply zmul_l.
Qed.
Lemma omul_diag_r N d A i j : (j < N)%nat -> omul N A (diagonal d) i j = cmul (A i j) (d j).
Proof.
  intros I. unfold omul, diagonal. rewrite (csum_single _ _ j).
  - rewrite Nat.eqb_refl. reflexivity.
  - exact I.
  - intros k K NE. rewrite (proj2 (Nat.eqb_neq k j)) by lia. apply zmul_r.
Qed.

Lemma amp_sq N a : (a <= N)%nat -> amp N a * amp N a = INR a * (INR N - INR a).
Proof.
  intros H. unfold amp. apply sqrt_sqrt. apply Rmult_le_pos; [apply pos_INR|].
  apply le_INR in H. lra.
Qed.

Lemma PM N i j : (i < N)%nat -> (j < N)%nat ->
  omul N (P N) (M N) i j
  = if Nat.eqb i j then ((INR i + 1) * (INR N - 1 - INR i), 0) else (0, 0).
Proof.
  intros I J. unfold P, M. rewrite omul_up_down by assumption.
  destruct (Nat.eqb i j); [|reflexivity].
  destruct (S i <? N)%nat eqn:L; [apply Nat.ltb_lt in L|apply Nat.ltb_ge in L].
  - unfold cmul. cbn [fst snd]. rewrite amp_sq, S_INR by lia. f_equal; ring.
  - replace (INR N) with (INR i + 1) by (rewrite <- S_INR; f_equal; lia). f_equal; ring.
Qed.
Lemma MP N i j : (i < N)%nat -> (j < N)%nat ->
  omul N (M N) (P N) i j = if Nat.eqb i j then (INR i * (INR N - INR i), 0) else (0, 0).
Proof.
  intros I J. unfold P, M. rewrite omul_down_up by assumption.
  destruct (Nat.eqb i j); [|reflexivity].
  destruct i as [|i]; cbn [Nat.ltb Nat.leb].
  - cbn [INR]. f_equal; ring.
  - unfold cmul. cbn [fst snd]. rewrite amp_sq by lia. f_equal; ring.
Qed.

(** ** The algebra *)
Definition Xo N := oadd (P N) (M N).
Definition Yo N := oscale ci (osub (M N) (P N)).

Lemma iMP N : same N (oadd (iM N) (iP N)) (Yo N).
Proof.
  intros i j _ _. unfold Yo, oadd, iM, iP, oscale, osub, M, P, down, up.
  destruct (Nat.eqb i (S j)), (Nat.eqb j (S i)); cx.
Qed.
Lemma sub_as_add A B i j : osub A B i j = oadd A (oscale (-1, 0) B) i j.
Proof. unfold osub, oadd, oscale. cx. Qed.
Lemma omul_sub_r N A B C i j :
  omul N A (osub B C) i j = csub (omul N A B i j) (omul N A C i j).
Proof.
  unfold omul.
  transitivity (csum N (fun k => cadd (cmul (A i k) (B k j)) (cmul (-1, 0) (cmul (A i k) (C k j))))).
  { apply csum_ext. intros k _. unfold osub. cx. }
  rewrite csum_add, csum_mul. cx.
Qed.
Lemma omul_sub_l N A B C i j :
  omul N (osub A B) C i j = csub (omul N A C i j) (omul N B C i j).
Proof.
  unfold omul.
  transitivity (csum N (fun k => cadd (cmul (A i k) (C k j)) (cmul (-1, 0) (cmul (B i k) (C k j))))).
  { apply csum_ext. intros k _. unfold osub. cx. }
  rewrite csum_add, csum_mul. cx.
Qed.

Ltac expand := unfold Xo, Yo, ocomm;
  repeat first [rewrite omul_add_l | rewrite omul_add_r | rewrite omul_scale_l
               | rewrite omul_scale_r | rewrite omul_sub_l | rewrite omul_sub_r].

Lemma comm_xy N : same N (ocomm N (Xo N) (Yo N)) (oscale (0, 2) (Zd N)).
Proof.
  intros i j I J. unfold ocomm, osub at 1. expand. rewrite !PM, !MP by assumption.
  set (a := omul N (P N) (P N) i j). set (b := omul N (M N) (M N) i j).
  unfold oscale, Zd, diagonal. destruct (Nat.eqb i j); cx.
Qed.
Lemma ZA N A i j : (i < N)%nat -> (j < N)%nat ->
  ocomm N (Zd N) A i j = cmul (2 * (INR j - INR i), 0) (A i j).
Proof.
  intros I J. unfold ocomm, osub, Zd. rewrite omul_diag_l, omul_diag_r by assumption. cx.
Qed.
Lemma ZP N : same N (ocomm N (Zd N) (P N)) (oscale (2, 0) (P N)).
Proof.
  intros i j I J. rewrite ZA by assumption. unfold oscale, P, up.
  destruct (Nat.eqb_spec j (S i)) as [->|]; [rewrite S_INR|]; cx.
Qed.
Lemma ZM N : same N (ocomm N (Zd N) (M N)) (oscale (-2, 0) (M N)).
Proof.
  intros i j I J. rewrite ZA by assumption. unfold oscale, M, down.
  destruct (Nat.eqb_spec i (S j)) as [->|]; [rewrite S_INR|]; cx.
Qed.
Lemma comm_pm N : same N (ocomm N (P N) (M N)) (Zd N).
Proof.
  intros i j I J. unfold ocomm, osub. rewrite PM, MP by assumption. unfold Zd, diagonal.
  destruct (Nat.eqb i j); cx.
Qed.
Lemma comm_zx N : same N (ocomm N (Zd N) (Xo N)) (oscale (0, 2) (Yo N)).
Proof.
  intros i j I J. rewrite ZA by assumption. unfold Xo, Yo, oscale, osub, oadd, P, M, up, down.
  destruct (Nat.eqb_spec i (S j)) as [E1|]; destruct (Nat.eqb_spec j (S i)) as [E2|];
    try lia; [rewrite E1|rewrite E2|]; rewrite ?S_INR; cx.
Qed.
Lemma comm_yz N : same N (ocomm N (Yo N) (Zd N)) (oscale (0, 2) (Xo N)).
Proof.
  intros i j I J.
  assert (E : ocomm N (Yo N) (Zd N) i j = cmul (-1, 0) (ocomm N (Zd N) (Yo N) i j)).
  { unfold ocomm, osub. cx. }
  rewrite E, ZA by assumption. unfold Xo, Yo, oscale, osub, oadd, P, M, up, down.
  destruct (Nat.eqb_spec i (S j)) as [E1|]; destruct (Nat.eqb_spec j (S i)) as [E2|];
    try lia; [rewrite E1|rewrite E2|]; rewrite ?S_INR; cx.
Qed.
Lemma casimir N : same N
  (oadd (oadd (omul N (Xo N) (Xo N)) (omul N (Yo N) (Yo N))) (omul N (Zd N) (Zd N)))
  (oscale (INR N * INR N - 1, 0) oid).
Proof.
  intros i j I J. unfold oadd at 1 2. expand.
  unfold Zd at 1. rewrite omul_diag_l by assumption. rewrite !PM, !MP by assumption.
  set (a := omul N (P N) (P N) i j). set (b := omul N (M N) (M N) i j).
  unfold oscale, Zd, diagonal, oid. destruct (Nat.eqb i j); cx.
Qed.

(** ** Rows of the operators *)
From Coq Require Import Sorting.Sorted.
From Verif Require Import LocalOp_Spec LocalOp_Facts LocalOp_Laws LocalOp_Final LocalOp_Proofs.

Lemma Rltb_true a b : Rltb a b = true <-> a < b.
Proof. unfold Rltb. destruct (Rlt_dec a b); split; auto; discriminate || contradiction. Qed.
Lemma Rleb_true a b : Rleb a b = true <-> a <= b.
Proof. unfold Rleb. destruct (Rle_dec a b); split; auto; discriminate || contradiction. Qed.

Lemma cnorm2_pos z : 0 <= cnorm2 z.
Proof. unfold cnorm2. nra. Qed.
Lemma cnorm2_0 z : cnorm2 z = 0 -> z = (0, 0).
Proof. destruct z as [a b]. unfold cnorm2. cbn. intros H. f_equal; nra. Qed.

Lemma cscal_laws eps : scalar_laws (cscal eps).
Proof.
  constructor; unfold cscal; cbn [K k0 k1 kadd kmul ksub kopp kconj kbig kbige kclose
    cC T r0 r1 radd rmul rsub ropp]; intros.
  - constructor; intros; apply injective_projections; cbn [fst snd]; ring.
  - apply injective_projections; cbn [fst snd]; ring.
  - apply injective_projections; cbn [fst snd]; ring.
  - apply injective_projections; cbn [fst snd]; ring.
  - apply injective_projections; cbn [fst snd]; ring.
  - apply injective_projections; cbn [fst snd]; ring.
  - apply Rltb_true in H. apply andb_true_intro. rewrite Rltb_true, Rleb_true. split; [|lra].
    pose proof (Rle_0_sqr eps) as Q. unfold Rsqr in Q. lra.
  - unfold cnorm2. cbn [fst snd]. replace (0 * 0 + 0 * 0) with 0 by ring.
    unfold Rltb. destruct (Rlt_dec 0 0); [lra|reflexivity].
  - unfold cnorm2. cbn [fst snd]. f_equal. ring.
  - unfold cnorm2. cbn [fst snd]. replace (- snd a * - snd a) with (snd a * snd a) by ring. reflexivity.
  - apply Rleb_true. unfold cnorm2 at 1. cbn [fst snd].
    replace ((fst a - fst a) * (fst a - fst a) + (snd a - snd a) * (snd a - snd a)) with 0 by ring.
    rewrite sqrt_0. pose proof (sqrt_pos (cnorm2 a)). lra.
Qed.

Lemma cscal_exact : no_small (cscal 0).
Proof.
  intros k. unfold cscal. cbn [kbig k0 K]. intros H. apply cnorm2_0.
  pose proof (cnorm2_pos k). destruct (Rlt_dec (0 * 0) (cnorm2 k)) as [L|L].
  - apply Rltb_true in L. congruence.
  - lra.
Qed.

Lemma row_or_fault_ext S hs f g r : (forall y, configuration hs y -> f y = g y) ->
  row_or_fault S hs f r -> row_or_fault S hs g r.
Proof.
  intros E. destruct r as [l|e]; cbn [row_or_fault].
  - intros [H1 H2]. split; [exact H1|]. intros y Hy. rewrite <- E by exact Hy. apply H2, Hy.
  - intros [H1 H2]. split; [exact H1|]. intros y Hy. rewrite <- E by exact Hy. apply H2, Hy.
Qed.

Lemma pos_in_lt ls v : In v ls -> (pos_in ls v < length ls)%nat.
Proof.
  induction ls; cbn [In pos_in length]; [tauto|]. intros H.
  destruct (Z.eqb_spec a v); [lia|]. destruct H as [H|H]; [congruence|].
  specialize (IHls H). lia.
Qed.

Definition clear_entries (N : nat) (A : op) : Prop :=
  forall i j, (i < N)%nat -> (j < N)%nat -> A i j = (0, 0) \/ 1 <= cnorm2 (A i j).

Lemma conf_site hs x site : configuration hs x -> (site < length hs)%nat ->
  In (nth site x 0%Z) (nth site hs []).
Proof.
  intros C. revert site. induction C; intros site L; cbn [length] in L; [lia|].
  destruct site; cbn [nth]; [exact H|]. apply IHC. lia.
Qed.

Section Row.
Variable eps : R.
Hypothesis Heps : 0 <= eps < 1.
Variable hs : list (list Z).
Hypothesis Hs : sorted_space hs.
Variable site : nat.
Hypothesis Hsite : (site < length hs)%nat.
Let N := length (nth site hs []).
Variable m : cmat.
Variable A : op.
Hypothesis Hm : is_matrix N m A.
Hypothesis HA : clear_entries N A.

Lemma big_or_zero z : z = (0, 0) \/ 1 <= cnorm2 z ->
  (kbig (cscal eps) z = true /\ kbige (cscal eps) z = true) \/
  (z = (0, 0) /\ kbige (cscal eps) z = false /\ kbig (cscal eps) z = false).
Proof.
  intros [->|H].
  - right. split; [reflexivity|]. split; [apply (k_bige_0 _ (cscal_laws eps))|].
    cbn [kbig cscal]. unfold cnorm2. cbn [fst snd]. unfold Rltb.
    destruct (Rlt_dec (eps * eps) (0 * 0 + 0 * 0)); [nra|reflexivity].
  - left. assert (E : eps * eps < 1) by nra.
    assert (B : kbig (cscal eps) z = true) by (apply Rltb_true; lra).
    split; [exact B|apply (k_big_bige _ (cscal_laws eps)), B].
Qed.

Lemma entry_rows i j : entry (cscal eps) m i j = of_rows m i j.
Proof. reflexivity. Qed.

Lemma entry_clear i j : entry (cscal eps) m i j = (0, 0) \/ 1 <= cnorm2 (entry (cscal eps) m i j).
Proof.
  destruct Hm as [L [F E]]. destruct (Nat.lt_ge_cases i N) as [I|I].
  - destruct (Nat.lt_ge_cases j N) as [J|J].
    + rewrite entry_rows, E by assumption. apply HA; assumption.
    + left. unfold entry. apply nth_overflow.
      rewrite (proj1 (Forall_forall _ _) F (nth i m [])); [exact J|]. apply nth_In. lia.
  - left. unfold entry. rewrite (nth_overflow m) by lia. destruct j; reflexivity.
Qed.

Lemma term_significant : significant (cscal eps) (m, [site]) = false ->
  forall i j, entry (cscal eps) m i j = (0, 0).
Proof.
  intros H i j. destruct (big_or_zero _ (entry_clear i j)) as [[_ B]|[Z _]]; [|exact Z].
  exfalso. unfold significant in H. cbn [fst] in H.
  assert (I : (i < length m)%nat).
  { destruct (Nat.lt_ge_cases i (length m)); [assumption|]. unfold entry in B.
    rewrite (nth_overflow m) in B by lia.
    pose proof (k_bige_0 _ (cscal_laws eps)) as Z.
    destruct j; cbn [nth] in B; rewrite Z in B; discriminate. }
  assert (J : (j < length (nth i m []))%nat).
  { destruct (Nat.lt_ge_cases j (length (nth i m []))); [assumption|]. unfold entry in B.
    rewrite (nth_overflow (nth i m [])) in B by lia.
    pose proof (k_bige_0 _ (cscal_laws eps)) as Z. rewrite Z in B; discriminate. }
  assert (X : existsb (existsb (kbige (cscal eps))) m = true).
  { apply existsb_exists. exists (nth i m []). split; [apply nth_In, I|].
    apply existsb_exists. exists (nth j (nth i m []) (0, 0)). split; [apply nth_In, J|exact B]. }
  congruence.
Qed.

Lemma cut_entry i j : (i < N)%nat -> (j < N)%nat ->
  entry (cscal eps) (cut (cscal eps) m) i j = entry (cscal eps) m i j.
Proof.
  destruct Hm as [L _]. intros I J. unfold cut.
  assert (L' : @length (list (K (cscal eps))) m = N) by exact L. rewrite L'.
  unfold entry at 1.
  set (f := fun i j : nat => if Nat.eqb i j || kbig (cscal eps) (entry (cscal eps) m i j)
       then entry (cscal eps) m i j else k0 (cscal eps)).
  rewrite (nth_map_seq (fun i => map (f i) (seq 0 N))) by exact I.
  rewrite nth_map_seq by exact J. unfold f.
  destruct (Nat.eqb i j); [reflexivity|]. cbn [orb].
  destruct (big_or_zero _ (entry_clear i j)) as [[B _]|[Z [_ B]]]; rewrite B; [reflexivity|].
  rewrite Z. reflexivity.
Qed.

Lemma loc_index_one x : loc_index hs [site] x = pos_in (nth site hs []) (nth site x 0%Z).
Proof. reflexivity. Qed.

Lemma one_site_row depth x junk junkx : configuration hs x ->
  exists o, mk_lop (cscal eps) (S depth) hs (0, 0) [(m, [site])] = Ok o /\
    row_or_fault (cscal eps) hs (site_element hs site A x)
      (get_conn (cscal eps) hs o junk junkx x).
Proof.
  intros C.
  destruct (cutoff_row (cscal eps) (cscal_laws eps) depth hs Hs (0, 0) [(m, [site])] x junk junkx)
    as [o [B R]].
  - constructor; [|constructor]. split.
    + split; [discriminate|]. split; [repeat constructor; cbn; tauto|]. split.
      * cbn [snd]. intros s [<-|[]]. exact Hsite.
      * cbn [fst snd local_dim map fold_right]. rewrite Nat.mul_1_r.
        destruct Hm as [L [F _]]. split; [exact L|exact F].
    + cbn [snd]. repeat constructor.
  - cbn. repeat constructor. cbn. tauto.
  - unfold clear_diagonal.
    destruct (existsb (fun i => kbige (cscal eps) (entry (cscal eps) m i i)) (seq 0 (length m))) eqn:E.
    + left. right. apply existsb_exists in E. destruct E as [i [I K]]. apply in_seq in I.
      exists (m, [site]), i. cbn [fst]. split; [left; reflexivity|]. split; [apply I|exact K].
    + right. split; [reflexivity|]. intros t i [<-|[]]. cbn [fst].
      destruct (big_or_zero _ (entry_clear i i)) as [[_ K]|[Z _]]; [|exact Z].
      exfalso. destruct (Nat.lt_ge_cases i (length m)) as [I|I].
      * assert (X : existsb (fun i => kbige (cscal eps) (entry (cscal eps) m i i)) (seq 0 (length m)) = true).
        { apply existsb_exists. exists i. split; [apply in_seq; split; [apply Nat.le_0_l|exact I]|exact K]. }
        congruence.
      * unfold entry in K. rewrite (nth_overflow m) in K by lia.
        pose proof (k_bige_0 _ (cscal_laws eps)) as Z.
        destruct i; cbn [nth] in K; rewrite Z in K; discriminate.
  - exact C.
  - exists o. split; [exact B|]. revert R. apply row_or_fault_ext. intros y Cy.
    pose proof (pos_in_lt _ _ (conf_site hs x site C Hsite)) as Px.
    pose proof (pos_in_lt _ _ (conf_site hs y site Cy Hsite)) as Py.
    destruct Hm as [L [F E]].
    unfold element, cut_terms. cbn [filter].
    destruct (significant (cscal eps) (m, [site])) eqn:Sg.
    + cbn [map fst snd LocalOp_Spec.sum fold_right]. unfold term_element, site_element.
      rewrite !loc_index_one.
      destruct (same_elsewhere [site] x y).
      * rewrite cut_entry by assumption. rewrite entry_rows, E by assumption.
        cbn [cscal K k0 kadd cC T radd]. destruct (zlist_eqb x y);
          apply injective_projections; cbn [fst snd]; ring.
      * cbn [cscal K k0 kadd cC T radd]. destruct (zlist_eqb x y);
          apply injective_projections; cbn [fst snd]; ring.
    + unfold site_element.
      transitivity ((0, 0) : cpx).
      { cbn [map LocalOp_Spec.sum fold_right cscal K k0 kadd cC T radd]. destruct (zlist_eqb x y);
          apply injective_projections; cbn [fst snd]; ring. }
      destruct (same_elsewhere [site] x y); [|reflexivity].
      rewrite <- E by assumption. symmetry. rewrite <- entry_rows. apply term_significant, Sg.
Qed.
End Row.
