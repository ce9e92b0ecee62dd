(** * Rows of the spin and boson operators *)
From Coq Require Import List ZArith QArith Qround Qreals Reals Lia Lra Bool Sorting.Sorted.
From Verif Require Import Base BaseFacts Rings ARNN_Model ToArray_Model Scalar LocalOp_Model
  LocalOp_Spec LocalOp_Facts LocalOp_Laws LocalOp_Matmul LocalOp_Final LocalOp_Proofs
  SpinOps_Model SpinOps_Spec SpinOps_Proofs.
Import ListNotations.
Open Scope R_scope.

(** ** Sites with equally spaced local states *)
Definition spaced (c b : Z) (N : nat) : list Z := map (fun i => c * Z.of_nat i + b)%Z (seq 0 N).

Lemma spin_spaced N : spin_states N = spaced 2 (- (Z.of_nat N - 1)) N.
Proof. unfold spin_states, spaced. apply map_ext. intros. lia. Qed.
Lemma fock_spaced N : fock_states N = spaced 1 0 N.
Proof. unfold fock_states, spaced. apply map_ext. intros. lia. Qed.

Lemma pos_in_spaced_from c b N k i : (0 < c)%Z -> (i < N)%nat ->
  pos_in (map (fun i => c * Z.of_nat i + b)%Z (seq k N)) (c * Z.of_nat (k + i) + b)%Z = i.
Proof.
  intros C. revert k i. induction N; intros k i I; [lia|]. cbn [seq map pos_in].
  destruct i.
  - rewrite Nat.add_0_r, Z.eqb_refl. reflexivity.
  - replace (c * Z.of_nat k + b =? c * Z.of_nat (k + S i) + b)%Z with false
      by (symmetry; apply Z.eqb_neq; nia).
    f_equal. replace (k + S i)%nat with (S k + i)%nat by lia. apply IHN. lia.
Qed.
Lemma pos_in_spaced c b N i : (0 < c)%Z -> (i < N)%nat ->
  pos_in (spaced c b N) (c * Z.of_nat i + b)%Z = i.
Proof. intros C I. apply (pos_in_spaced_from c b N 0 i C I). Qed.

Lemma in_spaced c b N v : In v (spaced c b N) -> exists i, (i < N)%nat /\ v = (c * Z.of_nat i + b)%Z.
Proof.
  intros H. apply in_map_iff in H. destruct H as [i [<- I]]. apply in_seq in I.
  exists i. split; [lia|reflexivity].
Qed.

(** ** Changing one site *)
Lemma with_site_length x s v : length (with_site x s v) = length x.
Proof. revert s; induction x; intros [|s]; cbn [with_site length]; auto. Qed.
Lemma with_site_same x s v : (s < length x)%nat -> nth s (with_site x s v) 0%Z = v.
Proof. revert s; induction x; intros [|s] H; cbn [with_site length nth] in *; try lia; auto. apply IHx; lia. Qed.
Lemma with_site_other x s v i : i <> s -> nth i (with_site x s v) 0%Z = nth i x 0%Z.
Proof.
  revert s i; induction x; intros [|s] [|i] H; cbn [with_site nth]; auto; try lia.
Qed.

Section OneSite.
Variable hs : list (list Z).
Variable s : nat.
Hypothesis Hsite : (s < length hs)%nat.
Variables x y : list Z.
Hypothesis Hx : configuration hs x.
Hypothesis Hy : configuration hs y.

Lemma len_xy : length x = length hs /\ length y = length hs.
Proof. split; eapply configuration_length; eassumption. Qed.

Lemma elsewhere_with v : same_elsewhere [s] x y = true -> nth s y 0%Z = v -> y = with_site x s v.
Proof.
  intros E V. rewrite same_elsewhere_iff in E. destruct len_xy as [Lx Ly].
  apply nth_ext_Z; [rewrite with_site_length; lia|]. intros i I.
  destruct (Nat.eq_dec i s) as [->|NE].
  - rewrite with_site_same by lia. exact V.
  - rewrite with_site_other by exact NE. symmetry. apply E; [lia|]. cbn. intros [<-|[]]; auto.
Qed.

Lemma with_elsewhere v : y = with_site x s v -> same_elsewhere [s] x y = true /\ nth s y 0%Z = v.
Proof.
  intros E. destruct len_xy as [Lx _]. rewrite E. split.
  - rewrite same_elsewhere_iff. intros i I NI. rewrite with_site_other; [reflexivity|].
    intros ->. apply NI. left. reflexivity.
  - apply with_site_same. lia.
Qed.

Lemma same_with : same_elsewhere [s] x y = true -> nth s y 0%Z = nth s x 0%Z -> x = y.
Proof.
  intros E V. rewrite same_elsewhere_iff in E. destruct len_xy as [Lx Ly].
  apply nth_ext_Z; [lia|]. intros i I. destruct (Nat.eq_dec i s) as [->|NE]; [auto|].
  apply E; [exact I|]. cbn. intros [<-|[]]; auto.
Qed.

Variables (c b : Z) (N : nat).
Hypothesis Hc : (0 < c)%Z.
Hypothesis Hstates : nth s hs [] = spaced c b N.

Lemma pos_value z : configuration hs z ->
  (pos_in (nth s hs []) (nth s z 0%Z) < N)%nat /\
  nth s z 0%Z = (c * Z.of_nat (pos_in (nth s hs []) (nth s z 0%Z)) + b)%Z.
Proof.
  intros Hz. pose proof (conf_site hs z s Hz Hsite) as I. rewrite Hstates in *.
  apply in_spaced in I. destruct I as [i [I ->]]. rewrite pos_in_spaced by assumption. auto.
Qed.

Lemma site_up d : site_element hs s (up d) x y
  = when_eq (moved x s c) y (d (S (pos_in (nth s hs []) (nth s x 0%Z)))).
Proof.
  destruct (pos_value x Hx) as [Px Vx]. destruct (pos_value y Hy) as [Py Vy].
  unfold site_element, when_eq, moved, up.
  set (px := pos_in (nth s hs []) (nth s x 0%Z)) in *.
  set (py := pos_in (nth s hs []) (nth s y 0%Z)) in *.
  destruct (list_eq_dec Z.eq_dec (with_site x s (nth s x 0 + c)%Z) y) as [E|NE].
  - symmetry in E. apply with_elsewhere in E. destruct E as [E1 E2]. rewrite E1.
    assert (py = S px) as -> by nia. rewrite Nat.eqb_refl. reflexivity.
  - destruct (same_elsewhere [s] x y) eqn:E; [|reflexivity].
    destruct (Nat.eqb_spec py (S px)) as [Q|Q]; [|reflexivity].
    exfalso. apply NE. symmetry. apply elsewhere_with; [exact E|]. rewrite Q in Vy. nia.
Qed.
Lemma site_down d : site_element hs s (down d) x y
  = when_eq (moved x s (- c)) y (d (pos_in (nth s hs []) (nth s x 0%Z))).
Proof.
  destruct (pos_value x Hx) as [Px Vx]. destruct (pos_value y Hy) as [Py Vy].
  unfold site_element, when_eq, moved, down.
  set (px := pos_in (nth s hs []) (nth s x 0%Z)) in *.
  set (py := pos_in (nth s hs []) (nth s y 0%Z)) in *.
  destruct (list_eq_dec Z.eq_dec (with_site x s (nth s x 0 + - c)%Z) y) as [E|NE].
  - symmetry in E. apply with_elsewhere in E. destruct E as [E1 E2]. rewrite E1.
    assert (px = S py) as -> by nia. rewrite Nat.eqb_refl. reflexivity.
  - destruct (same_elsewhere [s] x y) eqn:E; [|reflexivity].
    destruct (Nat.eqb_spec px (S py)) as [Q|Q]; [|reflexivity].
    exfalso. apply NE. symmetry. apply elsewhere_with; [exact E|]. rewrite Q in Vx. nia.
Qed.
Lemma site_diag d : site_element hs s (diagonal d) x y
  = when_eq x y (d (pos_in (nth s hs []) (nth s x 0%Z))).
Proof.
  destruct (pos_value x Hx) as [Px Vx]. destruct (pos_value y Hy) as [Py Vy].
  unfold site_element, when_eq, diagonal.
  destruct (list_eq_dec Z.eq_dec x y) as [E|NE].
  - rewrite <- E, same_elsewhere_refl, Nat.eqb_refl. reflexivity.
  - destruct (same_elsewhere [s] x y) eqn:E; [|reflexivity].
    destruct (Nat.eqb_spec (pos_in (nth s hs []) (nth s x 0%Z)) (pos_in (nth s hs []) (nth s y 0%Z))) as [Q|Q]; [|reflexivity].
    exfalso. apply NE. apply same_with; [exact E|]. rewrite Vx, Vy, Q. reflexivity.
Qed.
Lemma site_add A B : site_element hs s (oadd A B) x y
  = cadd (site_element hs s A x y) (site_element hs s B x y).
Proof.
  unfold site_element. destruct (same_elsewhere [s] x y); [reflexivity|].
  unfold cadd. cbn. f_equal; ring.
Qed.
End OneSite.

(** ** Entries are zero or at least one *)
Lemma clear_up N d : (forall a, (0 < a < N)%nat -> 1 <= cnorm2 (d a)) -> clear_entries N (up d).
Proof.
  intros H i j I J. unfold up. destruct (Nat.eqb_spec j (S i)); [right; apply H; lia|left; reflexivity].
Qed.
Lemma clear_down N d : (forall a, (0 < a < N)%nat -> 1 <= cnorm2 (d a)) -> clear_entries N (down d).
Proof.
  intros H i j I J. unfold down. destruct (Nat.eqb_spec i (S j)); [right; apply H; lia|left; reflexivity].
Qed.
Lemma clear_diag N d : (forall a, (a < N)%nat -> d a = (0, 0) \/ 1 <= cnorm2 (d a)) ->
  clear_entries N (diagonal d).
Proof.
  intros H i j I J. unfold diagonal. destruct (Nat.eqb i j); [apply H; lia|left; reflexivity].
Qed.
Lemma clear_up_down N d e : clear_entries N (up d) -> clear_entries N (down e) ->
  clear_entries N (oadd (up d) (down e)).
Proof.
  intros H1 H2 i j I J. specialize (H1 i j I J). specialize (H2 i j I J).
  unfold oadd, up, down in *.
  destruct (Nat.eqb_spec j (S i)); destruct (Nat.eqb_spec i (S j)); try lia.
  - replace (cadd (d j) (0, 0)) with (d j) by (destruct (d j); unfold cadd; cbn; f_equal; ring). exact H1.
  - replace (cadd (0, 0) (e i)) with (e i) by (destruct (e i); unfold cadd; cbn; f_equal; ring). exact H2.
  - left. unfold cadd. cbn. f_equal; ring.
Qed.
Lemma clear_ext N A B : same N A B -> clear_entries N A -> clear_entries N B.
Proof. intros E H i j I J. rewrite <- (E i j I J). apply H; assumption. Qed.

Lemma amp_big N a : (0 < a < N)%nat -> 1 <= amp N a * amp N a.
Proof.
  intros H. rewrite amp_sq by lia. rewrite <- minus_INR by lia. rewrite <- mult_INR.
  replace 1 with (INR 1) by reflexivity. apply le_INR. nia.
Qed.
Lemma clear_P N : clear_entries N (P N).
Proof. apply clear_up. intros a H. unfold cnorm2. cbn [fst snd]. pose proof (amp_big N a H). lra. Qed.
Lemma clear_M N : clear_entries N (M N).
Proof. apply clear_down. intros a H. unfold cnorm2. cbn [fst snd]. pose proof (amp_big N a H). lra. Qed.
Lemma clear_Y N : clear_entries N (oadd (iM N) (iP N)).
Proof.
  apply clear_ext with (A := oadd (iP N) (iM N)).
  { intros i j _ _. unfold oadd, cadd. f_equal; ring. }
  apply clear_up_down.
  - apply clear_up. intros a H. unfold cnorm2. cbn [fst snd]. pose proof (amp_big N a H). nra.
  - apply clear_down. intros a H. unfold cnorm2. cbn [fst snd]. pose proof (amp_big N a H). nra.
Qed.
Lemma int_clear z : (IZR z, 0) = ((0, 0) : cpx) \/ 1 <= cnorm2 (IZR z, 0).
Proof.
  destruct (Z.eq_dec z 0) as [->|H]; [left; reflexivity|]. right. unfold cnorm2. cbn [fst snd].
  rewrite <- mult_IZR. replace (IZR (z * z) + 0 * 0) with (IZR (z * z)) by ring.
  apply IZR_le. nia.
Qed.
Lemma clear_Z N : clear_entries N (Zd N).
Proof.
  apply clear_diag. intros a H.
  replace (INR N - 1 - 2 * INR a) with (IZR (Z.of_nat N - 1 - 2 * Z.of_nat a))
    by (rewrite !minus_IZR, mult_IZR, <- !INR_IZR_INZ; reflexivity).
  apply int_clear.
Qed.
Lemma clear_bup N : clear_entries N (up bamp).
Proof.
  apply clear_up. intros a H. unfold bamp, cnorm2. cbn [fst snd]. rewrite sqrt_sqrt by apply pos_INR.
  replace 1 with (INR 1) by reflexivity. assert (INR 1 <= INR a) by (apply le_INR; lia). lra.
Qed.
Lemma clear_bdown N : clear_entries N (down bamp).
Proof.
  apply clear_down. intros a H. unfold bamp, cnorm2. cbn [fst snd]. rewrite sqrt_sqrt by apply pos_INR.
  replace 1 with (INR 1) by reflexivity. assert (INR 1 <= INR a) by (apply le_INR; lia). lra.
Qed.
Lemma clear_number N : clear_entries N (diagonal (fun a => (INR a, 0))).
Proof. apply clear_diag. intros a H. rewrite INR_IZR_INZ. apply int_clear. Qed.

(** ** Rows *)
Lemma states_pos hs x s : configuration hs x -> (s < length hs)%nat -> (0 < length (nth s hs []))%nat.
Proof.
  intros C L. pose proof (conf_site hs x s C L) as I. destruct (nth s hs []); cbn in *; [tauto|lia].
Qed.

Section Rows.
Variable eps : R.
Hypothesis Heps : 0 <= eps < 1.
Variable depth : nat.
Variable hs : list (list Z).
Hypothesis Hs : sorted_space hs.
Variable s : nat.
Hypothesis Hsite : (s < length hs)%nat.
Variable x : list Z.
Hypothesis Hx : configuration hs x.
Variable junk : nat -> cpx.
Variable junkx : nat -> list Z.
Let N := length (nth s hs []).

Lemma on_site_row mat A f :
  (0 < N -> is_matrix N (mat N) A)%nat -> clear_entries N A ->
  (forall y, configuration hs y -> site_element hs s A x y = f y) ->
  exists o, on_site eps (S depth) hs mat s = Ok o /\
    row_or_fault (cscal eps) hs f (get_conn (cscal eps) hs o junk junkx x).
Proof.
  intros HM HC HF.
  destruct (one_site_row eps Heps hs Hs s Hsite (mat N) A
    (HM (states_pos hs x s Hx Hsite)) HC depth x junk junkx Hx) as [o [B R]].
  exists o. split.
  - unfold on_site. rewrite (proj2 (Nat.leb_gt _ _) Hsite). exact B.
  - revert R. apply row_or_fault_ext. exact HF.
Qed.

Lemma spaced_length c b n : length (spaced c b n) = n.
Proof. unfold spaced. rewrite map_length, seq_length. reflexivity. Qed.

Section Spin.
Variable n : nat.
Hypothesis Hspin : nth s hs [] = spin_states n.
Lemma spin_N : N = n.
Proof. unfold N. rewrite Hspin, spin_spaced, spaced_length. reflexivity. Qed.
Lemma spin_sp : nth s hs [] = spaced 2 (- (Z.of_nat n - 1)) n.
Proof. rewrite Hspin. apply spin_spaced. Qed.
Let v := nth s x 0%Z.
Let p := pos_in (nth s hs []) v.
Lemma spin_v : (p < n)%nat /\ IZR v = 2 * INR p - (INR n - 1).
Proof.
  destruct (pos_value hs s Hsite 2 (- (Z.of_nat n - 1)) n eq_refl spin_sp x Hx) as [L V].
  fold v in V, L. fold p in V, L. split; [exact L|]. rewrite V.
  rewrite plus_IZR, mult_IZR, opp_IZR, minus_IZR, <- !INR_IZR_INZ. ring.
Qed.
Lemma amp_up : amp n (S p) = ladder_up n v.
Proof.
  destruct spin_v as [_ V]. unfold amp, ladder_up, jj, mm. f_equal. rewrite V, S_INR. field.
Qed.
Lemma amp_down : amp n p = ladder_down n v.
Proof.
  destruct spin_v as [_ V]. unfold amp, ladder_down, jj, mm. f_equal. rewrite V. field.
Qed.

Lemma sigmaz_row : exists o, sigmaz eps (S depth) hs s = Ok o /\
  row_or_fault (cscal eps) hs (fun y => when_eq x y (real (- IZR (nth s x 0%Z))))
    (get_conn (cscal eps) hs o junk junkx x).
Proof.
  apply (on_site_row sigmaz_mat (Zd N)); [intros; apply sigmaz_entries|apply clear_Z|].
  intros y Hy. unfold Zd. rewrite (site_diag hs s Hsite x y Hx Hy 2 _ n eq_refl spin_sp).
  fold v. fold p. f_equal. unfold real. f_equal. destruct spin_v as [_ V]. rewrite V, spin_N. ring.
Qed.
Lemma sigmap_row : exists o, sigmap eps (S depth) hs s = Ok o /\
  row_or_fault (cscal eps) hs
    (fun y => when_eq (moved x s 2) y (real (ladder_up n (nth s x 0%Z))))
    (get_conn (cscal eps) hs o junk junkx x).
Proof.
  apply (on_site_row sigmap_mat (P N)); [intros; apply sigmap_entries; assumption|apply clear_P|].
  intros y Hy. unfold P. rewrite (site_up hs s Hsite x y Hx Hy 2 _ n eq_refl spin_sp).
  fold v. fold p. rewrite spin_N, amp_up. reflexivity.
Qed.
Lemma sigmam_row : exists o, sigmam eps (S depth) hs s = Ok o /\
  row_or_fault (cscal eps) hs
    (fun y => when_eq (moved x s (-2)) y (real (ladder_down n (nth s x 0%Z))))
    (get_conn (cscal eps) hs o junk junkx x).
Proof.
  apply (on_site_row sigmam_mat (M N)); [intros; apply sigmam_entries; assumption|apply clear_M|].
  intros y Hy. unfold M. rewrite (site_down hs s Hsite x y Hx Hy 2 _ n eq_refl spin_sp).
  fold v. fold p. rewrite spin_N, amp_down. reflexivity.
Qed.
Lemma sigmax_row : exists o, sigmax eps (S depth) hs s = Ok o /\
  row_or_fault (cscal eps) hs
    (fun y => cadd (when_eq (moved x s 2) y (real (ladder_up n (nth s x 0%Z))))
                   (when_eq (moved x s (-2)) y (real (ladder_down n (nth s x 0%Z)))))
    (get_conn (cscal eps) hs o junk junkx x).
Proof.
  apply (on_site_row sigmax_mat (oadd (P N) (M N)));
    [intros; apply sigmax_entries; assumption|apply clear_up_down; [apply clear_P|apply clear_M]|].
  intros y Hy. rewrite site_add. unfold P, M.
  rewrite (site_up hs s Hsite x y Hx Hy 2 _ n eq_refl spin_sp).
  rewrite (site_down hs s Hsite x y Hx Hy 2 _ n eq_refl spin_sp).
  fold v. fold p. rewrite spin_N, amp_up, amp_down. reflexivity.
Qed.
Lemma sigmay_row : exists o, sigmay eps (S depth) hs s = Ok o /\
  row_or_fault (cscal eps) hs
    (fun y => cmul ci (csub (when_eq (moved x s (-2)) y (real (ladder_down n (nth s x 0%Z))))
                            (when_eq (moved x s 2) y (real (ladder_up n (nth s x 0%Z))))))
    (get_conn (cscal eps) hs o junk junkx x).
Proof.
  apply (on_site_row sigmay_mat (oadd (iM N) (iP N)));
    [intros; apply sigmay_entries; assumption|apply clear_Y|].
  intros y Hy. rewrite site_add. unfold iP, iM.
  rewrite (site_up hs s Hsite x y Hx Hy 2 _ n eq_refl spin_sp).
  rewrite (site_down hs s Hsite x y Hx Hy 2 _ n eq_refl spin_sp).
  fold v. fold p. rewrite spin_N, amp_up, amp_down. unfold when_eq, real.
  change (-2)%Z with (- (2))%Z.
  destruct (list_eq_dec Z.eq_dec (moved x s (- (2))) y); destruct (list_eq_dec Z.eq_dec (moved x s 2) y);
    unfold cmul, csub, cadd, ci; cbn [fst snd]; f_equal; ring.
Qed.
End Spin.

Section Boson.
Variable n : nat.
Hypothesis Hfock : nth s hs [] = fock_states n.
Lemma fock_N : N = n.
Proof. unfold N. rewrite Hfock, fock_spaced, spaced_length. reflexivity. Qed.
Lemma fock_sp : nth s hs [] = spaced 1 0 n.
Proof. rewrite Hfock. apply fock_spaced. Qed.
Let v := nth s x 0%Z.
Let p := pos_in (nth s hs []) v.
Lemma fock_v : (p < n)%nat /\ v = Z.of_nat p.
Proof.
  destruct (pos_value hs s Hsite 1 0 n eq_refl fock_sp x Hx) as [L V].
  fold v in V, L. fold p in V, L. split; [exact L|lia].
Qed.
Lemma destroy_row : exists o, destroy eps (S depth) hs s = Ok o /\
  row_or_fault (cscal eps) hs
    (fun y => when_eq (moved x s 1) y (real (sqrt (IZR (nth s y 0%Z)))))
    (get_conn (cscal eps) hs o junk junkx x).
Proof.
  apply (on_site_row destroy_mat (up bamp)); [intros; apply destroy_entries; assumption|apply clear_bup|].
  intros y Hy. rewrite (site_up hs s Hsite x y Hx Hy 1 0 n eq_refl fock_sp).
  fold v. fold p. unfold when_eq. destruct (list_eq_dec Z.eq_dec (moved x s 1) y) as [E|]; [|reflexivity].
  unfold bamp, real. f_equal. f_equal. rewrite <- E. unfold moved.
  rewrite with_site_same by (rewrite (configuration_length hs x Hx); exact Hsite).
  fold v. destruct fock_v as [_ V]. rewrite V, plus_IZR, <- INR_IZR_INZ, S_INR. reflexivity.
Qed.
Lemma create_row : exists o, create eps (S depth) hs s = Ok o /\
  row_or_fault (cscal eps) hs
    (fun y => when_eq (moved x s (-1)) y (real (sqrt (IZR (nth s x 0%Z)))))
    (get_conn (cscal eps) hs o junk junkx x).
Proof.
  apply (on_site_row create_mat (down bamp)); [intros; apply create_entries; assumption|apply clear_bdown|].
  intros y Hy. rewrite (site_down hs s Hsite x y Hx Hy 1 0 n eq_refl fock_sp).
  fold v. fold p. destruct fock_v as [_ V]. f_equal. unfold bamp, real. rewrite V, <- INR_IZR_INZ. reflexivity.
Qed.
Lemma number_row : exists o, number eps (S depth) hs s = Ok o /\
  row_or_fault (cscal eps) hs
    (fun y => when_eq x y (real (IZR (nth s x 0%Z))))
    (get_conn (cscal eps) hs o junk junkx x).
Proof.
  apply (on_site_row number_mat (diagonal (fun a => (INR a, 0)))); [intros; apply number_entries|apply clear_number|].
  intros y Hy. rewrite (site_diag hs s Hsite x y Hx Hy 1 0 n eq_refl fock_sp).
  fold v. fold p. destruct fock_v as [_ V]. f_equal. unfold real. rewrite V, <- INR_IZR_INZ. reflexivity.
Qed.
End Boson.
End Rows.
