(** * Products of spin operators as LocalOperators *)
From Coq Require Import List ZArith Reals Lia Lra Bool Sorting.Sorted.
From Verif Require Import Base BaseFacts Rings ARNN_Model ToArray_Model Scalar LocalOp_Model
  LocalOp_Spec LocalOp_Facts LocalOp_Laws LocalOp_Matmul LocalOp_Final LocalOp_Proofs
  SpinOps_Model SpinOps_Spec SpinOps_Proofs SpinRows_Proofs.
Import ListNotations.
Open Scope R_scope.

Notation L0 := (cscal_laws 0).

Lemma ksum_csum f n : LocalOp_Spec.sum S0 (map f (seq 0 n)) = csum n f.
Proof.
  induction n; [reflexivity|]. rewrite seq_S, map_app. cbn [csum Nat.add map].
  rewrite <- IHn. generalize (map f (seq 0 n)) as l. induction l; cbn [app LocalOp_Spec.sum fold_right].
  - cbn. unfold cadd. cbn. f_equal; ring.
  - unfold LocalOp_Spec.sum in IHl. rewrite IHl. cbn. unfold cadd. cbn. f_equal; ring.
Qed.

Section Site.
Variable hs : list (list Z).
Hypothesis Hs : sorted_space hs.
Variable s : nat.
Hypothesis Hsite : (s < length hs)%nat.
Let d := length (nth s hs []).

Lemma sites1 : sites_ok hs [s].
Proof. split; [constructor; [cbn; tauto|constructor]|]. intros t [<-|[]]; auto. Qed.

Lemma sq m A : is_matrix d m A -> square S0 m (local_dim hs [s]).
Proof.
  intros [L [F _]]. cbn [local_dim map fold_right]. rewrite Nat.mul_1_r. split; [exact L|exact F].
Qed.

Lemma term_site m A x y : is_matrix d m A -> configuration hs x -> configuration hs y ->
  term_element S0 hs m [s] x y = site_element hs s A x y.
Proof.
  intros [_ [_ E]] Hx Hy. unfold term_element, site_element.
  destruct (same_elsewhere [s] x y); [|reflexivity].
  apply E; apply pos_in_lt, conf_site; assumption.
Qed.

Lemma denote_site mat A x y : is_matrix d (mat d) A -> configuration hs x -> configuration hs y ->
  denote S0 hs (site_expr hs mat s) x y = site_element hs s A x y.
Proof.
  intros HM Hx Hy. unfold site_expr. cbn [denote]. unfold element, LocalOp_Spec.sum.
  cbn [map fold_right fst snd].
  rewrite <- (term_site (mat d) A x y HM Hx Hy). fold d.
  generalize (term_element S0 hs (mat d) [s] x y). intros [a b].
  destruct (zlist_eqb x y); cbn; f_equal; ring.
Qed.

Lemma valid_site mat A : is_matrix d (mat d) A -> valid_expr S0 hs (site_expr hs mat s).
Proof.
  intros HM. cbn [valid_expr site_expr]. constructor; [|constructor]. split.
  - split; [discriminate|]. split; [repeat constructor; cbn; tauto|]. split.
    + cbn [snd]. intros t [<-|[]]. exact Hsite.
    + apply sq with (A := A). exact HM.
  - left. cbn [snd]. repeat constructor.
Qed.

Lemma product_site mA mB A B x y :
  is_matrix d mA A -> is_matrix d mB B -> configuration hs x -> configuration hs y ->
  comp S0 hs (term_element S0 hs mA [s]) (term_element S0 hs mB [s]) x y
  = site_element hs s (omul d A B) x y.
Proof.
  intros HA HB Hx Hy.
  rewrite <- (matmul_term S0 L0 hs Hs x y Hx Hy mA mB [s] sites1 (sq mA A HA) (sq mB B HB)).
  unfold term_element, site_element. destruct (same_elsewhere [s] x y); [|reflexivity].
  change (loc_index hs [s] x) with (pos_in (nth s hs []) (nth s x 0%Z)).
  change (loc_index hs [s] y) with (pos_in (nth s hs []) (nth s y 0%Z)).
  pose proof (pos_in_lt _ _ (conf_site hs x s Hx Hsite)) as Px.
  pose proof (pos_in_lt _ _ (conf_site hs y s Hy Hsite)) as Py. fold d in Px, Py.
  rewrite entry_mget. unfold matmul.
  pose proof (sq mA A HA) as SA. pose proof (sq mB B HB) as SB.
  cbn [local_dim map fold_right] in SA, SB. rewrite Nat.mul_1_r in SA, SB. fold d in SA, SB.
  rewrite (square_nrows S0 mA d SA), (square_nrows S0 mB d SB), (square_ncols S0 mB d SB) by lia.
  rewrite mbuild_get by assumption. rewrite ksum_sum, ksum_csum. unfold omul.
  apply csum_ext. intros k K. destruct HA as [_ [_ EA]]. destruct HB as [_ [_ EB]].
  rewrite <- EA, <- EB by assumption. reflexivity.
Qed.

Lemma denote_product matA matB A B x y :
  is_matrix d (matA d) A -> is_matrix d (matB d) B -> configuration hs x -> configuration hs y ->
  denote S0 hs (Matmul S0 (site_expr hs matA s) (site_expr hs matB s)) x y
  = site_element hs s (omul d A B) x y.
Proof.
  intros HA HB Hx Hy. rewrite <- (product_site (matA d) (matB d) A B x y HA HB Hx Hy).
  change (denote S0 hs (Matmul S0 (site_expr hs matA s) (site_expr hs matB s)) x y)
    with (comp S0 hs (denote S0 hs (site_expr hs matA s)) (denote S0 hs (site_expr hs matB s)) x y).
  apply (comp_ext S0 hs); try assumption; intros z Hz.
  - rewrite (denote_site matA A x z HA Hx Hz). symmetry. apply term_site; assumption.
  - rewrite (denote_site matB B z y HB Hz Hy). symmetry. apply term_site; assumption.
Qed.

Lemma site_ext A B x y : same d A B -> configuration hs x -> configuration hs y ->
  site_element hs s A x y = site_element hs s B x y.
Proof.
  intros E Hx Hy. unfold site_element. destruct (same_elsewhere [s] x y); [|reflexivity].
  apply E; apply pos_in_lt, conf_site; assumption.
Qed.
End Site.

(** ** Commutators of operators *)
Lemma commutator_row depth hs d s matA matB A B C :
  sorted_space hs -> uniform_space hs d -> (Z.of_nat d ^ Z.of_nat (length hs) <= 2 ^ 31 - 1)%Z ->
  (s < length hs)%nat -> is_matrix d (matA d) A -> is_matrix d (matB d) B ->
  same d (ocomm d A B) C ->
  exists o, build S0 (S depth) hs (commutator (site_expr hs matA s) (site_expr hs matB s)) = Ok o /\
    forall x junk junkx, configuration hs x ->
      row_or_fault S0 hs (site_element hs s C x) (get_conn S0 hs o junk junkx x).
Proof.
  intros Hs U D Hsite HA HB HC.
  assert (Ed : length (nth s hs []) = d) by (apply U, Hsite).
  assert (HA' : is_matrix (length (nth s hs [])) (matA (length (nth s hs []))) A) by (rewrite Ed; exact HA).
  assert (HB' : is_matrix (length (nth s hs [])) (matB (length (nth s hs []))) B) by (rewrite Ed; exact HB).
  pose proof (valid_site hs s Hsite matA A HA') as VA.
  pose proof (valid_site hs s Hsite matB B HB') as VB.
  set (e := commutator (site_expr hs matA s) (site_expr hs matB s)).
  assert (V : valid_expr S0 hs e) by (cbn [valid_expr e commutator]; tauto).
  destruct (build_total S0 L0 cscal_exact depth hs Hs e V (or_intror (ex_intro _ d (Logic.conj U D)))) as [o Bo].
  exists o. split; [exact Bo|]. intros x junk junkx Hx.
  pose proof (expr_row S0 L0 depth hs Hs cscal_exact e o x junk junkx V (or_intror (ex_intro _ d U)) Bo Hx) as R.
  revert R. apply row_or_fault_ext. intros y Hy.
  unfold e, commutator.
  change (denote S0 hs (Minus S0 (Matmul S0 (site_expr hs matA s) (site_expr hs matB s))
                                 (Matmul S0 (site_expr hs matB s) (site_expr hs matA s))) x y)
    with (ksub S0 (denote S0 hs (Matmul S0 (site_expr hs matA s) (site_expr hs matB s)) x y)
                  (denote S0 hs (Matmul S0 (site_expr hs matB s) (site_expr hs matA s)) x y)).
  rewrite (denote_product hs Hs s Hsite matA matB A B x y HA' HB' Hx Hy).
  rewrite (denote_product hs Hs s Hsite matB matA B A x y HB' HA' Hx Hy).
  rewrite <- (site_ext hs s Hsite (ocomm d A B) C x y) by (try rewrite Ed; assumption).
  rewrite Ed. unfold site_element, ocomm, osub.
  destruct (same_elsewhere [s] x y); [reflexivity|].
  cbn. f_equal; ring.
Qed.

(** operators on different sites commute *)
Lemma product_sites hs s t mA mB A B x y : sorted_space hs ->
  (s < length hs)%nat -> (t < length hs)%nat -> s <> t ->
  is_matrix (length (nth s hs [])) mA A -> is_matrix (length (nth t hs [])) mB B ->
  configuration hs x -> configuration hs y ->
  comp S0 hs (term_element S0 hs mA [s]) (term_element S0 hs mB [t]) x y
  = if same_elsewhere [s; t] x y
    then cmul (A (pos_in (nth s hs []) (nth s x 0%Z)) (pos_in (nth s hs []) (nth s y 0%Z)))
              (B (pos_in (nth t hs []) (nth t x 0%Z)) (pos_in (nth t hs []) (nth t y 0%Z)))
    else (0, 0).
Proof.
  intros Hs Ls Lt NE HA HB Hx Hy.
  pose proof (sq hs s mA A HA) as SA. pose proof (sq hs t mB B HB) as SB.
  rewrite <- (kron_term S0 L0 hs Hs x y Hx Hy mA mB [s] [t]); [| |exact SA|exact SB].
  2:{ split; [cbn; constructor; [intros [E|[]]; auto|repeat constructor; cbn; tauto]|].
      cbn. intros k [<-|[<-|[]]]; assumption. }
  unfold term_element. cbn [app]. destruct (same_elsewhere [s; t] x y); [|reflexivity].
  cbn [local_dim map fold_right] in SA, SB. rewrite Nat.mul_1_r in SA, SB.
  pose proof (pos_in_lt _ _ (conf_site hs x s Hx Ls)). pose proof (pos_in_lt _ _ (conf_site hs y s Hy Ls)).
  pose proof (pos_in_lt _ _ (conf_site hs x t Hx Lt)). pose proof (pos_in_lt _ _ (conf_site hs y t Hy Lt)).
  rewrite entry_mget. cbn [loc_index fold_left]. rewrite !Nat.mul_0_l, !Nat.add_0_l.
  rewrite (kron_get S0 mA mB _ _ _ _ _ _ SA SB) by assumption.
  destruct HA as [_ [_ EA]]. destruct HB as [_ [_ EB]].
  rewrite <- EA, <- EB by assumption. reflexivity.
Qed.

Lemma commutator_elsewhere depth hs d s t matA matB A B :
  sorted_space hs -> uniform_space hs d -> (Z.of_nat d ^ Z.of_nat (length hs) <= 2 ^ 31 - 1)%Z ->
  (s < length hs)%nat -> (t < length hs)%nat -> s <> t ->
  is_matrix d (matA d) A -> is_matrix d (matB d) B ->
  exists o, build S0 (S depth) hs (commutator (site_expr hs matA s) (site_expr hs matB t)) = Ok o /\
    forall x junk junkx, configuration hs x ->
      row_or_fault S0 hs (fun _ => (0, 0)) (get_conn S0 hs o junk junkx x).
Proof.
  intros Hs U D Ls Lt NE HA HB.
  assert (Es : length (nth s hs []) = d) by (apply U, Ls).
  assert (Et : length (nth t hs []) = d) by (apply U, Lt).
  assert (HA' : is_matrix (length (nth s hs [])) (matA (length (nth s hs []))) A) by (rewrite Es; exact HA).
  assert (HB' : is_matrix (length (nth t hs [])) (matB (length (nth t hs []))) B) by (rewrite Et; exact HB).
  pose proof (valid_site hs s Ls matA A HA') as VA.
  pose proof (valid_site hs t Lt matB B HB') as VB.
  set (e := commutator (site_expr hs matA s) (site_expr hs matB t)).
  assert (V : valid_expr S0 hs e) by (cbn [valid_expr e commutator]; tauto).
  destruct (build_total S0 L0 cscal_exact depth hs Hs e V (or_intror (ex_intro _ d (Logic.conj U D)))) as [o Bo].
  exists o. split; [exact Bo|]. intros x junk junkx Hx.
  pose proof (expr_row S0 L0 depth hs Hs cscal_exact e o x junk junkx V (or_intror (ex_intro _ d U)) Bo Hx) as R.
  revert R. apply row_or_fault_ext. intros y Hy.
  assert (G : forall s t matA matB A B, (s < length hs)%nat -> (t < length hs)%nat -> s <> t ->
    is_matrix (length (nth s hs [])) (matA (length (nth s hs []))) A ->
    is_matrix (length (nth t hs [])) (matB (length (nth t hs []))) B ->
    denote S0 hs (Matmul S0 (site_expr hs matA s) (site_expr hs matB t)) x y
    = if same_elsewhere [s; t] x y
      then cmul (A (pos_in (nth s hs []) (nth s x 0%Z)) (pos_in (nth s hs []) (nth s y 0%Z)))
                (B (pos_in (nth t hs []) (nth t x 0%Z)) (pos_in (nth t hs []) (nth t y 0%Z)))
      else (0, 0)).
  { clear - Hs Hx Hy. intros s t matA matB A B Ls Lt NE HA HB.
    rewrite <- (product_sites hs s t _ _ A B x y Hs Ls Lt NE HA HB Hx Hy).
    change (denote S0 hs (Matmul S0 (site_expr hs matA s) (site_expr hs matB t)) x y)
      with (comp S0 hs (denote S0 hs (site_expr hs matA s)) (denote S0 hs (site_expr hs matB t)) x y).
    apply (comp_ext S0 hs); try assumption; intros z Hz.
    - rewrite (denote_site hs s Ls matA A x z HA Hx Hz). symmetry. apply term_site; assumption.
    - rewrite (denote_site hs t Lt matB B z y HB Hz Hy). symmetry. apply term_site; assumption. }
  unfold e, commutator.
  change (denote S0 hs (Minus S0 (Matmul S0 (site_expr hs matA s) (site_expr hs matB t))
                                 (Matmul S0 (site_expr hs matB t) (site_expr hs matA s))) x y)
    with (ksub S0 (denote S0 hs (Matmul S0 (site_expr hs matA s) (site_expr hs matB t)) x y)
                  (denote S0 hs (Matmul S0 (site_expr hs matB t) (site_expr hs matA s)) x y)).
  rewrite (G s t matA matB A B Ls Lt NE HA' HB').
  rewrite (G t s matB matA B A Lt Ls (not_eq_sym NE) HB' HA').
  rewrite (same_elsewhere_ext [t; s] [s; t]) by (cbn; tauto).
  destruct (same_elsewhere [s; t] x y); cbn; f_equal; ring.
Qed.

Lemma sum_sites_valid hs mat A n : (n <= length hs)%nat ->
  (forall s, (s < length hs)%nat -> is_matrix (length (nth s hs [])) (mat (length (nth s hs []))) (A s)) ->
  valid_expr S0 hs (sum_sites hs mat n) /\ no_product S0 (sum_sites hs mat n).
Proof.
  intros H HM. induction n.
  - cbn. split; [constructor|exact I].
  - destruct IHn as [V P]; [lia|]. cbn [sum_sites valid_expr no_product]. split; [|split; [exact P|exact I]].
    split; [exact V|]. apply valid_site with (A := A n); [lia|]. apply HM. lia.
Qed.

Lemma total_sz_row depth hs : sorted_space hs ->
  (forall s, (s < length hs)%nat -> exists n, nth s hs [] = spin_states n) ->
  exists o, build S0 (S depth) hs (sum_sites hs sigmaz_mat (length hs)) = Ok o /\
    forall x junk junkx, configuration hs x ->
      row_or_fault S0 hs (fun y => when_eq x y (real (- IZR (magnetisation x))))
        (get_conn S0 hs o junk junkx x).
Proof.
  intros Hs Hspin.
  destruct (sum_sites_valid hs sigmaz_mat (fun s => Zd (length (nth s hs []))) (length hs) (le_n _)
    (fun s _ => sigmaz_entries _)) as [V NP].
  destruct (build_total S0 L0 cscal_exact depth hs Hs _ V (or_introl NP)) as [o Bo].
  exists o. split; [exact Bo|]. intros x junk junkx Hx.
  pose proof (expr_row S0 L0 depth hs Hs cscal_exact _ o x junk junkx V (or_introl NP) Bo Hx) as R.
  revert R. apply row_or_fault_ext. intros y Hy.
  assert (G : forall n, (n <= length hs)%nat -> denote S0 hs (sum_sites hs sigmaz_mat n) x y
              = when_eq x y (real (- IZR (magnetisation (firstn n x))))).
  { induction n; intros Ln.
    - cbn. unfold when_eq, real. destruct (list_eq_dec Z.eq_dec x y); destruct (zlist_eqb x y); cbn; f_equal; ring.
    - cbn [sum_sites denote].
      rewrite IHn by lia.
      change (denote S0 hs (site_expr hs sigmaz_mat n) x y)
        with (denote S0 hs (site_expr hs sigmaz_mat n) x y).
      rewrite (denote_site hs n Ln sigmaz_mat (Zd (length (nth n hs []))) x y (sigmaz_entries _) Hx Hy).
      destruct (Hspin n Ln) as [k Ek].
      unfold Zd. rewrite (site_diag hs n Ln x y Hx Hy 2 _ k eq_refl (eq_trans Ek (spin_spaced k))).
      assert (Lx : (n < length x)%nat) by (rewrite (configuration_length hs x Hx); exact Ln).
      assert (Em : magnetisation (firstn (S n) x) = (magnetisation (firstn n x) + nth n x 0)%Z).
      { clear - Lx. revert n Lx. induction x; intros n Lx; [cbn in Lx; lia|].
        destruct n; cbn [firstn magnetisation fold_right nth]; [lia|].
        cbn [length] in Lx. unfold magnetisation in IHx. cbn [firstn] in IHx.
        specialize (IHx n ltac:(lia)).
        destruct x as [|z x]; [cbn in Lx; lia|]. cbn [firstn fold_right nth] in *. lia. }
      rewrite Em, plus_IZR.
      destruct (spin_v hs n Ln x Hx k Ek) as [_ Vv].
      assert (Nk : INR (length (nth n hs [])) = INR k).
      { rewrite Ek. unfold spin_states. rewrite map_length, seq_length. reflexivity. }
      unfold when_eq, real. destruct (list_eq_dec Z.eq_dec x y); cbn; f_equal; try ring.
      rewrite Vv, Nk. ring. }
  rewrite (G (length hs) (le_n _)). f_equal.
  rewrite <- (configuration_length hs x Hx), firstn_all. reflexivity.
Qed.

(** ** The algebra, stated for the matrices of the code *)
Lemma rows_same N m A : is_matrix N m A -> same N (of_rows m) A.
Proof. intros [_ [_ E]]. exact E. Qed.
Lemma same_sym N A B : same N A B -> same N B A.
Proof. intros H i j I J. symmetry. apply H; assumption. Qed.
Lemma same_trans N A B C : same N A B -> same N B C -> same N A C.
Proof. intros H G i j I J. rewrite H by assumption. apply G; assumption. Qed.
Lemma ocomm_ext N A A' B B' : same N A A' -> same N B B' -> same N (ocomm N A B) (ocomm N A' B').
Proof.
  intros HA HB i j I J. unfold ocomm, osub.
  rewrite (omul_ext N A A' B B' HA HB i j I J), (omul_ext N B B' A A' HB HA i j I J). reflexivity.
Qed.
Lemma oscale_ext N c A B : same N A B -> same N (oscale c A) (oscale c B).
Proof. intros H i j I J. unfold oscale. rewrite H by assumption. reflexivity. Qed.
Lemma oadd_ext N A A' B B' : same N A A' -> same N B B' -> same N (oadd A B) (oadd A' B').
Proof. intros HA HB i j I J. unfold oadd. rewrite HA, HB by assumption. reflexivity. Qed.

Lemma rx N : (0 < N)%nat -> same N (of_rows (sigmax_mat N)) (Xo N).
Proof. intros H. apply rows_same, sigmax_entries, H. Qed.
Lemma ry N : (0 < N)%nat -> same N (of_rows (sigmay_mat N)) (Yo N).
Proof. intros H. eapply same_trans; [apply rows_same, sigmay_entries, H|apply iMP]. Qed.
Lemma rz N : same N (of_rows (sigmaz_mat N)) (Zd N).
Proof. apply rows_same, sigmaz_entries. Qed.
Lemma rp N : (0 < N)%nat -> same N (of_rows (sigmap_mat N)) (P N).
Proof. intros H. apply rows_same, sigmap_entries, H. Qed.
Lemma rm N : (0 < N)%nat -> same N (of_rows (sigmam_mat N)) (M N).
Proof. intros H. apply rows_same, sigmam_entries, H. Qed.

Ltac algebra H E := first
  [ eapply same_trans; [apply ocomm_ext; [H|H]|]; eapply same_trans; [E|];
    try apply oscale_ext; apply same_sym; H ].

Lemma algebra_main N : (0 < N)%nat ->
  let X := of_rows (sigmax_mat N) in let Y := of_rows (sigmay_mat N) in
  let Z := of_rows (sigmaz_mat N) in
  same N (ocomm N X Y) (oscale (0, 2) Z) /\
  same N (ocomm N Y Z) (oscale (0, 2) X) /\
  same N (ocomm N Z X) (oscale (0, 2) Y).
Proof.
  intros H X Y Z. pose proof (rx N H). pose proof (ry N H). pose proof (rz N).
  fold X in H0. fold Y in H1. fold Z in H2. split; [|split].
  - eapply same_trans; [apply ocomm_ext; eassumption|].
    eapply same_trans; [apply comm_xy|]. apply oscale_ext, same_sym; assumption.
  - eapply same_trans; [apply ocomm_ext; eassumption|].
    eapply same_trans; [apply comm_yz|]. apply oscale_ext, same_sym; assumption.
  - eapply same_trans; [apply ocomm_ext; eassumption|].
    eapply same_trans; [apply comm_zx|]. apply oscale_ext, same_sym; assumption.
Qed.

Lemma casimir_main N : (0 < N)%nat ->
  let X := of_rows (sigmax_mat N) in let Y := of_rows (sigmay_mat N) in
  let Z := of_rows (sigmaz_mat N) in
  same N (oadd (oadd (omul N X X) (omul N Y Y)) (omul N Z Z))
         (oscale (real (INR N * INR N - 1)) oid).
Proof.
  intros H X Y Z. eapply same_trans; [|apply casimir].
  repeat apply oadd_ext; apply omul_ext; first [apply rx, H|apply ry, H|apply rz].
Qed.

Lemma ladder_main N : (0 < N)%nat ->
  let X := of_rows (sigmax_mat N) in let Y := of_rows (sigmay_mat N) in
  let Z := of_rows (sigmaz_mat N) in
  let U := of_rows (sigmap_mat N) in let D := of_rows (sigmam_mat N) in
  same N (ocomm N U D) Z /\
  same N (ocomm N Z U) (oscale (2, 0) U) /\ same N (ocomm N Z D) (oscale (-2, 0) D) /\
  same N D (odagger U) /\
  same N X (oadd U D) /\ same N (oscale (2, 0) U) (oadd X (oscale ci Y)) /\
  same N (oscale (2, 0) D) (osub X (oscale ci Y)).
Proof.
  intros H X Y Z U D. pose proof (rx N H). pose proof (ry N H). pose proof (rz N).
  pose proof (rp N H). pose proof (rm N H).
  fold X in H0. fold Y in H1. fold Z in H2. fold U in H3. fold D in H4.
  split; [|split; [|split; [|split; [|split; [|split]]]]].
  - eapply same_trans; [apply ocomm_ext; eassumption|].
    eapply same_trans; [apply comm_pm|]. apply same_sym; assumption.
  - eapply same_trans; [apply ocomm_ext; eassumption|].
    eapply same_trans; [apply ZP|]. apply oscale_ext, same_sym; assumption.
  - eapply same_trans; [apply ocomm_ext; eassumption|].
    eapply same_trans; [apply ZM|]. apply oscale_ext, same_sym; assumption.
  - intros i j I J. rewrite (H4 i j I J). unfold odagger. rewrite (H3 j i J I).
    unfold M, P, down, up. destruct (Nat.eqb i (S j)); unfold cconj; cbn; f_equal; ring.
  - intros i j I J. rewrite (H0 i j I J). unfold Xo, oadd. rewrite (H3 i j I J), (H4 i j I J). reflexivity.
  - intros i j I J. unfold oscale, oadd. rewrite (H0 i j I J), (H1 i j I J), (H3 i j I J).
    unfold Xo, Yo, oadd, oscale, osub. cx.
  - intros i j I J. unfold oscale, osub. rewrite (H0 i j I J), (H1 i j I J), (H4 i j I J).
    unfold Xo, Yo, oadd, oscale, osub. cx.
Qed.

Lemma hermitian_main N : (0 < N)%nat ->
  (let X := of_rows (sigmax_mat N) in same N (odagger X) X) /\
  (let Y := of_rows (sigmay_mat N) in same N (odagger Y) Y) /\
  (let Z := of_rows (sigmaz_mat N) in same N (odagger Z) Z).
Proof.
  intros H. split; [|split]; cbv zeta; intros i j I J; unfold odagger.
  - rewrite (rx N H j i J I), (rx N H i j I J). unfold Xo, oadd, P, M, up, down.
    destruct (Nat.eqb_spec i (S j)); destruct (Nat.eqb_spec j (S i)); try lia; cx.
  - rewrite (ry N H j i J I), (ry N H i j I J). unfold Yo, oscale, osub, P, M, up, down.
    destruct (Nat.eqb_spec i (S j)); destruct (Nat.eqb_spec j (S i)); try lia; cx.
  - rewrite (rz N j i J I), (rz N i j I J). unfold Zd, diagonal. rewrite (Nat.eqb_sym j i).
    destruct (Nat.eqb_spec i j) as [->|]; cx.
Qed.

Lemma amp_2_1 : amp 2 1 = 1.
Proof. unfold amp. cbn [INR]. replace (1 * (1 + 1 - 1)) with 1 by ring. apply sqrt_1. Qed.

Lemma documented_ladder_false :
  ~ same 2 (of_rows (sigmap_mat 2))
           (oadd (of_rows (sigmax_mat 2)) (oscale ci (of_rows (sigmay_mat 2)))).
Proof.
  intros E. specialize (E 0%nat 1%nat ltac:(lia) ltac:(lia)). unfold oadd, oscale in E.
  rewrite (rp 2 ltac:(lia) 0%nat 1%nat), (rx 2 ltac:(lia) 0%nat 1%nat), (ry 2 ltac:(lia) 0%nat 1%nat) in E by lia.
  unfold Xo, Yo, oadd, oscale, osub, P, M, up, down in E. cbn [Nat.eqb] in E.
  rewrite amp_2_1 in E. apply (f_equal fst) in E. unfold cadd, cmul, csub, ci in E. cbn [fst snd] in E. lra.
Qed.

(** ** Bosons *)
Lemma boson_main N : (0 < N)%nat ->
  let A := of_rows (destroy_mat N) in let C := of_rows (create_mat N) in
  let n := of_rows (number_mat N) in
  same N C (odagger A) /\ same N (omul N C A) n /\
  same N (ocomm N A C)
    (fun i j => if Nat.eqb i j then (if Nat.eqb i (N - 1) then real (1 - INR N) else real 1) else (0, 0)) /\
  same N (ocomm N n C) C /\ same N (ocomm N n A) (oscale (-1, 0) A).
Proof.
  intros H A C n.
  pose proof (rows_same _ _ _ (destroy_entries N H)) as EA. fold A in EA.
  pose proof (rows_same _ _ _ (create_entries N H)) as EC. fold C in EC.
  pose proof (rows_same _ _ _ (number_entries N)) as En. fold n in En.
  assert (CA : same N (omul N C A) (diagonal (fun a => (INR a, 0)))).
  { eapply same_trans; [apply omul_ext; eassumption|]. intros i j I J.
    rewrite omul_down_up by assumption. unfold diagonal.
    destruct (Nat.eqb i j); [|reflexivity]. destruct i; cbn [Nat.ltb Nat.leb]; [reflexivity|].
    unfold bamp, cmul. cbn [fst snd]. rewrite sqrt_sqrt by apply pos_INR. f_equal; ring. }
  split; [|split; [|split; [|split]]].
  - intros i j I J. rewrite (EC i j I J). unfold odagger. rewrite (EA j i J I).
    unfold down, up, bamp. destruct (Nat.eqb i (S j)); unfold cconj; cbn; f_equal; ring.
  - eapply same_trans; [exact CA|apply same_sym, En].
  - intros i j I J. unfold ocomm, osub. rewrite (CA i j I J).
    rewrite (omul_ext N A (up bamp) C (down bamp) EA EC i j I J).
    rewrite omul_up_down by assumption. unfold diagonal.
    destruct (Nat.eqb i j); [|cx].
    destruct (Nat.eqb_spec i (N - 1)) as [E|NE].
    + replace (S i <? N)%nat with false by (symmetry; apply Nat.ltb_ge; lia).
      rewrite E, minus_INR by lia. unfold real. cbn [INR]. cx.
    + replace (S i <? N)%nat with true by (symmetry; apply Nat.ltb_lt; lia).
      unfold bamp, cmul. cbn [fst snd]. rewrite sqrt_sqrt by apply pos_INR. rewrite S_INR.
      unfold real. cx.
  - intros i j I J. rewrite (ocomm_ext N _ _ _ _ En EC i j I J), (EC i j I J).
    unfold ocomm, osub. rewrite omul_diag_l, omul_diag_r by assumption.
    unfold down. destruct (Nat.eqb_spec i (S j)) as [->|]; [rewrite S_INR|]; cx.
    + destruct (bamp (S j)) as [u w]. unfold cmul, csub. cbn. f_equal; ring.
  - intros i j I J. rewrite (ocomm_ext N _ _ _ _ En EA i j I J). unfold oscale. rewrite (EA i j I J).
    unfold ocomm, osub. rewrite omul_diag_l, omul_diag_r by assumption.
    unfold up. destruct (Nat.eqb_spec j (S i)) as [->|]; [rewrite S_INR|]; cx.
Qed.

Lemma proj_matrix N k : (k < N)%nat ->
  is_matrix N (np_diag (upd (repeat (0, 0) N) k (1, 0)) 0)
    (diagonal (fun a => if Nat.eqb a k then (1, 0) else (0, 0))).
Proof.
  intros K. pose proof (diag_diag (upd (repeat (0, 0) N) k (1, 0))) as D.
  assert (L : length (upd (repeat ((0, 0) : cpx) N) k (1, 0)) = N).
  { rewrite upd_length, repeat_length. reflexivity. }
  rewrite L in D. eapply is_matrix_ext; [exact D|]. apply diagonal_ext. intros a A.
  destruct (Nat.eqb_spec a k) as [->|NE].
  - rewrite nth_upd_same; [reflexivity|rewrite repeat_length; exact K].
  - rewrite nth_upd_other by auto. apply nth_repeat.
Qed.

Lemma proj_row eps depth hs s x junk junkx N (n : Z) :
  0 <= eps < 1 -> sorted_space hs -> (s < length hs)%nat -> configuration hs x ->
  nth s hs [] = fock_states N ->
  ((Z.of_nat N <= n)%Z -> proj eps (S depth) hs s n = Err ValueError) /\
  ((n < - Z.of_nat N)%Z -> proj eps (S depth) hs s n = Err IndexError) /\
  ((- Z.of_nat N <= n < Z.of_nat N)%Z ->
   exists o, proj eps (S depth) hs s n = Ok o /\
     row_or_fault (cscal eps) hs
       (fun y => when_eq x y
          (if (nth s x 0 =? (if n <? 0 then n + Z.of_nat N else n))%Z then real 1 else (0, 0)))
       (get_conn (cscal eps) hs o junk junkx x)).
Proof.
  intros He Hs Ls Hx HN.
  assert (LN : length (nth s hs []) = N) by (rewrite HN, fock_spaced; apply spaced_length).
  unfold proj, proj_mat. rewrite (proj2 (Nat.leb_gt _ _) Ls), LN.
  split; [|split].
  - intros G. rewrite (proj2 (Z.leb_le _ _) G). reflexivity.
  - intros G. replace (Z.of_nat N <=? n)%Z with false by (symmetry; apply Z.leb_gt; lia).
    replace (n <? 0)%Z with true by (symmetry; apply Z.ltb_lt; lia).
    replace (n + Z.of_nat N <? 0)%Z with true by (symmetry; apply Z.ltb_lt; lia). reflexivity.
  - intros G. replace (Z.of_nat N <=? n)%Z with false by (symmetry; apply Z.leb_gt; lia).
    set (i := (if n <? 0 then n + Z.of_nat N else n)%Z).
    assert (Hi : (0 <= i < Z.of_nat N)%Z) by (unfold i; destruct (Z.ltb_spec n 0); lia).
    replace (i <? 0)%Z with false by (symmetry; apply Z.ltb_ge; lia). cbn [bind].
    assert (HM : is_matrix (length (nth s hs [])) (np_diag (upd (repeat (0, 0) N) (Z.to_nat i) (1, 0)) 0)
       (diagonal (fun a => if Nat.eqb a (Z.to_nat i) then (1, 0) else (0, 0)))).
    { rewrite LN. apply proj_matrix. lia. }
    assert (HC : clear_entries (length (nth s hs []))
       (diagonal (fun a => if Nat.eqb a (Z.to_nat i) then (1, 0) else (0, 0)))).
    { apply clear_diag. intros a _. destruct (Nat.eqb a (Z.to_nat i)); [right|left; reflexivity].
      unfold cnorm2. cbn. lra. }
    destruct (one_site_row eps He hs Hs s Ls _ _ HM HC depth x junk junkx Hx) as [o [B R]].
    exists o. split; [exact B|]. revert R. apply row_or_fault_ext. intros y Hy.
    rewrite (site_diag hs s Ls x y Hx Hy 1 0 N eq_refl (eq_trans HN (fock_spaced N))).
    destruct (fock_v hs s Ls x Hx N HN) as [_ V]. f_equal.
    set (p := pos_in (nth s hs []) (nth s x 0%Z)) in *. rewrite V. clearbody p.
    destruct (Nat.eqb_spec p (Z.to_nat i)); destruct (Z.eqb_spec (Z.of_nat p) i); try lia; reflexivity.
Qed.

(** ** Concrete elements *)
Lemma row_defined eps hs f r y : row_or_fault (cscal eps) hs f r -> configuration hs y ->
  f y <> (0, 0) -> exists l, r = Ok l /\ weight (cscal eps) l y = f y.
Proof.
  intros R Hy NZ. destruct r as [l|e]; cbn [row_or_fault] in R.
  - exists l. split; [reflexivity|]. apply R, Hy.
  - exfalso. apply NZ. apply R, Hy.
Qed.

Lemma spin_half_conf : configuration [spin_states 2] [1%Z] /\ sorted_space [spin_states 2].
Proof. split; [constructor; [cbn; auto|constructor]|repeat constructor]. Qed.

Lemma sigmaz_sign eps depth junk junkx : 0 <= eps < 1 ->
  exists o l, sigmaz eps (S depth) [spin_states 2] 0 = Ok o /\
    get_conn (cscal eps) [spin_states 2] o junk junkx [1%Z] = Ok l /\
    weight (cscal eps) l [1%Z] = real (-1).
Proof.
  intros He. destruct spin_half_conf as [C Hs].
  destruct (sigmaz_row eps He depth [spin_states 2] Hs 0 ltac:(cbn; lia) [1%Z] C junk junkx 2 eq_refl) as [o [B R]].
  apply row_defined with (y := [1%Z]) in R; [|exact C|].
  - destruct R as [l [G W]]. exists o, l. split; [exact B|]. split; [exact G|]. rewrite W.
    unfold when_eq. destruct (list_eq_dec Z.eq_dec [1%Z] [1%Z]); [|congruence].
    unfold real. cbn [nth]. f_equal.
  - unfold when_eq. destruct (list_eq_dec Z.eq_dec [1%Z] [1%Z]); [|congruence].
    unfold real. cbn [nth]. intros E. apply (f_equal fst) in E. cbn in E. lra.
Qed.

Lemma total_sz_sign depth junk junkx :
  exists o l, build S0 (S depth) [spin_states 2; spin_states 2]
                (sum_sites [spin_states 2; spin_states 2] sigmaz_mat 2) = Ok o /\
    get_conn S0 [spin_states 2; spin_states 2] o junk junkx [1%Z; 1%Z] = Ok l /\
    magnetisation [1%Z; 1%Z] = 2%Z /\ weight S0 l [1%Z; 1%Z] = real (-2).
Proof.
  assert (Hs : sorted_space [spin_states 2; spin_states 2]) by (repeat constructor).
  assert (C : configuration [spin_states 2; spin_states 2] [1%Z; 1%Z]) by (repeat (constructor; [cbn; auto|]); constructor).
  destruct (total_sz_row depth [spin_states 2; spin_states 2] Hs) as [o [B R]].
  { intros [|[|k]] L; cbn in L; try lia; exists 2%nat; reflexivity. }
  specialize (R [1%Z; 1%Z] junk junkx C).
  apply row_defined with (y := [1%Z; 1%Z]) in R; [|exact C|].
  - destruct R as [l [G W]]. exists o, l. split; [exact B|]. split; [exact G|].
    split; [reflexivity|]. rewrite W. unfold when_eq.
    destruct (list_eq_dec Z.eq_dec [1%Z; 1%Z] [1%Z; 1%Z]); [|congruence].
    unfold real. f_equal.
  - unfold when_eq. destruct (list_eq_dec Z.eq_dec [1%Z; 1%Z] [1%Z; 1%Z]); [|congruence].
    unfold real. cbn. intros E. apply (f_equal fst) in E. cbn in E. lra.
Qed.

Lemma proj_last eps depth junk junkx : 0 <= eps < 1 ->
  exists o l, proj eps (S depth) [fock_states 3] 0 (-1) = Ok o /\
    get_conn (cscal eps) [fock_states 3] o junk junkx [2%Z] = Ok l /\
    weight (cscal eps) l [2%Z] = real 1.
Proof.
  intros He. assert (Hs : sorted_space [fock_states 3]) by (repeat constructor).
  assert (C : configuration [fock_states 3] [2%Z]) by (repeat (constructor; [cbn; auto|]); constructor).
  destruct (proj_row eps depth [fock_states 3] 0 [2%Z] junk junkx 3 (-1) He Hs ltac:(cbn; lia) C eq_refl)
    as [_ [_ R]].
  destruct R as [o [B R]]; [lia|].
  apply row_defined with (y := [2%Z]) in R; [|exact C|].
  - destruct R as [l [G W]]. exists o, l. split; [exact B|]. split; [exact G|]. rewrite W.
    unfold when_eq. destruct (list_eq_dec Z.eq_dec [2%Z] [2%Z]); [|congruence]. reflexivity.
  - unfold when_eq. destruct (list_eq_dec Z.eq_dec [2%Z] [2%Z]); [|congruence].
    cbn. unfold real. intros E. apply (f_equal fst) in E. cbn in E. lra.
Qed.
