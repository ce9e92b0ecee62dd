(** Proofs behind C86: the group law, subgroups, products of groups. *)
From Coq Require Import List Arith Bool ZArith QArith Qcanon Qabs Sorted Lia Lqa.
From Verif Require Import Base BaseFacts Rings FloatCmp_Model FloatCmp_Spec FloatCmp_Proofs LatGen_Model LatGen_Look
  PointGp_Model PointGp_Spec PointGp_Lin PointGp_Proofs PointGp_Tables.
Import ListNotations.
Open Scope nat_scope.

Lemma fin_choice {A} (d : A) n (P : nat -> A -> Prop) : (forall i, i < n -> exists k, P i k) -> exists f, forall i, i < n -> P i (f i).
Proof.
  induction n as [|n IH]; intros H.
  - exists (fun _ => d). intros; lia.
  - destruct IH as [f F]; [intros; apply H; lia|]. destruct (H n) as [k K]; [lia|].
    exists (fun i => if Nat.eqb i n then k else f i). intros i Hi. destruct (Nat.eqb_spec i n) as [->|]; [exact K|apply F; lia].
Qed.

(** ** lattice vectors *)
Lemma lattice_ext n U v v' : veq n v v' -> lattice_vector n U v -> lattice_vector n U v'.
Proof. intros E [m H]. exists m. intros i Hi. rewrite <- E by exact Hi. now apply H. Qed.
Lemma inject_add a b : Q2Qc (inject_Z (a + b)) = (Q2Qc (inject_Z a) + Q2Qc (inject_Z b))%Qc.
Proof. apply Qc_is_canon. rewrite Qc_add_this, !Qc_of_this, inject_Z_plus. reflexivity. Qed.
Lemma inject_opp a : Q2Qc (inject_Z (- a)) = (- Q2Qc (inject_Z a))%Qc.
Proof.
  apply Qc_is_canon. unfold Qcopp. rewrite !Qc_of_this, inject_Z_opp. reflexivity.
Qed.
Lemma lattice_add n U v v' : lattice_vector n U v -> lattice_vector n U v' -> lattice_vector n U (fun i => v i + v' i)%Qc.
Proof.
  intros [m H] [m' H']. exists (fun k => m k + m' k)%Z. intros i Hi. rewrite H, H' by exact Hi. rewrite <- qs_add.
  apply qs_ext. intros k _. rewrite inject_add. ring.
Qed.
Lemma lattice_opp n U v : lattice_vector n U v -> lattice_vector n U (fun i => - v i)%Qc.
Proof.
  intros [m H]. exists (fun k => - m k)%Z. intros i Hi. rewrite H by exact Hi. rewrite <- qs_opp.
  apply qs_ext. intros k _. rewrite inject_opp. ring.
Qed.
Lemma lattice_zero n U v : veq n v (fun _ => 0%Qc) -> lattice_vector n U v.
Proof.
  intros H. exists (fun _ => 0%Z). intros i Hi. rewrite H by exact Hi. symmetry. apply qs_zero. intros k _.
  change (Q2Qc (inject_Z 0)) with 0%Qc. ring.
Qed.

(** ** equality modulo the lattice *)
Section Mod.
Variable G : point_group.
Let n := g_ndim G.
Lemma mod_refl W w : equal_mod G W w W w.
Proof.
  split; [intros i j _ _; reflexivity|]. destruct (g_cell G) as [[U inv]|]; [|intros i _; reflexivity].
  apply lattice_zero. intros i _. ring.
Qed.
Lemma mod_sym W w W' w' : equal_mod G W w W' w' -> equal_mod G W' w' W w.
Proof.
  intros [A B]. split; [now apply meq_sym|]. destruct (g_cell G) as [[U inv]|].
  - apply lattice_opp in B. eapply lattice_ext; [|exact B]. intros i _. cbn beta. ring.
  - intros i Hi. symmetry. auto.
Qed.
Lemma mod_trans W w W' w' W'' w'' : equal_mod G W w W' w' -> equal_mod G W' w' W'' w'' -> equal_mod G W w W'' w''.
Proof.
  intros [A B] [A' B']. split; [eapply meq_trans; eassumption|]. destruct (g_cell G) as [[U inv]|].
  - pose proof (lattice_add _ _ _ _ B B') as C. eapply lattice_ext; [|exact C]. intros i _. cbn beta. ring.
  - intros i Hi. rewrite B, B'; auto.
Qed.
Lemma mod_exact W w W' w' : meq n W W' -> veq n w w' -> equal_mod G W w W' w'.
Proof.
  intros A B. split; [exact A|]. destruct (g_cell G) as [[U inv]|]; [|exact B]. apply lattice_zero. intros i Hi. rewrite B by exact Hi. ring.
Qed.
Lemma mod_compose A a A' a' B b B' b' : keeps_lattice G A -> equal_mod G A a A' a' -> equal_mod G B b B' b' ->
  equal_mod G (mmul n A B) (fun i => mvec n A b i + a i)%Qc (mmul n A' B') (fun i => mvec n A' b' i + a' i)%Qc.
Proof.
  intros K [HA Ha] [HB Hb]. split; [now apply mmul_ext|]. unfold keeps_lattice in K. destruct (g_cell G) as [[U inv]|].
  - specialize (K _ Hb). pose proof (lattice_add _ _ _ _ K Ha) as C. eapply lattice_ext; [|exact C]. intros i Hi. cbn beta. fold n.
    rewrite mvec_sub. rewrite (mvec_ext n A A' b' b' i Hi HA) by (intros ? ?; reflexivity). ring.
  - intros i Hi. rewrite (mvec_ext n A A' b b' i Hi HA Hb). now rewrite Ha.
Qed.
Lemma mod_compose_left A a A' a' B b : equal_mod G A a A' a' ->
  equal_mod G (mmul n A B) (fun i => mvec n A b i + a i)%Qc (mmul n A' B) (fun i => mvec n A' b i + a' i)%Qc.
Proof.
  intros [HA Ha]. split; [apply mmul_ext; [exact HA|intros i j _ _; reflexivity]|]. destruct (g_cell G) as [[U inv]|].
  - eapply lattice_ext; [|exact Ha]. intros i Hi. cbn beta. fold n. rewrite (mvec_ext n A A' b b i Hi HA) by (intros ? ?; reflexivity). ring.
  - intros i Hi. rewrite (mvec_ext n A A' b b i Hi HA) by (intros ? ?; reflexivity). now rewrite Ha.
Qed.

Variable minv : nat -> mat -> mat.
Let N := length (g_elems G).
Notation M i := (e_matrix (el G i)).
Notation w_ i := (e_translation (el G i)).

Lemma group_law : valid_cell G -> distinct G ->
  (forall i, i < N -> inverse_of n (M i) (minv n (M i)) /\ keeps_lattice G (M i)) ->
  (forall i j, i < N -> j < N -> exists k, k < N /\ equal_mod G (M k) (w_ k) (prod_W G (el G i) (el G j)) (prod_w G (el G i) (el G j))) ->
  (forall i, i < N -> exists k, k < N /\ equal_mod G (M k) (w_ k) (inv_W minv G (el G i)) (inv_w minv G (el G i))) ->
  exists t P, pg_inverse minv G = Ok t /\ pg_product_table minv G = Ok P /\
    (forall i, i < N -> nth i t 0 < N /\
       equal_mod G eye (fun _ => 0%Qc) (prod_W G (el G i) (el G (nth i t 0))) (prod_w G (el G i) (el G (nth i t 0)))) /\
    (forall i j, i < N -> j < N -> nth j (nth i P []) 0 < N /\
       equal_mod G (M j) (w_ j) (prod_W G (el G i) (el G (nth j (nth i P []) 0))) (prod_w G (el G i) (el G (nth j (nth i P []) 0)))).
Proof.
  intros V D HM Hmu Hiv.
  destruct (fin_choice 0 N _ Hiv) as [iv Iv].
  assert (Hmu' : forall i, i < N -> exists f : nat -> nat, forall j, j < N -> f j < N /\ equal_mod G (M (f j)) (w_ (f j)) (prod_W G (el G i) (el G j)) (prod_w G (el G i) (el G j))).
  { intros i Hi. exact (fin_choice 0 N _ (fun j Hj => Hmu i j Hi Hj)). }
  destruct (fin_choice (fun _ => 0) N _ Hmu') as [mu Mu].
  destruct (inverse_complete G minv iv V Iv) as (t & It & Et). specialize (Et D).
  pose proof (table_complete G minv mu iv V D (fun i j Hi Hj => Mu i Hi j Hj) Iv) as Pt.
  exists t, (map (fun i => map (fun j => mu (iv i) j) (seq 0 N)) (seq 0 N)). split; [exact It|]. split; [exact Pt|].
  assert (Inv : forall i, i < N -> forall j, equal_mod G (M j) (w_ j)
     (mmul n (M i) (mmul n (minv n (M i)) (M j)))
     (fun k => mvec n (M i) (fun l => mvec n (minv n (M i)) (w_ j) l + inv_w minv G (el G i) l) k + w_ i k)%Qc).
  { intros i Hi j. destruct (HM i Hi) as [[H1 H2] _]. apply mod_exact.
    - intros a b Ha Hb. rewrite <- mmul_assoc. rewrite (mmul_ext n _ eye (M j) (M j) H1) by (auto; intros ? ? ? ?; reflexivity). symmetry. now apply mmul_eye_l.
    - intros a Ha.
      assert (R : forall v, mvec n (M i) (mvec n (minv n (M i)) v) a = v a).
      { intros v. rewrite <- mvec_mmul. rewrite (mvec_ext n _ eye v v a Ha H1) by (intros ? ?; reflexivity). now apply mvec_eye. }
      transitivity (mvec n (M i) (mvec n (minv n (M i)) (w_ j)) a + mvec n (M i) (fun l => - mvec n (minv n (M i)) (w_ i) l)%Qc a + w_ i a)%Qc.
      { rewrite mvec_opp, !R. ring. }
      rewrite mvec_add. reflexivity. }
  split.
  - intros i Hi. rewrite Et. rewrite (nth_indep _ 0 (iv 0)) by (rewrite map_length, seq_length; exact Hi). rewrite (map_nth iv), seq_nth by exact Hi. cbn [Nat.add].
    destruct (Iv i Hi) as [A B]. split; [exact A|]. destruct (HM i Hi) as [[H1 H2] K].
    eapply mod_trans; [|apply mod_sym; exact (mod_compose _ _ _ _ _ _ _ _ K (mod_refl (M i) (w_ i)) B)].
    apply mod_exact.
    + intros a b Ha Hb. symmetry. now apply H1.
    + intros a Ha. transitivity (mvec n (M i) (fun l => - mvec n (minv n (M i)) (w_ i) l)%Qc a + w_ i a)%Qc; [|reflexivity].
      rewrite mvec_opp, <- mvec_mmul. rewrite (mvec_ext n _ eye (w_ i) (w_ i) a Ha H1) by (intros ? ?; reflexivity).
      rewrite mvec_eye by exact Ha. ring.
  - intros i j Hi Hj.
    assert (E : nth j (nth i (map (fun i => map (fun j => mu (iv i) j) (seq 0 N)) (seq 0 N)) []) 0 = mu (iv i) j).
    { set (f := fun i => map (fun j => mu (iv i) j) (seq 0 N)). rewrite (nth_indep _ [] (f 0)) by (rewrite map_length, seq_length; exact Hi).
      rewrite (map_nth f), seq_nth by exact Hi. unfold f. rewrite (nth_indep _ 0 (mu (iv (0 + i)) 0)) by (rewrite map_length, seq_length; exact Hj).
      rewrite (map_nth (fun j => mu (iv (0 + i)) j)), seq_nth by exact Hj. reflexivity. }
    rewrite E. destruct (Iv i Hi) as [A B]. destruct (Mu _ A j Hj) as [C F]. split; [exact C|]. destruct (HM i Hi) as [_ K].
    eapply mod_trans; [apply (Inv i Hi j)|]. apply mod_compose; [exact K|apply mod_refl|]. apply mod_sym.
    eapply mod_trans; [exact F|]. exact (mod_compose_left _ _ _ _ _ _ B).
Qed.
End Mod.

(** ** removal of duplicates *)
Lemma first_index_spec G i : In i (first_index G) <-> i < length (g_elems G) /\
  forall j, j < i -> e_canonical G (el G j) <> e_canonical G (el G i).
Proof.
  unfold first_index. set (rows := map (e_canonical G) (g_elems G)). cbn zeta. rewrite filter_In, existsb_exists, in_seq.
  assert (L : length rows = length (g_elems G)) by apply map_length.
  assert (Nt : forall k, k < length rows -> nth k rows [] = e_canonical G (el G k)).
  { intros k Hk. unfold rows. rewrite (nth_indep _ [] (e_canonical G EId)) by exact Hk. now rewrite (map_nth (e_canonical G)). }
  split.
  - intros [Hi (k & Hk & E)]. apply Nat.eqb_eq in E. subst k. apply in_map_iff in Hk. destruct Hk as (u & Eu & Hu). apply (proj1 (zunique_in rows u)) in Hu.
    destruct (zrow_pos_spec u rows Hu) as (A & B & C). rewrite Eu in *. split; [lia|]. intros j Hj Q. apply (C j Hj).
    rewrite Nt in B |- * by lia. congruence.
  - intros [Hi F]. split; [lia|]. exists i. split; [|apply Nat.eqb_refl]. apply in_map_iff. exists (e_canonical G (el G i)).
    assert (I : In (e_canonical G (el G i)) rows) by (apply in_map, nth_In; exact Hi).
    split; [|now apply zunique_in]. destruct (zrow_pos_spec _ _ I) as (A & B & C). set (z := zrow_pos _ _) in *.
    destruct (Nat.lt_trichotomy z i) as [H|[->|H]]; [|reflexivity|].
    + rewrite Nt in B by lia. now destruct (F z H).
    + specialize (C i H). rewrite Nt in C by lia. contradiction.
Qed.
Lemma filter_sorted (f : nat -> bool) l : StronglySorted lt l -> StronglySorted lt (filter f l).
Proof.
  induction 1 as [|a l S IH F]; cbn; [constructor|]. destruct (f a); [|exact IH]. constructor; [exact IH|].
  rewrite Forall_forall in *. intros x Hx. apply filter_In in Hx. now apply F.
Qed.
Lemma seq_sorted_lt s n : StronglySorted lt (seq s n).
Proof. revert s. induction n; intros s; cbn; constructor; auto. apply Forall_forall. intros x Hx. apply in_seq in Hx. lia. Qed.

Lemma remove_duplicates_main G : valid_cell G ->
  let M i := e_matrix (el G i) in let w_ i := e_translation (el G i) in
  exists idx, pg_remove_duplicates G = PG (map (el G) idx) (g_ndim G) (g_cell G) /\ StronglySorted lt idx /\
    (forall k, In k idx -> k < length (g_elems G)) /\
    (forall i, i < length (g_elems G) -> exists k, In k idx /\ k <= i /\ nearly G (M k) (w_ k) (M i) (w_ i)) /\
    (forall k l, In k idx -> In l idx -> k <> l -> ~ equal_mod G (M k) (w_ k) (M l) (w_ l)) /\
    (distinct G -> idx = seq 0 (length (g_elems G))).
Proof.
  intros V M w_. exists (first_index G). split; [reflexivity|]. split; [apply filter_sorted, seq_sorted_lt|].
  assert (Key : forall k l, In k (first_index G) -> In l (first_index G) -> e_canonical G (el G k) = e_canonical G (el G l) -> k = l).
  { intros k l Hk Hl E. apply first_index_spec in Hk, Hl. destruct Hk as [_ Hk], Hl as [_ Hl].
    destruct (Nat.lt_trichotomy k l) as [H|[H|H]]; [now destruct (Hl k H)|exact H|now destruct (Hk l H)]. }
  split; [|split; [|split]].
  - intros k Hk. apply first_index_spec in Hk. tauto.
  - intros i Hi.
    assert (E : exists k, In k (first_index G) /\ k <= i /\ e_canonical G (el G k) = e_canonical G (el G i)).
    { revert Hi. induction i as [i IH] using lt_wf_ind. intros Hi.
      assert (D : (exists j, j < i /\ e_canonical G (el G j) = e_canonical G (el G i)) \/ forall j, j < i -> e_canonical G (el G j) <> e_canonical G (el G i)).
      { clear. generalize (e_canonical G (el G i)). intros key. induction i as [|i [(j & A & B)|A]]; [right; intros; lia|left; exists j; split; [lia|auto]|].
        destruct (list_eq_dec Z.eq_dec (e_canonical G (el G i)) key) as [E|E]; [left; exists i; split; [lia|auto]|right].
        intros j Hj. destruct (Nat.eq_dec j i) as [->|]; [auto|apply A; lia]. }
      destruct D as [(j & A & B)|A].
      - destruct (IH j A ltac:(lia)) as (k & K1 & K2 & K3). exists k. split; [exact K1|]. split; [lia|congruence].
      - exists i. split; [apply first_index_spec; auto|]. split; [lia|reflexivity]. }
    destruct E as (k & A & B & C). exists k. split; [exact A|]. split; [exact B|]. now apply canonical_nearly.
  - intros k l Hk Hl Ne E. apply canonical_equal in E; [|exact V]. exact (Ne (Key k l Hk Hl E)).
  - intros D. unfold first_index. rewrite map_length.
    assert (F : forall l, (forall x, In x l -> In x (first_index G)) -> filter (fun i => existsb (Nat.eqb i) (map (fun u => zrow_pos u (map (e_canonical G) (g_elems G))) (zunique (map (e_canonical G) (g_elems G))))) l = l).
    { induction l as [|x l IH]; intros H; [reflexivity|]. cbn [filter]. rewrite IH by (intros; apply H; now right).
      specialize (H x (or_introl eq_refl)). unfold first_index in H. apply filter_In in H. destruct H as [_ H]. now rewrite H. }
    apply F. intros x Hx. apply in_seq in Hx. apply first_index_spec. split; [lia|]. intros j Hj E.
    assert (j = x) by (apply D; try lia; now apply canonical_nearly). lia.
Qed.

(** ** rotations *)
Lemma det_mul n A B : n <= 3 -> det n (mmul n A B) = (det n A * det n B)%Qc.
Proof.
  intros H. assert (n = 0 \/ n = 1 \/ n = 2 \/ n = 3) as [->|[->|[->| ->]]] by lia;
    unfold mmul; cbn [det fsum qC T r0 r1 radd rmul Nat.even Nat.ltb Nat.leb]; ring.
Qed.

Lemma det_ext n A B : meq n A B -> det n A = det n B.
Proof.
  revert A B. induction n as [|n IH]; intros A B H; [reflexivity|]. cbn [det]. apply qs_ext. intros j Hj.
  rewrite (H 0 j) by lia. f_equal. apply IH. intros r c Hr Hc. apply H; [lia|]. destruct (Nat.ltb c j); lia.
Qed.
Lemma det_eye n : n <= 3 -> det n eye = 1%Qc.
Proof. intros H. assert (n = 0 \/ n = 1 \/ n = 2 \/ n = 3) as [->|[->|[->| ->]]] by lia; vm_compute; apply Qc_is_canon; reflexivity. Qed.
Lemma det_tr n A : n <= 3 -> det n (tr A) = det n A.
Proof.
  intros H. assert (n = 0 \/ n = 1 \/ n = 2 \/ n = 3) as [->|[->|[->| ->]]] by lia;
    unfold tr; cbn [det fsum qC T r0 r1 radd rmul Nat.even Nat.ltb Nat.leb]; ring.
Qed.
Lemma det_orthogonal n W : n <= 3 -> orthogonal n W -> det n W = 1%Qc \/ det n W = (-(1))%Qc.
Proof.
  intros H O. pose proof (det_mul n (tr W) W H) as E. rewrite (det_ext n _ eye O), det_eye, det_tr in E by exact H.
  assert (P : ((det n W - 1) * (det n W + 1) = 0)%Qc) by (transitivity (det n W * det n W - 1)%Qc; [ring|rewrite <- E; ring]).
  destruct (Qcmult_integral _ _ P) as [Q|Q]; [left|right].
  - transitivity (det n W - 1 + 1)%Qc; [ring|rewrite Q; ring].
  - transitivity (det n W + 1 - 1)%Qc; [ring|rewrite Q; ring].
Qed.
Definition determinant (n : nat) (a : elem) : Qc := det n (e_matrix a).
Lemma is_proper_det p : p_n p <= 3 -> proper_map p -> (is_proper p = true <-> det (p_n p) (p_W p) = 1%Qc).
Proof.
  intros H O. unfold is_proper. destruct (det_orthogonal _ _ H O) as [->| ->].
  - split; [reflexivity|intros _; apply isclose_refl].
  - split; [|discriminate]. intros E. vm_compute in E. discriminate.
Qed.
Lemma rotation_main G : g_ndim G <= 3 -> (forall a, In a (g_elems G) -> good (g_ndim G) a) ->
  let R := rotation_group G in
  g_ndim R = g_ndim G /\ g_cell R = g_cell G /\
  g_elems R = filter (fun a => if Qc_eq_dec (determinant (g_ndim G) a) 1%Qc then true else false) (g_elems G) /\
  (forall a b c, In a (g_elems R) -> In b (g_elems R) -> e_mul a b = Ok c -> In c (g_elems G) -> In c (g_elems R)).
Proof.
  intros H Gd R. assert (E : g_elems R = filter (fun a => if Qc_eq_dec (determinant (g_ndim G) a) 1%Qc then true else false) (g_elems G)).
  { apply filter_ext_in. intros a Ha. specialize (Gd a Ha). unfold determinant. destruct a as [|p]; cbn [e_matrix].
    - rewrite det_eye by exact H. now destruct (Qc_eq_dec 1 1).
    - destruct Gd as [N O]. pose proof (is_proper_det p ltac:(lia) O) as P. rewrite N in P. destruct (Qc_eq_dec _ _) as [D|D].
      + now apply P.
      + destruct (is_proper p); [|reflexivity]. now destruct D; apply P. }
  split; [reflexivity|]. split; [reflexivity|]. split; [exact E|]. intros a b c Ha Hb M Hc. rewrite E in *. apply filter_In in Ha, Hb. apply filter_In.
  split; [exact Hc|]. destruct Ha as [Ha Da], Hb as [Hb Db].
  destruct (Qc_eq_dec (determinant (g_ndim G) a) 1) as [Da'|]; [|discriminate]. destruct (Qc_eq_dec (determinant (g_ndim G) b) 1) as [Db'|]; [|discriminate].
  assert (D : determinant (g_ndim G) c = 1%Qc).
  { destruct a as [|p], b as [|q]; cbn [e_mul] in M; try (injection M as <-; assumption).
    destruct (pg_product p q) as [r|] eqn:P; cbn [bind] in M; [|discriminate]. injection M as <-. apply product_fields in P. destruct P as [_ ->].
    destruct (Gd _ Ha) as [N _]. unfold determinant in *. cbn [e_matrix p_W] in *. rewrite N, det_mul by exact H. rewrite Da', Db'. ring. }
  now destruct (Qc_eq_dec _ _).
Qed.

(** ** mapM *)
Lemma mapM_ok {A B} (f : A -> res B) (R : A -> B -> Prop) l : (forall x, In x l -> exists y, f x = Ok y /\ R x y) ->
  exists l', mapM f l = Ok l' /\ Forall2 (fun x y => f x = Ok y /\ R x y) l l'.
Proof.
  induction l as [|x l IH]; intros H.
  - exists []. split; [reflexivity|constructor].
  - destruct (H x (or_introl eq_refl)) as (y & Y1 & Y2). destruct IH as (l' & E & F); [intros; apply H; now right|].
    exists (y :: l'). split; [cbn [mapM]; rewrite Y1; cbn [bind]; rewrite E; reflexivity|]. constructor; auto.
Qed.
Lemma forall2_nth {A B} (R : A -> B -> Prop) l l' da db : Forall2 R l l' -> length l' = length l /\ forall i, i < length l -> R (nth i l da) (nth i l' db).
Proof.
  induction 1 as [|x y l l' X F [L IH]]; cbn [length nth]; split; try lia. intros [|i] Hi; [exact X|apply IH; lia].
Qed.
Lemma group_change_origin_main G o : (forall a, In a (g_elems G) -> good (g_ndim G) a) ->
  exists H, pg_change_origin G o = Ok H /\ g_ndim H = g_ndim G /\ g_cell H = g_cell G /\ length (g_elems H) = length (g_elems G) /\
  forall i, i < length (g_elems G) -> good (g_ndim G) (el H i) /\ meq (g_ndim G) (e_matrix (el H i)) (e_matrix (el G i)) /\
    veq (g_ndim G) (e_act (el H i) o) o /\
    forall x, veq (g_ndim G) (e_act (el H i) x) (fun j => o j + mvec (g_ndim G) (e_matrix (el G i)) (fun k => x k - o k)%Qc j)%Qc.
Proof.
  intros Gd. set (n := g_ndim G).
  destruct (mapM_ok (fun a => match a with EId => Ok EId | ESym p => let? q := change_origin p o in Ok (ESym q) end)
     (fun a b => good n b /\ meq n (e_matrix b) (e_matrix a) /\ veq n (e_act b o) o /\
        forall x, veq n (e_act b x) (fun j => o j + mvec n (e_matrix a) (fun k => x k - o k)%Qc j)%Qc) (g_elems G)) as (l & E & F).
  - intros [|p] Ha.
    + eexists. split; [reflexivity|]. split; [exact I|]. split; [intros ? ? ? ?; reflexivity|]. split; [intros ? ?; reflexivity|].
      intros x j Hj. cbn [e_act e_matrix]. rewrite mvec_eye by exact Hj. ring.
    + destruct (Gd _ Ha) as [N O]. fold n in N. destruct (change_origin_main p o O) as (q & Q1 & Q2 & Q3 & Q4 & Q5). rewrite N in *.
      exists (ESym q). rewrite Q1. split; [reflexivity|]. cbn [good e_matrix e_act]. split; [split; [congruence|unfold proper_map in *; rewrite Q2, Q3; rewrite N in O; exact O]|].
      split; [rewrite Q3; intros ? ? ? ?; reflexivity|]. split; assumption.
  - unfold pg_change_origin. rewrite E. cbn [bind]. eexists. split; [reflexivity|]. cbn [g_ndim g_cell g_elems]. split; [reflexivity|]. split; [reflexivity|].
    destruct (forall2_nth _ _ _ EId EId F) as [L Nt]. split; [exact L|]. intros i Hi. exact (proj2 (Nt i Hi)).
Qed.

Lemma nth_list_prod {A B} (l : list A) (l' : list B) da db i j : i < length l -> j < length l' ->
  nth (i * length l' + j) (list_prod l l') (da, db) = (nth i l da, nth j l' db).
Proof.
  revert i. induction l as [|a l IH]; intros i Hi Hj; cbn [length] in Hi; [lia|]. cbn [list_prod]. destruct i as [|i].
  - cbn [Nat.mul Nat.add nth]. rewrite app_nth1 by (rewrite map_length; lia). rewrite (nth_indep _ (da, db) (a, db)) by (rewrite map_length; lia).
    now rewrite (map_nth (fun y => (a, y))).
  - rewrite app_nth2 by (rewrite map_length; lia). rewrite map_length. replace (S i * length l' + j - length l') with (i * length l' + j) by lia.
    cbn [nth]. apply IH; lia.
Qed.
Lemma group_product_main A B : (forall a, In a (g_elems A) -> good (g_ndim A) a) -> (forall b, In b (g_elems B) -> good (g_ndim B) b) ->
  match pg_group_product A B with
  | Ok C => g_ndim A = g_ndim B /\ g_ndim C = g_ndim A /\ g_cell C = match g_cell A with None => g_cell B | c => c end /\
      length (g_elems C) = length (g_elems A) * length (g_elems B) /\
      forall i j, i < length (g_elems A) -> j < length (g_elems B) ->
        let c := el C (i * length (g_elems B) + j) in good (g_ndim A) c /\
        forall x, veq (g_ndim A) (e_act c x) (e_act (el A i) (e_act (el B j) x))
  | Err e => e = ValueError /\ (g_ndim A <> g_ndim B \/ exists U Ui V Vi, g_cell A = Some (U, Ui) /\ g_cell B = Some (V, Vi) /\ ~ meq (g_ndim A) U V)
  end.
Proof.
  intros GA GB. unfold pg_group_product. destruct (Nat.eqb_spec (g_ndim A) (g_ndim B)) as [E|E]; cbn [negb]; [|split; auto].
  set (cell := match g_cell A, g_cell B with None, c => Ok c | Some c, None => Ok (Some c) | Some (U, Ui), Some (V, _) => if allclose (g_ndim A) (g_ndim A) U V then Ok (Some (U, Ui)) else Err ValueError end).
  assert (C : cell = Ok (match g_cell A with None => g_cell B | c => c end) \/
     cell = Err ValueError /\ exists U Ui V Vi, g_cell A = Some (U, Ui) /\ g_cell B = Some (V, Vi) /\ ~ meq (g_ndim A) U V).
  { unfold cell. destruct (g_cell A) as [[U Ui]|]; [|now left]. destruct (g_cell B) as [[V Vi]|]; [|now left].
    destruct (allclose _ _ U V) eqn:Q; [now left|right]. split; [reflexivity|]. exists U, Ui, V, Vi. split; [reflexivity|]. split; [reflexivity|].
    intros M. rewrite (allclose_meq _ _ _ M) in Q. discriminate. }
  clearbody cell. destruct C as [->|[-> C]]; cbn [bind]; [|split; [reflexivity|now right]].
  destruct (mapM_ok (fun ab => e_mul (fst ab) (snd ab)) (fun ab c => good (g_ndim A) c /\ forall x, veq (g_ndim A) (e_act c x) (e_act (fst ab) (e_act (snd ab) x)))
    (list_prod (g_elems A) (g_elems B))) as (l & L & F).
  - intros [a b] Hab. apply in_prod_iff in Hab. destruct Hab as [Ha Hb]. cbn [fst snd]. specialize (GA a Ha). specialize (GB b Hb). rewrite <- E in GB.
    exact (e_product _ a b GA GB).
  - rewrite L. cbn [bind g_ndim g_cell g_elems]. split; [exact E|]. split; [reflexivity|]. split; [reflexivity|].
    destruct (forall2_nth _ _ _ (EId, EId) EId F) as [Len Nt]. split; [rewrite Len; apply prod_length|].
    intros i j Hi Hj. assert (K : i * length (g_elems B) + j < length (list_prod (g_elems A) (g_elems B))) by (rewrite prod_length; nia).
    specialize (Nt _ K). rewrite nth_list_prod in Nt by assumption. cbn [fst snd] in Nt. exact (proj2 Nt).
Qed.

(** ** equality of groups *)
Lemma all_equal_spec l l' : match all_equal l l' with
  | Ok true => length l <= length l' /\ forall i, i < length l -> e_eqb (nth i l EId) (nth i l' EId) = true
  | Ok false => exists i, i < length l /\ i < length l' /\ e_eqb (nth i l EId) (nth i l' EId) = false
  | Err e => e = IndexError /\ length l' < length l
  end.
Proof.
  revert l'. induction l as [|a l IH]; intros [|b l']; cbn [all_equal length].
  - split; [lia|intros; lia].
  - split; [lia|intros; lia].
  - split; [reflexivity|lia].
  - destruct (e_eqb a b) eqn:E.
    + specialize (IH l'). destruct (all_equal l l') as [[|]|e].
      * destruct IH as [IH1 IH2]. split; [lia|]. intros [|i] Hi; [exact E|apply IH2; lia].
      * destruct IH as (i & A & B & C). exists (S i). split; [lia|]. split; [lia|exact C].
      * split; [tauto|lia].
    + exists 0. split; [lia|]. split; [lia|exact E].
Qed.
Lemma group_eq_main G H U Ui V Vi : g_cell G = Some (U, Ui) -> g_cell H = Some (V, Vi) -> g_ndim G = g_ndim H ->
  length (g_elems G) = length (g_elems H) -> meq (g_ndim G) U V ->
  exists b, pg_group_eq G H = Ok b /\ (b = true <-> forall i, i < length (g_elems G) -> e_eqb (el G i) (el H i) = true).
Proof.
  intros HG HH E L M. unfold pg_group_eq. rewrite HG, HH, <- E, Nat.eqb_refl. cbn [negb andb]. rewrite Nat.max_id.
  assert (Ac : allclose (g_ndim G) (g_ndim G) (bc (g_ndim G) U) (bc (g_ndim G) V) = true).
  { apply allclose_meq. intros i j Hi Hj. unfold bc. destruct (Nat.eqb_spec (g_ndim G) 1); apply M; lia. }
  rewrite Ac. cbn [negb]. pose proof (all_equal_spec (g_elems G) (g_elems H)) as S. unfold el. destruct (all_equal _ _) as [[|]|].
  - exists true. split; [reflexivity|]. split; [intros _; apply S|reflexivity].
  - exists false. split; [reflexivity|]. split; [discriminate|]. intros K. destruct S as (i & A & B & C). rewrite K in C by exact A. discriminate.
  - exfalso. lia.
Qed.
