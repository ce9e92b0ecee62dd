(** Proofs behind C86: canonical forms, tables of inverses and products. *)
From Coq Require Import List Arith Bool ZArith QArith Qcanon Qabs Sorted Lia Lqa.
From Verif Require Import Base BaseFacts Rings FloatCmp_Model FloatCmp_Spec FloatCmp_Proofs LatGen_Model LatGen_Look
  PointGp_Model PointGp_Spec PointGp_Lin PointGp_Proofs.
Import ListNotations.
Open Scope nat_scope.

(** ** rows *)
Lemma map_eq_in {A B} (f g : A -> B) l : map f l = map g l -> forall x, In x l -> f x = g x.
Proof. induction l; cbn; intros H x []; injection H as H1 H2; [now subst|auto]. Qed.
Lemma app_eq_len {A} (a b c d : list A) : length a = length c -> a ++ b = c ++ d -> a = c /\ b = d.
Proof.
  revert c. induction a as [|x a IH]; intros [|y c] L H; try discriminate; [auto|]. cbn in H. injection H as -> H.
  destruct (IH c) as [-> ->]; auto.
Qed.
Lemma rows_eq n m f A B : rows_of n m f A = rows_of n m f B <-> forall i j, i < n -> j < m -> f (A i j) = f (B i j).
Proof.
  unfold rows_of. split.
  - intros H i j Hi Hj. assert (G : forall l, flat_map (fun i => map (fun j => f (A i j)) (seq 0 m)) l = flat_map (fun i => map (fun j => f (B i j)) (seq 0 m)) l ->
      forall i, In i l -> f (A i j) = f (B i j)).
    { induction l as [|a l IH]; cbn; intros E i' []; apply app_eq_len in E; try (now rewrite !map_length); destruct E as [E1 E2].
      - subst. apply (map_eq_in _ _ _ E1 j). apply in_seq; lia.
      - auto. }
    apply (G _ H). apply in_seq; lia.
  - intros H. assert (G : forall l, (forall i, In i l -> i < n) -> flat_map (fun i => map (fun j => f (A i j)) (seq 0 m)) l = flat_map (fun i => map (fun j => f (B i j)) (seq 0 m)) l).
    { induction l as [|a l IH]; cbn; intros Hl; [reflexivity|]. rewrite IH by auto. f_equal. apply map_ext_in. intros j Hj. apply in_seq in Hj. apply H; [auto|lia]. }
    apply G. intros i Hi. apply in_seq in Hi. lia.
Qed.
Lemma rows_len n m f A : length (rows_of n m f A) = n * m.
Proof.
  unfold rows_of. rewrite <- (seq_length n 0) at 2. generalize (seq 0 n). induction l; cbn; [reflexivity|].
  rewrite app_length, map_length, seq_length, IHl. reflexivity.
Qed.
Lemma affine_rows n f W w W' w' : (forall x y, x = y -> f x = f y) ->
  rows_of (S n) (S n) f (affine n W w) = rows_of (S n) (S n) f (affine n W' w') <->
  (forall i j, i < n -> j < n -> f (W i j) = f (W' i j)) /\ (forall i, i < n -> f (w i) = f (w' i)).
Proof.
  intros _. rewrite rows_eq. unfold affine. split.
  - intros H. split.
    + intros i j Hi Hj. specialize (H i j ltac:(lia) ltac:(lia)).
      rewrite (proj2 (Nat.ltb_lt i n) Hi), (proj2 (Nat.ltb_lt j n) Hj) in H. exact H.
    + intros i Hi. specialize (H i n ltac:(lia) ltac:(lia)). rewrite (proj2 (Nat.ltb_lt i n) Hi), Nat.ltb_irrefl in H. exact H.
  - intros [H1 H2] i j Hi Hj. destruct (Nat.ltb_spec i n); [|reflexivity]. destruct (Nat.ltb_spec j n); auto.
Qed.

Lemma bin_near a b : bin a = bin b -> near a b.
Proof. unfold bin, near. apply comparable_same. Qed.
Lemma bin_comp a b : a = b -> bin a = bin b.
Proof. now intros ->. Qed.

Lemma pg_eq_spec p q : pg_eqb p q = true -> p_n p = p_n q /\
  (forall i j, i < p_n p -> j < p_n p -> near (p_W p i j) (p_W q i j)) /\ (forall i, i < p_n p -> near (p_w p i) (p_w q i)).
Proof.
  unfold pg_eqb, pg_key. cbn [fst snd]. intros H. apply andb_true_iff in H. destruct H as [E H].
  apply Nat.eqb_eq in E. split; [exact E|]. rewrite <- E in H. apply zlist_eqb_eq in H.
  apply (affine_rows _ bin) in H; [|apply bin_comp]. destruct H as [A B]. split; intros; apply bin_near; auto.
Qed.
Lemma pg_eq_same p q : p_n p = p_n q -> meq (p_n p) (p_W p) (p_W q) -> veq (p_n p) (p_w p) (p_w q) -> pg_eqb p q = true.
Proof.
  intros E A B. unfold pg_eqb, pg_key. cbn [fst snd]. rewrite <- E, Nat.eqb_refl. cbn [andb]. apply zlist_eqb_eq.
  apply (affine_rows _ bin); [apply bin_comp|]. split; intros; f_equal; auto.
Qed.
Lemma zlist_eqb_sym a b : zlist_eqb a b = zlist_eqb b a.
Proof.
  destruct (zlist_eqb a b) eqn:E.
  - apply zlist_eqb_eq in E. subst. now rewrite zlist_eqb_refl.
  - destruct (zlist_eqb b a) eqn:F; [|reflexivity]. apply zlist_eqb_eq in F. subst. now rewrite zlist_eqb_refl in E.
Qed.
Lemma pg_eq_equiv : (forall p, pg_eqb p p = true) /\ (forall p q, pg_eqb p q = pg_eqb q p) /\
  (forall p q r, pg_eqb p q = true -> pg_eqb q r = true -> pg_eqb p r = true).
Proof.
  unfold pg_eqb. split; [|split].
  - intros p. now rewrite Nat.eqb_refl, zlist_eqb_refl.
  - intros p q. now rewrite Nat.eqb_sym, zlist_eqb_sym.
  - intros p q r H K. apply andb_true_iff in H, K. destruct H as [H1 H2], K as [K1 K2].
    apply Nat.eqb_eq in H1, K1. apply zlist_eqb_eq in H2, K2. rewrite H1, H2, K1, K2. now rewrite Nat.eqb_refl, zlist_eqb_refl.
Qed.

(** ** canonical forms *)
Lemma Qc_sub_this a b : (this (a - b)%Qc == this a - this b)%Q.
Proof. unfold Qcminus, Qcplus, Qcopp, Q2Qc. cbn [this]. rewrite !Qred_correct. reflexivity. Qed.
Lemma Qc_add_this a b : (this (a + b)%Qc == this a + this b)%Q.
Proof. unfold Qcplus, Q2Qc. cbn [this]. rewrite !Qred_correct. reflexivity. Qed.
Lemma Qc_of_this q : (this (Q2Qc q) == q)%Q.
Proof. unfold Q2Qc. cbn [this]. apply Qred_correct. Qed.

Section Group.
Variable G : point_group.
Let n := g_ndim G.

Lemma canonical_nearly W w W' w' : canonical G W w = canonical G W' w' -> nearly G W w W' w'.
Proof.
  unfold canonical, nearly. destruct (g_cell G) as [[U inv]|].
  - intros H. apply app_eq_len in H; [|now rewrite !rows_len]. destruct H as [A B].
    split.
    + intros i j Hi Hj. apply bin_near. now apply (proj1 (rows_eq _ _ _ _ _) A).
    + intros j Hj. pose proof (map_eq_in _ _ _ B j ltac:(apply in_seq; lia)) as E. cbn beta in E. now apply periodic_same in E.
  - intros H. apply (affine_rows _ bin) in H; [|apply bin_comp]. destruct H as [A B]. split; intros; apply bin_near; auto.
Qed.

Lemma canonical_equal W w W' w' : valid_cell G -> equal_mod G W w W' w' -> canonical G W w = canonical G W' w'.
Proof.
  unfold valid_cell, canonical, equal_mod. intros V [A B]. destruct (g_cell G) as [[U inv]|].
  - f_equal.
    + apply rows_eq. intros; f_equal; auto.
    + destruct B as [m B]. destruct V as [V _]. apply map_ext_in. intros j Hj. apply in_seq in Hj. fold n. fold n in V, B, Hj.
      assert (E : qs n (fun k => w k * inv k j)%Qc = (qs n (fun k => w' k * inv k j) + Q2Qc (inject_Z (m j)))%Qc).
      { assert (E1 : qs n (fun k => (w k - w' k) * inv k j)%Qc = Q2Qc (inject_Z (m j)) :> Qc).
        { rewrite (qs_ext n _ (fun k => qs n (fun l => Q2Qc (inject_Z (m l)) * (U l k * inv k j))%Qc)).
          2:{ intros k Hk. rewrite (B k Hk), <- qs_scal_r. apply qs_ext. intros; ring. }
          rewrite qs_swap.
          rewrite (qs_ext n _ (fun l => Q2Qc (inject_Z (m l)) * eye l j)%Qc).
          2:{ intros l Hl. rewrite qs_scal. f_equal. apply V; lia. }
          rewrite eye_r by lia. reflexivity. }
        rewrite <- E1. rewrite (qs_ext n (fun k => (w k - w' k) * inv k j)%Qc (fun k => w k * inv k j - w' k * inv k j)%Qc) by (intros; ring).
        rewrite qs_sub. qring. }
      rewrite E. rewrite (comparable_periodic_comp true _ (this (qs n (fun k => w' k * inv k j)%Qc) + inject_Z (m j))%Q).
      * apply periodic_shift.
      * rewrite Qc_add_this, Qc_of_this. reflexivity.
  - apply (affine_rows _ bin); [apply bin_comp|]. split; intros; f_equal; auto.
Qed.

(** ** tables *)
Lemma collect_some {A} (l : list (option A)) r : collect l = Some r <-> l = map Some r.
Proof.
  revert r. induction l as [|[x|] l IH]; intros r; cbn [collect].
  - split; [intros [= <-]; reflexivity|]. destruct r; [reflexivity|discriminate].
  - destruct (collect l) as [s|].
    + split; [intros [= <-]; cbn; now rewrite (proj1 (IH s) eq_refl)|]. destruct r as [|y r]; [discriminate|]. cbn. intros [= -> H].
      apply IH in H. now injection H as ->.
    + split; [discriminate|]. destruct r as [|y r]; [discriminate|]. cbn. intros [= -> H]. apply IH in H. discriminate.
  - split; [discriminate|]. destruct r; discriminate.
Qed.
Lemma collect_none {A B} (f : A -> option B) l : collect (map f l) = None <-> exists a, In a l /\ f a = None.
Proof.
  induction l as [|a l IH]; cbn [map collect].
  - split; [discriminate|]. intros (x & [] & _).
  - destruct (f a) as [b|] eqn:E.
    + destruct (collect (map f l)) as [s|].
      * split; [discriminate|]. intros (x & [->|H] & Q); [congruence|]. discriminate (proj2 IH (ex_intro _ x (conj H Q))).
      * split; [|reflexivity]. intros _. destruct (proj1 IH eq_refl) as (x & H & Q). exists x. split; [now right|auto].
    + split; [|reflexivity]. intros _. exists a. split; [now left|auto].
Qed.

Let N := length (g_elems G).
Let M i := e_matrix (el G i).
Let w_ i := e_translation (el G i).
Lemma lookup_some key k : pg_lookup G key = Some k -> k < N /\ canonical G (M k) (w_ k) = key.
Proof.
  unfold pg_lookup. pose proof (last_pos_spec key (map (e_canonical G) (g_elems G))) as P. intros E. rewrite E in P.
  rewrite map_length in P. destruct P as [P Q]. split; [exact P|].
  rewrite (nth_indep _ [] (e_canonical G EId)) in Q by now rewrite map_length. rewrite (map_nth (e_canonical G)) in Q. exact Q.
Qed.
Lemma lookup_none key : pg_lookup G key = None -> forall k, k < N -> canonical G (M k) (w_ k) <> key.
Proof.
  unfold pg_lookup. pose proof (last_pos_spec key (map (e_canonical G) (g_elems G))) as P. intros E k Hk C. rewrite E in P.
  apply P. rewrite <- C. change (In (e_canonical G (el G k)) (map (e_canonical G) (g_elems G))). apply in_map. now apply nth_In.
Qed.
Lemma el_in a : In a (g_elems G) -> exists i, i < N /\ el G i = a.
Proof. intros H. apply (In_nth _ _ EId) in H. exact H. Qed.

Variable minv : nat -> mat -> mat.
Let iW i := inv_W minv G (el G i).
Let iw i := inv_w minv G (el G i).

Lemma inverse_sound t : pg_inverse minv G = Ok t -> length t = N /\
  forall i, i < N -> nth i t 0 < N /\ nearly G (M (nth i t 0)) (w_ (nth i t 0)) (iW i) (iw i).
Proof.
  unfold pg_inverse. destruct (collect _) as [t'|] eqn:E; [|discriminate]. intros [= ->]. apply collect_some in E.
  assert (L : length t = N) by (apply (f_equal (@length _)) in E; rewrite !map_length in E; auto).
  split; [exact L|]. intros i Hi.
  assert (E2 : Some (nth i t 0) = pg_lookup G (canonical G (iW i) (iw i))).
  { rewrite <- (map_nth Some t 0 i). rewrite <- E.
    set (f := fun a => pg_lookup G (canonical G (inv_W minv G a) (inv_w minv G a))).
    rewrite (nth_indep _ (Some 0) (f EId)) by (rewrite map_length; exact Hi). now rewrite (map_nth f). }
  symmetry in E2. apply lookup_some in E2. destruct E2 as [A B]. split; [exact A|]. now apply canonical_nearly.
Qed.
Lemma inverse_total : (exists t, pg_inverse minv G = Ok t) \/ pg_inverse minv G = Err RuntimeError.
Proof. unfold pg_inverse. destruct (collect _); eauto. Qed.
Lemma inverse_missing i : i < N -> (forall k, k < N -> ~ nearly G (M k) (w_ k) (iW i) (iw i)) -> pg_inverse minv G = Err RuntimeError.
Proof.
  intros Hi H. destruct inverse_total as [[t E]|E]; [|exact E]. apply inverse_sound in E. destruct E as [_ E].
  destruct (E i Hi) as [A B]. now destruct (H _ A).
Qed.
Lemma inverse_complete iv : valid_cell G ->
  (forall i, i < N -> iv i < N /\ equal_mod G (M (iv i)) (w_ (iv i)) (iW i) (iw i)) ->
  exists t, pg_inverse minv G = Ok t /\ (distinct G -> t = map iv (seq 0 N)).
Proof.
  intros V H. unfold pg_inverse.
  assert (K : forall i, i < N -> exists k, pg_lookup G (canonical G (iW i) (iw i)) = Some k /\ (distinct G -> k = iv i)).
  { intros i Hi. destruct (H i Hi) as [A B]. apply canonical_equal in B; [|exact V].
    destruct (pg_lookup G (canonical G (iW i) (iw i))) as [k|] eqn:E.
    - exists k. split; [reflexivity|]. intros D. apply lookup_some in E. destruct E as [E1 E2]. apply D; auto.
      apply canonical_nearly. etransitivity; [exact E2|]. symmetry. exact B.
    - now destruct (lookup_none _ E (iv i) A). }
  destruct (collect _) as [t|] eqn:E.
  - exists t. split; [reflexivity|]. intros D. apply collect_some in E.
    apply (nth_ext _ _ 0 0).
    + apply (f_equal (@length _)) in E. rewrite !map_length in *. rewrite seq_length. auto.
    + intros i Hi. assert (Hi' : i < N) by (apply (f_equal (@length _)) in E; rewrite !map_length in E; unfold N; congruence).
      rewrite (nth_indep (map iv _) 0 (iv 0)) by (rewrite map_length, seq_length; exact Hi'). rewrite (map_nth iv), seq_nth by exact Hi'. cbn [Nat.add].
      destruct (K i Hi') as (k & K1 & K2). rewrite <- (K2 D).
      assert (E2 : Some (nth i t 0) = pg_lookup G (canonical G (iW i) (iw i))).
      { rewrite <- (map_nth Some t 0 i). rewrite <- E.
        set (f := fun a => pg_lookup G (canonical G (inv_W minv G a) (inv_w minv G a))).
        rewrite (nth_indep _ (Some 0) (f EId)) by (rewrite map_length; exact Hi'). now rewrite (map_nth f). }
      rewrite K1 in E2. now injection E2.
  - apply collect_none in E. destruct E as (a & Ha & E). destruct (el_in a Ha) as (i & Hi & <-).
    destruct (K i Hi) as (k & K1 & _). unfold iW, iw in K1. congruence.
Qed.

Let pW i j := prod_W G (el G i) (el G j).
Let pw i j := prod_w G (el G i) (el G j).
Let T0 := map (fun a => collect (map (fun b => pg_lookup G (canonical G (prod_W G a b) (prod_w G a b))) (g_elems G))) (g_elems G).
Lemma T0_entry T i j : collect T0 = Some T -> i < N -> j < N ->
  length T = N /\ length (nth i T []) = N /\ pg_lookup G (canonical G (pW i j) (pw i j)) = Some (nth j (nth i T []) 0).
Proof.
  intros E Hi Hj. apply collect_some in E.
  assert (L : length T = N) by (apply (f_equal (@length _)) in E; unfold T0 in E; rewrite !map_length in E; auto).
  split; [exact L|].
  assert (R : collect (map (fun b => pg_lookup G (canonical G (prod_W G (el G i) b) (prod_w G (el G i) b))) (g_elems G)) = Some (nth i T [])).
  { rewrite <- (map_nth Some T [] i), <- E. unfold T0.
    set (f := fun a => collect (map (fun b => pg_lookup G (canonical G (prod_W G a b) (prod_w G a b))) (g_elems G))).
    rewrite (nth_indep _ (Some []) (f EId)) by (rewrite map_length; exact Hi). now rewrite (map_nth f). }
  apply collect_some in R.
  assert (L2 : length (nth i T []) = N) by (apply (f_equal (@length _)) in R; rewrite !map_length in R; auto).
  split; [exact L2|]. rewrite <- (map_nth Some _ 0 j), <- R.
  set (f := fun b => pg_lookup G (canonical G (prod_W G (el G i) b) (prod_w G (el G i) b))).
  rewrite (nth_indep _ (Some 0) (f EId)) by (rewrite map_length; exact Hj). now rewrite (map_nth f).
Qed.
Lemma table_fields P : pg_product_table minv G = Ok P <-> exists T t, collect T0 = Some T /\ pg_inverse minv G = Ok t /\ P = map (fun i => nth i T []) t.
Proof.
  unfold pg_product_table. fold T0. destruct (collect T0) as [T|].
  - destruct (pg_inverse minv G) as [t|e]; cbn [bind].
    + split; [intros [= <-]; eauto 6|]. intros (T' & t' & [= <-] & [= <-] & ->). reflexivity.
    + split; [discriminate|]. intros (T' & t' & _ & H & _). discriminate.
  - split; [discriminate|]. intros (T' & t' & H & _). discriminate.
Qed.
Lemma table_sound P : pg_product_table minv G = Ok P ->
  exists t, pg_inverse minv G = Ok t /\ length P = N /\
  forall i j, i < N -> j < N -> length (nth i P []) = N /\
    nth j (nth i P []) 0 < N /\ nth i t 0 < N /\
    nearly G (M (nth j (nth i P []) 0)) (w_ (nth j (nth i P []) 0)) (pW (nth i t 0) j) (pw (nth i t 0) j).
Proof.
  intros H. apply table_fields in H. destruct H as (T & t & E & I & ->). exists t. split; [exact I|].
  destruct (inverse_sound t I) as [L S]. split; [now rewrite map_length|]. intros i j Hi Hj.
  destruct (S i Hi) as [A _]. destruct (T0_entry T (nth i t 0) j E A Hj) as (L1 & L2 & Q).
  assert (Ei : nth i (map (fun i => nth i T []) t) [] = nth (nth i t 0) T []).
  { set (f := fun i => nth i T []). rewrite (nth_indep _ [] (f 0)) by (rewrite map_length; lia). now rewrite (map_nth f). }
  rewrite Ei. split; [exact L2|]. apply lookup_some in Q. destruct Q as [Q1 Q2]. split; [exact Q1|]. split; [exact A|].
  now apply canonical_nearly.
Qed.
Lemma table_missing i j : i < N -> j < N -> (forall k, k < N -> ~ nearly G (M k) (w_ k) (pW i j) (pw i j)) ->
  pg_product_table minv G = Err RuntimeError.
Proof.
  intros Hi Hj H. unfold pg_product_table. fold T0. destruct (collect T0) as [T|] eqn:E; [|reflexivity].
  destruct (T0_entry T i j E Hi Hj) as (_ & _ & Q). apply lookup_some in Q. destruct Q as [Q1 Q2].
  destruct (H _ Q1). now apply canonical_nearly.
Qed.
Lemma table_complete mu iv : valid_cell G -> distinct G ->
  (forall i j, i < N -> j < N -> mu i j < N /\ equal_mod G (M (mu i j)) (w_ (mu i j)) (pW i j) (pw i j)) ->
  (forall i, i < N -> iv i < N /\ equal_mod G (M (iv i)) (w_ (iv i)) (iW i) (iw i)) ->
  pg_product_table minv G = Ok (map (fun i => map (fun j => mu (iv i) j) (seq 0 N)) (seq 0 N)).
Proof.
  intros V D Hmu Hiv. destruct (inverse_complete iv V Hiv) as (t & It & Et). specialize (Et D).
  assert (K : forall i j, i < N -> j < N -> pg_lookup G (canonical G (pW i j) (pw i j)) = Some (mu i j)).
  { intros i j Hi Hj. destruct (Hmu i j Hi Hj) as [A B]. apply canonical_equal in B; [|exact V].
    destruct (pg_lookup G (canonical G (pW i j) (pw i j))) as [k|] eqn:E.
    - apply lookup_some in E. destruct E as [E1 E2]. f_equal. apply D; auto. apply canonical_nearly. etransitivity; [exact E2|]. symmetry. exact B.
    - now destruct (lookup_none _ E (mu i j) A). }
  apply table_fields.
  assert (Ec : collect T0 = Some (map (fun i => map (fun j => mu i j) (seq 0 N)) (seq 0 N))).
  { apply collect_some. unfold T0.
    assert (El : forall (B : Type) (f : elem -> B), map f (g_elems G) = map (fun i => f (el G i)) (seq 0 N)).
    { intros B f. rewrite <- (map_map (el G) f). f_equal.
      apply (nth_ext _ _ EId EId); [now rewrite map_length, seq_length|]. intros k Hk.
      rewrite (nth_indep (map _ _) EId (el G 0)) by (rewrite map_length, seq_length; exact Hk). rewrite (map_nth (el G)), seq_nth by exact Hk. reflexivity. }
    rewrite (El _ (fun a => collect (map (fun b => pg_lookup G (canonical G (prod_W G a b) (prod_w G a b))) (g_elems G)))).
    rewrite map_map. apply map_ext_in. intros i Hi. apply in_seq in Hi.
    apply collect_some. rewrite map_map, El. apply map_ext_in. intros j Hj. apply in_seq in Hj. apply K; lia. }
  exists (map (fun i => map (fun j => mu i j) (seq 0 N)) (seq 0 N)), t. split; [exact Ec|]. split; [exact It|].
  rewrite Et, map_map. apply map_ext_in. intros i Hi. apply in_seq in Hi. destruct (Hiv i ltac:(lia)) as [A _].
  set (f := fun i => map (fun j => mu i j) (seq 0 N)).
  rewrite (nth_indep _ [] (f 0)) by (rewrite map_length, seq_length; exact A). rewrite (map_nth f), seq_nth by exact A. reflexivity.
Qed.
End Group.
