(** * Proofs about the Ising and Bose-Hubbard Hamiltonians *)
From Coq Require Import ZArith List Bool Lia Sorting.Sorted Ring Permutation.
From Coq Require Import setoid_ring.InitialRing setoid_ring.Ring_theory.
From Verif Require Import Base BaseFacts Scalar LocalOp_Spec LocalOp_Model LocalOp_Facts LocalOp_Kernel
  LocalOp_Build LocalOp_Matmul LocalOp_Proofs LocalOp_Final Special_Model Special_Spec.
Import ListNotations.

(** ** Writing rows *)
Section Put.
Variable S : scalars.

Definition splice {A} (m l : list A) (c : nat) : list A := firstn c m ++ l ++ skipn (c + length l) m.

Lemma splice_length {A} (m l : list A) c : (c + length l <= length m)%nat -> length (splice m l c) = length m.
Proof. intros H. unfold splice. rewrite !app_length, firstn_length, skipn_length. lia. Qed.

Lemma splice_nil {A} (m : list A) c : splice m [] c = m.
Proof. unfold splice. cbn. rewrite Nat.add_0_r. apply firstn_skipn. Qed.

Lemma skipn_add {A} a b (l : list A) : skipn (a + b) l = skipn a (skipn b l).
Proof.
  revert l. induction b as [|b IH]; intros l; [rewrite Nat.add_0_r; auto|].
  rewrite <- plus_n_Sm. destruct l as [|z l]; cbn [skipn]; [destruct a; auto|apply IH].
Qed.

Lemma splice_cons {A} (m : list A) a l c : (c < length m)%nat ->
  splice (upd m c a) l (c + 1) = splice m (a :: l) c.
Proof.
  intros H. unfold splice. cbn [length app].
  replace (c + 1 + length l)%nat with (c + Datatypes.S (length l))%nat by lia.
  assert (E1 : firstn (c + 1) (upd m c a) = firstn c m ++ [a]).
  { rewrite Nat.add_1_r, (firstn_S_snoc _ c a) by (rewrite upd_length; auto).
    rewrite firstn_upd', nth_upd_same by auto. reflexivity. }
  rewrite E1, <- app_assoc. cbn [app]. do 3 f_equal.
  replace (c + Datatypes.S (length l))%nat with (length l + Datatypes.S c)%nat by lia.
  replace (length l + Datatypes.S c)%nat with ((length l + 1) + c)%nat by lia.
  rewrite (skipn_add (length l + 1) c (upd m c a)), skipn_upd' by auto. rewrite Nat.add_1_r.
  change (skipn (Datatypes.S (length l)) (a :: skipn (Datatypes.S c) m)) with (skipn (length l) (skipn (Datatypes.S c) m)).
  rewrite <- skipn_add. f_equal. lia.
Qed.

Lemma put_row_ok row : forall c mels xp,
  (c + length row <= length mels)%nat -> length mels = length xp ->
  put_row S row c mels xp =
  Ok ((c + length row)%nat, splice mels (map snd row) c, splice xp (map fst row) c).
Proof.
  induction row as [|[y w] row IH]; intros c mels xp H E; cbn [put_row map length].
  - rewrite !splice_nil, Nat.add_0_r. reflexivity.
  - cbn [length] in H. unfold bset. rewrite (proj2 (Nat.ltb_lt c (length mels))) by lia. cbn [bind].
    rewrite (proj2 (Nat.ltb_lt c (length xp))) by lia. cbn [bind].
    rewrite IH by (rewrite !upd_length; lia).
    cbn [fst snd]. rewrite !splice_cons by lia. do 3 f_equal. lia.
Qed.

Lemma firstn_splice {A} (m l : list A) c : (c + length l <= length m)%nat ->
  firstn (c + length l) (splice m l c) = firstn c m ++ l.
Proof.
  intros H. unfold splice. rewrite app_assoc, firstn_app.
  rewrite app_length, firstn_length, Nat.min_l by lia.
  rewrite Nat.sub_diag. cbn [firstn]. rewrite app_nil_r. apply firstn_all2.
  rewrite app_length, firstn_length. lia.
Qed.

Lemma put_batch_flat (f : list Z -> list (list Z * K S)) xs : forall b c mels xp secs,
  (c + length (concat (map f xs)) <= length mels)%nat -> length mels = length xp ->
  exists m' x', put_batch S f None b xs c mels xp secs =
    Ok ((c + length (concat (map f xs)))%nat, m', x', secs ++ ends c (map (fun x => length (f x)) xs)) /\
    length m' = length mels /\ length x' = length xp /\
    firstn (c + length (concat (map f xs))) m' = firstn c mels ++ map snd (concat (map f xs)) /\
    firstn (c + length (concat (map f xs))) x' = firstn c xp ++ map fst (concat (map f xs)).
Proof.
  induction xs as [|x xs IH]; intros b c mels xp secs H E; cbn [put_batch map concat length ends].
  - exists mels, xp. rewrite Nat.add_0_r, !app_nil_r. auto.
  - cbn [map concat] in H. rewrite app_length in *.
    rewrite put_row_ok by lia. cbn [bind fst snd].
    destruct (IH (b + 1)%nat (c + length (f x))%nat (splice mels (map snd (f x)) c)
                 (splice xp (map fst (f x)) c) (secs ++ [(c + length (f x))%nat]))
      as (m' & x' & E1 & E2 & E3 & E4 & E5).
    + rewrite splice_length; rewrite ?map_length; lia.
    + rewrite (splice_length mels), (splice_length xp); rewrite ?map_length; lia.
    + exists m', x'. rewrite E1. rewrite splice_length in E2 by (rewrite ?map_length; lia).
      rewrite splice_length in E3 by (rewrite ?map_length; lia).
      rewrite <- app_assoc. cbn [app]. rewrite !Nat.add_assoc. split; [reflexivity|].
      split; [auto|]. split; [auto|]. rewrite !map_app.
      rewrite E4, E5. rewrite <- (map_length snd (f x)) at 1. rewrite firstn_splice by (rewrite map_length; lia).
      rewrite <- (map_length fst (f x)). rewrite firstn_splice by (rewrite map_length; lia).
      rewrite <- !app_assoc. auto.
Qed.

(** with padding: each sample takes [mc] slots, the unused ones keep what the zeroed
    buffers hold *)
Definition padded {A} (z : A) (mc : nat) (l : list A) : list A := l ++ repeat z (mc - length l).

Lemma repeat_split {A} (z : A) a b : repeat z (a + b) = repeat z a ++ repeat z b.
Proof. apply repeat_app. Qed.

Lemma skipn_repeat {A} (z : A) k n : skipn k (repeat z n) = repeat z (n - k).
Proof. revert k; induction n; destruct k; cbn; auto. Qed.

Lemma put_batch_padded (f : list Z -> list (list Z * K S)) mc (zk : K S) (zx : list Z) xs :
  Forall (fun x => (length (f x) <= mc)%nat) xs -> forall b pm px r,
  length pm = (b * mc)%nat -> length px = (b * mc)%nat -> forall secs,
  put_batch S f (Some mc) b xs (b * mc) (pm ++ repeat zk (length xs * mc + r))
     (px ++ repeat zx (length xs * mc + r)) secs =
  Ok (((b + length xs) * mc)%nat,
      pm ++ concat (map (fun x => padded zk mc (map snd (f x))) xs) ++ repeat zk r,
      px ++ concat (map (fun x => padded zx mc (map fst (f x))) xs) ++ repeat zx r,
      secs ++ map (fun k => ((b + k + 1) * mc)%nat) (seq 0 (length xs))).
Proof.
  induction 1 as [|x xs H1 H2 IH]; intros b pm px r Lm Lx secs; cbn [put_batch map concat length seq].
  - rewrite Nat.add_0_r, app_nil_r. reflexivity.
  - rewrite put_row_ok by (rewrite ?app_length, ?repeat_length, ?Lm, ?Lx; nia). cbn [bind fst snd].
    assert (E : forall A (z : A) p l, length p = (b * mc)%nat -> (length l <= mc)%nat ->
      splice (p ++ repeat z (Datatypes.S (length xs) * mc + r)) l (b * mc) =
      (p ++ padded z mc l) ++ repeat z (length xs * mc + r)).
    { intros A z p l Hp Hl. unfold splice. rewrite firstn_app, <- Hp, Nat.sub_diag, firstn_all.
      cbn [firstn]. rewrite app_nil_r, skipn_app, skipn_all2 by lia. cbn [app].
      rewrite skipn_repeat. unfold padded. rewrite <- !app_assoc, <- repeat_app. do 3 f_equal. nia. }
    rewrite (E _ zk), (E _ zx) by (rewrite ?map_length; auto).
    rewrite Nat.add_1_r. rewrite IH.
    + rewrite <- !app_assoc. cbn [app].
      replace ((b + Datatypes.S (length xs)) * mc)%nat with ((Datatypes.S b + length xs) * mc)%nat by lia.
      replace ((b + 0 + 1) * mc)%nat with (Datatypes.S b * mc)%nat by lia.
      rewrite <- (seq_shift (length xs) 0), (map_map Datatypes.S).
      rewrite (map_ext (fun k => ((b + Datatypes.S k + 1) * mc)%nat) (fun k => ((Datatypes.S b + k + 1) * mc)%nat))
        by (intros k; f_equal; lia).
      reflexivity.
    + rewrite app_length, Lm. unfold padded. rewrite app_length, repeat_length, map_length. nia.
    + rewrite app_length, Lx. unfold padded. rewrite app_length, repeat_length, map_length. nia.
Qed.
End Put.

(** ** Elements *)
Section Elements.
Variable S : scalars.
Hypothesis L : scalar_laws S.
Notation K := (K S).
Notation "0" := (k0 S).
Notation "1" := (k1 S).
Infix "+" := (kadd S).
Infix "*" := (kmul S).
Infix "-" := (ksub S).
Notation "- x" := (kopp S x).
Add Ring Kring : (k_ring S L).

Lemma fold_add {A} (f : A -> K) l : forall a,
  fold_left (fun acc e => acc + f e) l a = a + sum S (map f l).
Proof.
  induction l as [|e l IH]; intros a; cbn [fold_left map sum fold_right]; [ring|].
  rewrite IH. unfold sum. ring.
Qed.

Lemma fold_left_ext {A B} (f g : B -> A -> B) l : (forall b a, In a l -> f b a = g b a) ->
  forall b, fold_left f l b = fold_left g l b.
Proof.
  intros H. induction l as [|a l IH]; intros b; cbn [fold_left]; auto.
  rewrite H by (left; auto). apply IH. intros; apply H; right; auto.
Qed.

Lemma weight_cons p l y : weight S (p :: l) y = (if zlist_eqb (fst p) y then snd p else 0) + weight S l y.
Proof. reflexivity. Qed.

Lemma weight_app a b y : weight S (a ++ b) y = weight S a y + weight S b y.
Proof. unfold weight. rewrite map_app, (sum_app S L). reflexivity. Qed.

Lemma weight_flat_map {A} (f : A -> list (list Z * K)) l y :
  weight S (flat_map f l) y = sum S (map (fun a => weight S (f a) y) l).
Proof.
  induction l as [|a l IH]; cbn [flat_map map]; [reflexivity|]. rewrite weight_app, IH. reflexivity.
Qed.

Lemma weight_map {A} (f : A -> list Z * K) l y :
  weight S (map f l) y = sum S (map (fun a => if zlist_eqb (fst (f a)) y then snd (f a) else 0) l).
Proof. unfold weight. rewrite map_map. reflexivity. Qed.

Lemma upd_eqb x y j v : (j < length x)%nat -> length y = length x ->
  zlist_eqb (upd x j v) y = same_elsewhere [j] x y && Z.eqb v (nth j y 0%Z).
Proof.
  intros Hj Hl. apply eq_true_iff_eq. rewrite zlist_eqb_eq, andb_true_iff, same_elsewhere_iff, Z.eqb_eq.
  split.
  - intros <-. rewrite nth_upd_same by auto. split; auto. intros i Hi Hn.
    rewrite nth_upd_other; auto. cbn [In] in Hn. tauto.
  - intros [H1 H2]. apply nth_ext_Z; [rewrite upd_length; auto|]. rewrite upd_length. intros i Hi.
    destruct (Nat.eq_dec j i) as [<-|Hn]; [rewrite nth_upd_same; auto|].
    rewrite nth_upd_other by auto. apply H1; auto. cbn [In]. tauto.
Qed.

Lemma upd2_eqb x y a b v w : (a < length x)%nat -> (b < length x)%nat -> a <> b -> length y = length x ->
  zlist_eqb (upd (upd x a v) b w) y =
  same_elsewhere [a; b] x y && Z.eqb v (nth a y 0%Z) && Z.eqb w (nth b y 0%Z).
Proof.
  intros Ha Hb Hab Hl. rewrite upd_eqb by (rewrite ?upd_length; auto). f_equal.
  apply eq_true_iff_eq. rewrite andb_true_iff, !same_elsewhere_iff, Z.eqb_eq, upd_length. split.
  - intros H. split.
    + intros i Hi Hn. cbn [In] in Hn. rewrite <- H by (cbn [In]; tauto). rewrite nth_upd_other; tauto.
    + rewrite <- H; [rewrite nth_upd_same; auto|auto|]. cbn [In]. intros [?|[]]; auto.
  - intros [H1 H2] i Hi Hn. destruct (Nat.eq_dec a i) as [<-|Hd]; [rewrite nth_upd_same; auto|].
    rewrite nth_upd_other by auto. apply H1; auto. cbn [In] in *. tauto.
Qed.

Section Space.
Variable hs : list (list Z).
Hypothesis Hs : sorted_space hs.

Notation pos i x := (pos_in (nth i hs []) (nth i x 0%Z)).

Lemma site_term m i x y : term_element S hs m [i] x y =
  if same_elsewhere [i] x y then mget S m (pos i x) (pos i y) else 0.
Proof. reflexivity. Qed.

Lemma new_one m i x y : denote S hs (site_op S m i) x y = term_element S hs m [i] x y.
Proof.
  cbn [denote site_op]. unfold element. cbn [map fst snd sum fold_right].
  destruct (zlist_eqb x y); ring.
Qed.

Lemma new_none x y : denote S hs (New S 0 []) x y = 0.
Proof. cbn [denote]. unfold element. cbn [map sum fold_right]. destruct (zlist_eqb x y); ring. Qed.

Lemma matmul_denote a b x y : denote S hs (Matmul S a b) x y = comp S hs (denote S hs a) (denote S hs b) x y.
Proof. reflexivity. Qed.

Lemma two_sites_ok i j : (i < length hs)%nat -> (j < length hs)%nat -> i <> j -> sites_ok hs ([i] ++ [j]).
Proof.
  intros Hi Hj Hn. split.
  - cbn [app]. constructor; [cbn [In]; intros [?|[]]; auto|]. constructor; [cbn [In]; tauto|constructor].
  - cbn [app In]. intros s [<-|[<-|[]]]; auto.
Qed.

Lemma one_dim s : local_dim hs [s] = length (nth s hs []).
Proof. unfold local_dim; cbn. lia. Qed.

Lemma pos_lt i x : configuration hs x -> (i < length hs)%nat -> (pos i x < length (nth i hs []))%nat.
Proof. intros Hx Hi. apply pos_in_lt. apply configuration_nth; auto. Qed.

Lemma product_two A B i j x y :
  configuration hs x -> configuration hs y ->
  (i < length hs)%nat -> (j < length hs)%nat -> i <> j ->
  square S A (length (nth i hs [])) -> square S B (length (nth j hs [])) ->
  denote S hs (Matmul S (site_op S A i) (site_op S B j)) x y =
  if same_elsewhere [i; j] x y
  then mget S A (pos i x) (pos i y) * mget S B (pos j x) (pos j y) else 0.
Proof.
  intros Hx Hy Hi Hj Hn HA HB. rewrite matmul_denote.
  rewrite (comp_ext S hs _ (term_element S hs A [i]) _ (term_element S hs B [j])); auto;
    try (intros; apply new_one).
  rewrite <- one_dim in HA, HB.
  rewrite <- (kron_term S L hs Hs x y Hx Hy A B [i] [j]); auto; [|apply two_sites_ok; auto].
  cbn [app]. unfold term_element. destruct (same_elsewhere [i; j] x y); auto.
  change (entry S) with (mget S).
  unfold loc_index. cbn [fold_left]. rewrite one_dim in HA, HB.
  cbn [Nat.mul Nat.add]. apply kron_get with (da := length (nth i hs [])); auto; apply pos_lt; auto.
Qed.

Lemma comp_diag_l f g x y : configuration hs x ->
  comp S hs (fun a b => delta S a b (f a)) g x y = f x * g x y.
Proof.
  intros Hx. unfold comp. rewrite (sum_single S L (list_eq_dec Z.eq_dec) _ _ x).
  - unfold delta. rewrite zlist_eqb_refl. reflexivity.
  - apply all_configs_nodup; auto.
  - apply all_configs_in; auto.
  - intros z _ Hz. unfold delta. rewrite (proj2 (zlist_eqb_false x z)) by auto. ring.
Qed.

(** a diagonal single-site matrix *)
Lemma diag_site m i x y f : configuration hs x -> configuration hs y -> (i < length hs)%nat ->
  (forall p q, (p < length (nth i hs []))%nat -> (q < length (nth i hs []))%nat ->
     mget S m p q = if Nat.eqb p q then f p else 0) ->
  term_element S hs m [i] x y = delta S x y (f (pos i x)).
Proof.
  intros Hx Hy Hi H. rewrite site_term. unfold delta. destruct (zlist_eqb x y) eqn:E.
  - apply zlist_eqb_eq in E. subst y. rewrite same_elsewhere_refl, H by (apply pos_lt; auto).
    rewrite Nat.eqb_refl. reflexivity.
  - destruct (same_elsewhere [i] x y) eqn:E1; auto. rewrite H by (apply pos_lt; auto).
    destruct (Nat.eqb_spec (pos i x) (pos i y)) as [Ep|]; auto.
    exfalso. apply zlist_eqb_false in E. apply E.
    apply pos_in_inj in Ep; try (apply configuration_nth; auto).
    apply nth_ext_Z; [rewrite !(configuration_length hs); auto|]. intros k Hk.
    rewrite same_elsewhere_iff in E1. destruct (Nat.eq_dec k i) as [->|]; auto.
    apply E1; auto. cbn [In]. intros [?|[]]; auto.
Qed.

(** a diagonal matrix on two sites *)
Lemma diag_two i j x y (F : bool) : configuration hs x -> configuration hs y ->
  (i < length hs)%nat -> (j < length hs)%nat ->
  same_elsewhere [i; j] x y && Nat.eqb (pos i x) (pos i y) && Nat.eqb (pos j x) (pos j y) = zlist_eqb x y.
Proof.
  intros Hx Hy Hi Hj. apply eq_true_iff_eq.
  rewrite !andb_true_iff, !Nat.eqb_eq, same_elsewhere_iff, zlist_eqb_eq. split.
  - intros [[H1 H2] H3]. apply pos_in_inj in H2; try (apply configuration_nth; auto).
    apply pos_in_inj in H3; try (apply configuration_nth; auto).
    apply nth_ext_Z; [rewrite !(configuration_length hs); auto|]. intros k Hk.
    destruct (Nat.eq_dec k i) as [->|]; auto. destruct (Nat.eq_dec k j) as [->|]; auto.
    apply H1; auto. cbn [In]. intros [?|[?|[]]]; auto.
  - intros <-. auto.
Qed.
End Space.

(** ** Ising *)
Lemma spins_sorted n : sorted_space (spins n).
Proof. apply Forall_forall. intros l Hl. apply repeat_spec in Hl. subst. repeat constructor; lia. Qed.

Lemma spins_length n : length (spins n) = n.
Proof. apply repeat_length. Qed.

Lemma spins_nth n i : (i < n)%nat -> nth i (spins n) [] = [(-1)%Z; 1%Z].
Proof. intros H. apply (repeat_spec n [(-1)%Z; 1%Z]). apply nth_In. rewrite spins_length; auto. Qed.

Lemma spin_value n x i : configuration (spins n) x -> (i < n)%nat -> nth i x 0%Z = (-1)%Z \/ nth i x 0%Z = 1%Z.
Proof.
  intros Hx Hi. pose proof (configuration_nth (spins n) x i Hx) as H.
  rewrite spins_length, spins_nth in H by auto. cbn [In] in H. specialize (H Hi). intuition.
Qed.

Section Ising.
Variable o : ising S.
Notation n := (is_n S o).
Notation hs := (spins n).
Hypothesis He : edges_ok n (is_edges S o).
Notation terms := (ising_terms S n (is_edges S o) (is_h S o) (is_J S o)).

Lemma flip_weight x y j : configuration hs x -> configuration hs y -> (j < n)%nat ->
  (if zlist_eqb (upd x j (- nth j x 0)%Z) y then - is_h S o else 0) =
  term_element S hs (scaled S (- is_h S o) (pauli_x S)) [j] x y.
Proof.
  intros Hx Hy Hj. pose proof (configuration_length _ _ Hx) as Lx. pose proof (configuration_length _ _ Hy) as Ly.
  rewrite spins_length in *. rewrite upd_eqb by lia. rewrite site_term.
  destruct (same_elsewhere [j] x y); auto. cbn [andb]. rewrite spins_nth by auto.
  destruct (spin_value n x j Hx Hj) as [->| ->]; destruct (spin_value n y j Hy Hj) as [->| ->];
    cbn; ring.
Qed.

Lemma zz_weight x y e : configuration hs x -> configuration hs y -> In e (is_edges S o) ->
  (if zlist_eqb x y then is_J S o * kz S (nth (fst e) x 0%Z) * kz S (nth (snd e) x 0%Z) else 0) =
  term_element S hs (scaled S (is_J S o) (pauli_zz S)) [fst e; snd e] x y.
Proof.
  intros Hx Hy Hin. unfold edges_ok in He. rewrite Forall_forall in He. destruct (He e Hin) as (Hi & Hj & Hn).
  unfold term_element. rewrite <- (diag_two hs (fst e) (snd e) x y true) by (rewrite ?spins_length; auto).
  destruct (same_elsewhere [fst e; snd e] x y); cbn [andb]; auto.
  unfold loc_index. cbn [fold_left]. rewrite !spins_nth by auto.
  destruct (spin_value n x (fst e) Hx Hi) as [->| ->]; destruct (spin_value n y (fst e) Hy Hi) as [->| ->];
  destruct (spin_value n x (snd e) Hx Hj) as [->| ->]; destruct (spin_value n y (snd e) Hy Hj) as [->| ->];
    cbn; ring.
Qed.

Lemma ising_row_ok x : configuration hs x -> is_row S hs (element S hs 0 terms x) (ising_row S o x).
Proof.
  intros Hx. pose proof (configuration_length _ _ Hx) as Lx. rewrite spins_length in Lx. split.
  - unfold ising_row. intros p [<-|Hp]; [exact Hx|]. apply in_map_iff in Hp. destruct Hp as (j & <- & Hj).
    apply in_seq in Hj. cbn [fst]. apply configuration_iff. rewrite upd_length, spins_length. split; [auto|].
    intros i Hi. rewrite spins_nth by lia.
    destruct (Nat.eq_dec j i) as [<-|Hd].
    + rewrite nth_upd_same by lia. destruct (spin_value n x j Hx) as [->| ->]; [lia| |]; cbn; auto.
    + rewrite nth_upd_other by auto. destruct (spin_value n x i Hx) as [->| ->]; [lia| |]; cbn; auto.
  - intros y Hy. unfold ising_row. rewrite weight_cons, weight_map. cbn [fst snd].
    rewrite fold_add. unfold element, ising_terms. rewrite map_app, !map_map, (sum_app S L). cbn [fst snd].
    rewrite Lx.
    rewrite (sum_ext S (fun j => if zlist_eqb (upd x j (- nth j x 0)%Z) y then - is_h S o else 0)
       (fun i => term_element S hs (scaled S (- is_h S o) (pauli_x S)) [i] x y)).
    2:{ intros j Hj. apply in_seq in Hj. apply flip_weight; auto. lia. }
    rewrite <- (sum_ext S (fun e => if zlist_eqb x y then is_J S o * kz S (nth (fst e) x 0%Z) * kz S (nth (snd e) x 0%Z) else 0)
      (fun e => term_element S hs (scaled S (is_J S o) (pauli_zz S)) [fst e; snd e] x y)).
    2:{ intros e Hin. apply zz_weight; auto. }
    destruct (zlist_eqb x y); [ring|]. rewrite (sum_zero S L (fun _ => 0)) by auto. ring.
Qed.

Lemma ising_row_length x : length x = n -> length (ising_row S o x) = (n + 1)%nat.
Proof. intros H. unfold ising_row. cbn [length]. rewrite map_length, seq_length. lia. Qed.

Lemma concat_const {A B} (f : A -> list B) m xs : (forall x, In x xs -> length (f x) = m) ->
  length (concat (map f xs)) = (length xs * m)%nat.
Proof.
  induction xs as [|x xs IH]; intros H; cbn [map concat length]; auto.
  rewrite app_length, IH by (intros; apply H; right; auto). rewrite H by (left; auto). lia.
Qed.

Lemma ising_flattened_ok junk junkx xs : is_edges S o <> [] -> Forall (configuration hs) xs ->
  ising_flattened S o junk junkx xs =
  Ok (map snd (concat (map (ising_row S o) xs)), map fst (concat (map (ising_row S o) xs)),
      ends 0 (map (fun x => length (ising_row S o x)) xs)).
Proof.
  intros Hne HF. unfold ising_flattened. destruct (is_edges S o) eqn:Ee; [congruence|].
  assert (EL : length (concat (map (ising_row S o) xs)) = (length xs * (n + 1))%nat).
  { apply concat_const. intros x Hx. apply ising_row_length. rewrite Forall_forall in HF.
    rewrite (configuration_length _ _ (HF x Hx)). apply spins_length. }
  destruct (put_batch_flat S (ising_row S o) xs 0 0 (map junk (seq 0 (length xs * (n + 1))))
     (map junkx (seq 0 (length xs * (n + 1)))) []) as (m' & x' & E1 & E2 & E3 & E4 & E5).
  { rewrite map_length, seq_length, EL. lia. } { rewrite !map_length. auto. }
  cbv zeta. rewrite E1. cbn [bind fst snd app].
  rewrite map_length, seq_length in E2, E3. cbn [Nat.add firstn app] in E4, E5.
  rewrite EL in E4, E5. rewrite firstn_all2 in E4 by lia. rewrite firstn_all2 in E5 by lia.
  rewrite E4, E5. reflexivity.
Qed.

(** to_local_operator *)
Variable nonzero : K -> bool.
Hypothesis Hnz : forall k, nonzero k = false -> k = 0.

Lemma fold_minus {A} (f : A -> expr S) x y l : forall e,
  denote S hs (fold_left (fun e i => Minus S e (f i)) l e) x y =
  denote S hs e x y - sum S (map (fun i => denote S hs (f i) x y) l).
Proof.
  induction l as [|a l IH]; intros e; cbn [fold_left map sum fold_right]; [ring|].
  rewrite IH. cbn [denote]. unfold sum. ring.
Qed.

Lemma fold_plus {A} (f : A -> expr S) hs' x y l : forall e,
  denote S hs' (fold_left (fun e i => Plus S e (f i)) l e) x y =
  denote S hs' e x y + sum S (map (fun i => denote S hs' (f i) x y) l).
Proof.
  induction l as [|a l IH]; intros e; cbn [fold_left map sum fold_right]; [ring|].
  rewrite IH. cbn [denote]. unfold sum. ring.
Qed.

Lemma sq2 a b c d : square S [[a; b]; [c; d]] 2.
Proof. split; [reflexivity|]. repeat constructor. Qed.

Lemma ising_local_denote x y : configuration hs x -> configuration hs y ->
  denote S hs (ising_local S nonzero o) x y = element S hs 0 terms x y.
Proof.
  intros Hx Hy. unfold ising_local, element, ising_terms.
  rewrite map_app, !map_map, (sum_app S L). cbn [fst snd].
  set (e1 := if nonzero (is_h S o) then _ else _).
  assert (E1 : denote S hs e1 x y =
    sum S (map (fun i => term_element S hs (scaled S (- is_h S o) (pauli_x S)) [i] x y) (seq 0 n))).
  { unfold e1. destruct (nonzero (is_h S o)) eqn:En.
    - rewrite fold_minus, new_none.
      rewrite (sum_ext S (fun i => term_element S hs (scaled S (- is_h S o) (pauli_x S)) [i] x y)
        (fun i => - (1) * denote S hs (Times S (site_op S (sigmax S) i) (is_h S o)) x y)).
      + rewrite (sum_mul_l S L). ring.
      + intros i Hi. apply in_seq in Hi. cbn [denote]. fold (site_op S (sigmax S) i).
        change (element S hs 0 [(sigmax S, [i])] x y) with (denote S hs (site_op S (sigmax S) i) x y).
        rewrite new_one, !site_term. destruct (same_elsewhere [i] x y); [|ring].
        rewrite spins_nth by lia.
        destruct (spin_value n x i Hx) as [->| ->]; [lia| |]; (destruct (spin_value n y i Hy) as [->| ->]; [lia| |]);
          cbn; ring.
    - rewrite new_none. symmetry. apply (sum_zero S L). intros i Hi. apply in_seq in Hi.
      rewrite site_term, (Hnz _ En). destruct (same_elsewhere [i] x y); auto. rewrite spins_nth by lia.
      destruct (spin_value n x i Hx) as [->| ->]; [lia| |]; (destruct (spin_value n y i Hy) as [->| ->]; [lia| |]);
          cbn; ring. }
  assert (E2 : forall e, In e (is_edges S o) ->
     denote S hs (Times S (Matmul S (site_op S (sigmaz S) (fst e)) (site_op S (sigmaz S) (snd e))) (is_J S o)) x y =
     term_element S hs (scaled S (is_J S o) (pauli_zz S)) [fst e; snd e] x y).
  { intros e Hin. unfold edges_ok in He. rewrite Forall_forall in He. destruct (He e Hin) as (Hi & Hj & Hn).
    change (denote S hs (Times S (Matmul S (site_op S (sigmaz S) (fst e)) (site_op S (sigmaz S) (snd e))) (is_J S o)) x y)
      with (denote S hs (Matmul S (site_op S (sigmaz S) (fst e)) (site_op S (sigmaz S) (snd e))) x y * is_J S o).
    rewrite product_two; auto; try apply spins_sorted; rewrite ?spins_length, ?spins_nth; auto; try apply sq2.
    unfold term_element. destruct (same_elsewhere [fst e; snd e] x y); [|ring].
    unfold loc_index. cbn [fold_left]. rewrite !spins_nth by auto.
    destruct (spin_value n x (fst e) Hx Hi) as [->| ->]; destruct (spin_value n y (fst e) Hy Hi) as [->| ->];
    destruct (spin_value n x (snd e) Hx Hj) as [->| ->]; destruct (spin_value n y (snd e) Hy Hj) as [->| ->];
      cbn; ring. }
  destruct (nonzero (is_J S o)) eqn:EJ.
  - rewrite fold_plus, E1, (sum_ext S _ _ _ E2). destruct (zlist_eqb x y); ring.
  - rewrite E1. rewrite <- (sum_ext S _ _ _ E2). rewrite (sum_zero S L _ (is_edges S o)).
    + destruct (zlist_eqb x y); ring.
    + intros e Hin. cbn [denote]. rewrite (Hnz _ EJ). ring.
Qed.

Lemma one_site_valid hs' m i : (i < length hs')%nat -> square S m (length (nth i hs' [])) ->
  valid_expr S hs' (site_op S m i).
Proof.
  intros Hi Hm. cbn [valid_expr site_op]. constructor; [|constructor]. cbn [snd]. split.
  - split; [discriminate|]. split; [constructor; [cbn; tauto|constructor]|].
    split; [intros s [<-|[]]; auto|]. cbn [fst snd]. rewrite one_dim. auto.
  - left. constructor; [constructor|constructor].
Qed.

Lemma fold_valid {A} hs' (F : expr S -> A -> expr S) l : 
  (forall e a, In a l -> valid_expr S hs' e -> valid_expr S hs' (F e a)) ->
  forall e, valid_expr S hs' e -> valid_expr S hs' (fold_left F l e).
Proof.
  induction l as [|a l IH]; intros H e V; cbn [fold_left]; auto.
  apply IH; [intros; apply H; auto; right; auto|]. apply H; auto. left; auto.
Qed.

Lemma ising_local_valid : valid_expr S hs (ising_local S nonzero o).
Proof.
  unfold ising_local.
  assert (V0 : valid_expr S hs (New S 0 [])) by constructor.
  assert (V1 : valid_expr S hs (if nonzero (is_h S o) then fold_left (fun e i => Minus S e (Times S (site_op S (sigmax S) i) (is_h S o)))
                          (seq 0 n) (New S 0 []) else New S 0 [])).
  { destruct (nonzero _); auto. apply fold_valid; auto. intros e i Hi V. apply in_seq in Hi.
    cbn [valid_expr]. split; auto. apply one_site_valid; rewrite ?spins_length, ?spins_nth; auto; try lia. apply sq2. }
  destruct (nonzero (is_J S o)); auto. apply fold_valid; auto. intros e p Hp V.
  unfold edges_ok in He. rewrite Forall_forall in He. destruct (He p Hp) as (Hi & Hj & Hn).
  cbn [valid_expr]. split; auto.
  split; apply one_site_valid; rewrite ?spins_length, ?spins_nth; auto; try apply sq2.
Qed.

Lemma spins_uniform : uniform_space hs 2.
Proof. split; [lia|]. intros s H. rewrite spins_length in H. rewrite spins_nth; auto. Qed.

Lemma ising_local_ok (NS : no_small S) depth : (2 ^ Z.of_nat n <= 2 ^ 31 - 1)%Z ->
  exists lo, build S (Datatypes.S depth) hs (ising_local S nonzero o) = Ok lo /\
    forall x junk junkx, configuration hs x ->
    row_or_fault S hs (element S hs 0 terms x) (get_conn S hs lo junk junkx x).
Proof.
  intros Hd. destruct (build_total S L NS depth hs (spins_sorted n) (ising_local S nonzero o)) as [lo E].
  - apply ising_local_valid.
  - right. exists 2%nat. split; [apply spins_uniform|]. rewrite spins_length. exact Hd.
  - exists lo. split; auto. intros x junk junkx Hx.
    assert (HR : row_or_fault S hs (denote S hs (ising_local S nonzero o) x) (get_conn S hs lo junk junkx x)).
    { apply (expr_row S L depth hs (spins_sorted n) NS); auto; [apply ising_local_valid|].
      right. exists 2%nat. apply spins_uniform. }
    unfold row_or_fault, is_row in *. destruct (get_conn S hs lo junk junkx x) as [l|e].
    + destruct HR as [H1 H2]. split; auto. intros y Hy. rewrite H2 by auto. apply ising_local_denote; auto.
    + destruct HR as [H1 H2]. split; auto. intros y Hy. rewrite <- ising_local_denote; auto.
Qed.
End Ising.
End Elements.
