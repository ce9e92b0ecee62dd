(** * Proofs about the Heisenberg Hamiltonian *)
From Coq Require Import List ZArith Bool Arith Lia Permutation Sorting.Sorted Ring Reals.
From Verif Require Import Base BaseFacts Scalar LocalOp_Spec LocalOp_Model LocalOp_Facts LocalOp_Reorder LocalOp_Build LocalOp_Proofs LocalOp_Final.
From Verif Require Import SpinOps_Model SpinOps_Spec SpinOps_Proofs SpinRows_Proofs SpinAlg_Proofs.
From Verif Require Import GraphOp_Model GraphOp_Spec GraphOp_Proofs.
Import ListNotations.
Open Scope nat_scope.

(** ** Exchanging two sites *)
Definition sw (u v i : nat) : nat := if i =? u then v else if i =? v then u else i.

Lemma sw_inj u v i j : sw u v i = sw u v j -> i = j.
Proof.
  unfold sw. destruct (Nat.eqb_spec i u), (Nat.eqb_spec i v), (Nat.eqb_spec j u), (Nat.eqb_spec j v); subst; lia.
Qed.
Lemma sw_lt u v n i : u < n -> v < n -> i < n -> sw u v i < n.
Proof. unfold sw. destruct (i =? u), (i =? v); lia. Qed.
Lemma sw_sw u v i : sw u v (sw u v i) = i.
Proof.
  unfold sw. destruct (Nat.eqb_spec i u), (Nat.eqb_spec i v); subst;
  repeat match goal with |- context [?a =? ?b] => destruct (Nat.eqb_spec a b) end; lia.
Qed.

Lemma swapped_length x u v : length (swapped x u v) = length x.
Proof. unfold swapped. rewrite map_length, seq_length. reflexivity. Qed.

Lemma swapped_nth x u v i : i < length x -> nth i (swapped x u v) 0%Z = nth (sw u v i) x 0%Z.
Proof.
  intros H. unfold swapped. fold (sw u v).
  change (map (fun i0 => nth (sw u v i0) x 0%Z) (seq 0 (length x))) with (map (fun i0 => nth (sw u v i0) x 0%Z) (seq 0 (length x))).
  set (g := fun i0 => nth (sw u v i0) x 0%Z).
  rewrite nth_indep with (d' := g 0) by (rewrite map_length, seq_length; exact H).
  rewrite (map_nth g), seq_nth by exact H. reflexivity.
Qed.

Lemma swapped_perm x u v : u < length x -> v < length x -> Permutation x (swapped x u v).
Proof.
  intros Hu Hv. apply (Permutation_nth x (swapped x u v) 0%Z). split; [apply swapped_length|].
  exists (sw u v). split; [intros i Hi; apply sw_lt; assumption|].
  split; [intros i j _ _; apply sw_inj|]. intros i Hi. apply swapped_nth, Hi.
Qed.

Lemma swapped_invol x u v : u < length x -> v < length x -> swapped (swapped x u v) u v = x.
Proof.
  intros Hu Hv. apply nth_ext_Z; [rewrite !swapped_length; reflexivity|].
  intros i Hi. rewrite !swapped_length in Hi. rewrite swapped_nth by (rewrite swapped_length; exact Hi).
  rewrite swapped_nth by (apply sw_lt; assumption). rewrite sw_sw. reflexivity.
Qed.

Lemma sw_u u v : sw u v u = v.
Proof. unfold sw. rewrite Nat.eqb_refl. reflexivity. Qed.
Lemma sw_v u v : sw u v v = u.
Proof. unfold sw. rewrite Nat.eqb_refl. destruct (Nat.eqb_spec v u); auto. Qed.
Lemma sw_o u v i : i <> u -> i <> v -> sw u v i = i.
Proof. intros A B. unfold sw. apply Nat.eqb_neq in A, B. rewrite A, B. reflexivity. Qed.

(** two configurations that agree except on [u] and [v] *)
Lemma eq_iff_pair x y u v : length x = length y -> u < length x -> v < length x ->
  same_elsewhere [u; v] x y = true ->
  (x = y <-> nth u x 0%Z = nth u y 0%Z /\ nth v x 0%Z = nth v y 0%Z) /\
  (swapped x u v = y <-> nth v x 0%Z = nth u y 0%Z /\ nth u x 0%Z = nth v y 0%Z).
Proof.
  intros E Hu Hv A. rewrite same_elsewhere_iff in A. split; split.
  - intros ->. auto.
  - intros [P Q]. apply nth_ext_Z; [exact E|]. intros i Hi.
    destruct (Nat.eq_dec i u) as [->|]; [exact P|]. destruct (Nat.eq_dec i v) as [->|]; [exact Q|].
    apply A; [exact Hi|]. cbn. intuition lia.
  - intros <-. rewrite !swapped_nth by assumption. rewrite sw_u, sw_v. auto.
  - intros [P Q]. apply nth_ext_Z; [rewrite swapped_length; exact E|]. intros i Hi. rewrite swapped_length in Hi.
    rewrite swapped_nth by exact Hi.
    destruct (Nat.eq_dec i u) as [->|]; [rewrite sw_u; exact P|]. destruct (Nat.eq_dec i v) as [->|]; [rewrite sw_v; exact Q|].
    rewrite sw_o by assumption. apply A; [exact Hi|]. cbn. intuition lia.
Qed.

Lemma elsewhere_false x y u v : u < length x -> v < length x ->
  same_elsewhere [u; v] x y = false -> x <> y /\ swapped x u v <> y.
Proof.
  intros Hu Hv F. split; intros E.
  - subst y. rewrite same_elsewhere_refl in F. discriminate.
  - assert (T : same_elsewhere [u; v] x y = true); [|congruence].
    apply same_elsewhere_iff. intros i Hi N. rewrite <- E, swapped_nth by exact Hi.
    rewrite sw_o; [reflexivity| |]; intros ->; apply N; cbn; auto.
Qed.

Section Heis.
Variable S : scalars.
Hypothesis L : scalar_laws S.
Add Ring Kring : (k_ring S L).
Variable depth : nat.
Variables a b : Z.
Hypothesis Hab : (a < b)%Z.
Variable n : nat.
Notation hs := (repeat [a; b] n).

Lemma hs_nth i : i < n -> nth i hs [] = [a; b].
Proof. intros H. rewrite nth_indep with (d' := [a; b]) by (rewrite repeat_length; exact H). apply nth_repeat. Qed.

Lemma hs_sorted : sorted_space hs.
Proof. apply Forall_forall. intros ls I. apply repeat_spec in I. subst. repeat constructor. exact Hab. Qed.

Lemma site_ab x i : configuration hs x -> i < n -> nth i x 0%Z = a \/ nth i x 0%Z = b.
Proof.
  intros C H. pose proof (conf_site hs x i C) as I. rewrite repeat_length, hs_nth in I by exact H.
  destruct (I H) as [I'|[I'|[]]]; auto.
Qed.

Definition flip_of (sr : bool) : K S -> K S := if sr then kopp S else fun k => k.
Definition heis_mat (J : K S) (sr : bool) : mat S := map (map (fun k => kmul S J k)) (heis_term S sr).

Lemma heis_mat_square J sr : square S (heis_mat J sr) 4.
Proof. destruct sr; split; try reflexivity; repeat constructor. Qed.

Lemma heis_mat_entry J sr i j : i < 4 -> j < 4 ->
  entry S (heis_mat J sr) i j =
  kmul S J (kadd S (if i =? j then (if (i =? 0) || (i =? 3) then k1 S else kopp S (k1 S)) else k0 S)
      (if (i =? 1) && (j =? 2) || (i =? 2) && (j =? 1) then flip_of sr (kadd S (k1 S) (k1 S)) else k0 S)).
Proof.
  intros Hi Hj.
  destruct i as [|[|[|[|i]]]]; try (exfalso; lia); destruct j as [|[|[|[|j]]]]; try (exfalso; lia);
  destruct sr; cbn; try ring.
Qed.

Lemma bond_element J sr x y u v : configuration hs x -> configuration hs y -> u < v -> v < n ->
  term_element S hs (heis_mat J sr) [u; v] x y = kmul S J (heis_bond S (flip_of sr) x y (u, v)).
Proof.
  intros Cx Cy Huv Hv. assert (Hu : u < n) by lia.
  pose proof (configuration_length _ _ Cx) as Lx. pose proof (configuration_length _ _ Cy) as Ly.
  rewrite repeat_length in Lx, Ly.
  unfold term_element, heis_bond. cbn [fst snd].
  destruct (same_elsewhere [u; v] x y) eqn:E.
  - destruct (eq_iff_pair x y u v) as [P Q]; try lia; try exact E.
    unfold loc_index. cbn [fold_left]. rewrite !hs_nth by assumption. cbn [length].
    destruct (site_ab x u Cx Hu) as [Xu|Xu], (site_ab x v Cx Hv) as [Xv|Xv],
             (site_ab y u Cy Hu) as [Yu|Yu], (site_ab y v Cy Hv) as [Yv|Yv];
    rewrite Xu, Xv, Yu, Yv in *; cbn [pos_in];
    rewrite ?Z.eqb_refl, ?(proj2 (Z.eqb_neq a b)), ?(proj2 (Z.eqb_neq b a)) by lia;
    rewrite heis_mat_entry by (cbn; lia);
    destruct (list_eq_dec Z.eq_dec x y) as [D|D]; rewrite P in D;
    destruct (list_eq_dec Z.eq_dec (swapped x u v) y) as [D'|D']; rewrite Q in D';
    try (exfalso; lia); cbn [Nat.add Nat.mul Nat.eqb andb orb]; reflexivity.
  - destruct (elsewhere_false x y u v) as [D D']; try lia; try exact E.
    destruct (list_eq_dec Z.eq_dec x y); [contradiction|].
    destruct (list_eq_dec Z.eq_dec (swapped x u v) y); [contradiction|].
    destruct (_ =? _)%Z; ring.
Qed.

Lemma heis_row g bip J sign_rule x junk junkx : no_small S ->
  simple g -> n_nodes g = n ->
  (sign_rule = Some true -> bip = true) -> configuration hs x ->
  exists o, heisenberg S (Datatypes.S depth) hs g bip J sign_rule = Ok o /\
    row_or_fault S hs
      (heis_element S (if match sign_rule with Some s => s | None => bip end then kopp S else fun k => k)
         J (edges g None) x)
      (get_conn S hs o junk junkx x).
Proof.
  intros NS G N Hb Cx. unfold heisenberg. set (sr := match sign_rule with Some s => s | None => bip end).
  assert (B : sr && negb bip = false).
  { unfold sr. destruct sign_rule as [[|]|]; [rewrite Hb; reflexivity|reflexivity|destruct bip; reflexivity]. }
  rewrite B. fold (heis_mat J sr).
  destruct (graph_row S L depth hs g [] [(false, heis_mat J sr)] [] None x junk junkx) as [o [E R]]; auto.
  - exact hs_sorted.
  - rewrite repeat_length. exact N.
  - left. auto.
  - right. left. repeat constructor.
  - split; [intros m i []|]. intros m oc e [I|[]] Ie _. injection I as <- <-.
    destruct e as [[u v] c]. destruct G as [_ F]. cbn [edges_with_color] in Ie. apply in_combine_l in Ie.
    rewrite Forall_forall in F. specialize (F _ Ie). cbn [fst snd] in *. rewrite !hs_nth by lia. apply heis_mat_square.
  - exists o. split; [exact E|]. eapply row_or_fault_ext; [|exact R]. intros y Cy.
    unfold graph_element, heis_element. rewrite (edges_fst g G), map_map.
    cbn [map]. rewrite (sum_zero S L) by (intros; reflexivity).
    transitivity (sum S (map (fun e => kmul S J (heis_bond S (flip_of sr) x y (fst e))) (edges_with_color g None))).
    + etransitivity; [apply (Radd_0_l (k_ring S L))|]. apply (sum_ext S). intros [[u v] c] I. cbn [fst snd bond_spec map sum fold_right].
      destruct G as [_ F]. cbn [edges_with_color] in I. apply in_combine_l in I.
      rewrite Forall_forall in F. specialize (F _ I). cbn [fst snd] in F.
      rewrite bond_element by (auto; lia). ring.
    + rewrite (sum_mul_l S L). unfold flip_of. destruct sr; reflexivity.
Qed.

(** ** Conservation of magnetisation, symmetry *)
Lemma sum_nonzero {A} (f : A -> K S) l : sum S (map f l) <> k0 S -> ~ (forall e, In e l -> f e = k0 S).
Proof. intros H E. apply H. apply (sum_zero S L). exact E. Qed.
End Heis.

Section Elements.
Variable S : scalars.
Hypothesis L : scalar_laws S.
Add Ring Kring2 : (k_ring S L).

Lemma heis_not_perm flip J es x y : Forall (fun e => fst e < length x /\ snd e < length x) es ->
  ~ Permutation x y -> heis_element S flip J es x y = k0 S.
Proof.
  intros F NP. unfold heis_element. rewrite (sum_zero S L); [ring|]. intros e I.
  rewrite Forall_forall in F. specialize (F e I). unfold heis_bond.
  destruct (list_eq_dec Z.eq_dec x y) as [D|D]; [exfalso; subst; apply NP, Permutation_refl|].
  destruct (list_eq_dec Z.eq_dec (swapped x (fst e) (snd e)) y) as [D'|D'].
  - exfalso. apply NP. rewrite <- D'. apply swapped_perm; lia.
  - destruct (_ =? _)%Z; ring.
Qed.

Lemma heis_sym flip J es x y : length x = length y -> Forall (fun e => fst e < length x /\ snd e < length x) es ->
  heis_element S flip J es x y = heis_element S flip J es y x.
Proof.
  intros E F. unfold heis_element. f_equal. apply (sum_ext S). intros e I. rewrite Forall_forall in F. specialize (F e I).
  destruct e as [u v]. cbn [fst snd] in F. unfold heis_bond. cbn [fst snd].
  assert (Q : swapped x u v = y <-> swapped y u v = x).
  { split; intros <-; apply swapped_invol; lia. }
  destruct (list_eq_dec Z.eq_dec x y) as [<-|D].
  - destruct (list_eq_dec Z.eq_dec x x); [reflexivity|congruence].
  - destruct (list_eq_dec Z.eq_dec y x); [congruence|].
    destruct (list_eq_dec Z.eq_dec (swapped x u v) y) as [D1|D1], (list_eq_dec Z.eq_dec (swapped y u v) x) as [D2|D2]; try tauto.
    + assert (Z1 : (nth u y 0 =? nth v y 0)%Z = (nth u x 0 =? nth v x 0)%Z).
      { rewrite <- D1. rewrite !swapped_nth by lia. rewrite sw_u, sw_v. apply Z.eqb_sym. }
      rewrite Z1. reflexivity.
    + destruct (_ =? _)%Z, (_ =? _)%Z; reflexivity.
Qed.

(** ** The sign rule *)
Definition kprod (l : list (K S)) : K S := fold_right (kmul S) (k1 S) l.

Lemma kprod_ext {A} (f g : A -> K S) l : (forall i, In i l -> f i = g i) -> kprod (map f l) = kprod (map g l).
Proof. intros H. f_equal. apply map_ext_in. exact H. Qed.

Lemma kprod_one {A} (eqd : forall a b : A, {a = b} + {a <> b}) (f g : A -> K S) l k : NoDup l -> In k l ->
  (forall i, In i l -> i <> k -> f i = g i) -> f k = kopp S (g k) ->
  kprod (map f l) = kopp S (kprod (map g l)).
Proof.
  intros ND I H Hk. induction ND as [|h t Nh ND IH]; [destruct I|]. cbn [map kprod fold_right].
  fold (kprod (map f t)) (kprod (map g t)).
  destruct I as [->|I].
  - rewrite Hk, (kprod_ext f g t); [ring|]. intros i Ii. apply H; [right; exact Ii|congruence].
  - rewrite IH; [|exact I|intros i Ii; apply H; right; exact Ii].
    rewrite (H h); [ring|left; reflexivity|congruence].
Qed.

Lemma kprod_sq {A} (f : A -> K S) l : (forall i, kmul S (f i) (f i) = k1 S) ->
  kmul S (kprod (map f l)) (kprod (map f l)) = k1 S.
Proof.
  intros H. induction l as [|h t IH]; cbn [map kprod fold_right]; [ring|]. fold (kprod (map f t)).
  transitivity (kmul S (kmul S (f h) (f h)) (kmul S (kprod (map f t)) (kprod (map f t)))); [ring|]. rewrite H, IH. ring.
Qed.

Definition fac a c x i : K S := if c i && (nth i x 0 =? a)%Z then kopp S (k1 S) else k1 S.

Lemma marshall_sq a c x : kmul S (marshall S a c x) (marshall S a c x) = k1 S.
Proof.
  apply (kprod_sq (fac a c x)). intros i. unfold fac. destruct (c i && _); ring.
Qed.

Lemma marshall_swap a b c x u v : u < length x -> v < length x -> a <> b ->
  (nth u x 0%Z = a /\ nth v x 0%Z = b \/ nth u x 0%Z = b /\ nth v x 0%Z = a) -> c u <> c v ->
  marshall S a c (swapped x u v) = kopp S (marshall S a c x).
Proof.
  intros Hu Hv Hab V Hc. unfold marshall. rewrite swapped_length.
  change (kprod (map (fac a c (swapped x u v)) (seq 0 (length x))) = kopp S (kprod (map (fac a c x) (seq 0 (length x))))).
  set (k := if c u then u else v).
  apply (kprod_one Nat.eq_dec _ _ _ k).
  - apply seq_NoDup.
  - apply in_seq. unfold k. destruct (c u); lia.
  - intros i Ii Nk. apply in_seq in Ii. unfold fac. rewrite swapped_nth by lia.
    destruct (Nat.eq_dec i u) as [->|Nu].
    { rewrite sw_u. unfold k in Nk. destruct (c u); [congruence|reflexivity]. }
    destruct (Nat.eq_dec i v) as [->|Nv].
    { rewrite sw_v. unfold k in Nk. destruct (c u), (c v); try congruence; reflexivity. }
    rewrite sw_o by assumption. reflexivity.
  - unfold fac, k. destruct (c u) eqn:Cu.
    + rewrite Cu, swapped_nth, sw_u by exact Hu. cbn [andb].
      destruct V as [[-> ->]|[-> ->]]; rewrite Z.eqb_refl, (proj2 (Z.eqb_neq b a)) by congruence; ring.
    + destruct (c v) eqn:Cv; [|congruence]. rewrite swapped_nth, sw_v by exact Hv. cbn [andb].
      destruct V as [[-> ->]|[-> ->]]; rewrite Z.eqb_refl, (proj2 (Z.eqb_neq b a)) by congruence; ring.
Qed.

Lemma heis_marshall a b J es c x y : a <> b ->
  Forall (fun v => v = a \/ v = b) x ->
  Forall (fun e => fst e < length x /\ snd e < length x) es -> bipartition c es ->
  heis_element S (kopp S) J es x y =
  kmul S (kmul S (marshall S a c x) (heis_element S (fun k => k) J es x y)) (marshall S a c y).
Proof.
  intros Hab V F Bp. unfold heis_element.
  transitivity (kmul S J (kmul S (kmul S (marshall S a c x) (sum S (map (heis_bond S (fun k => k) x y) es))) (marshall S a c y))); [|ring].
  f_equal. rewrite <- (sum_mul_l S L), <- (sum_mul_r S L). apply (sum_ext S). intros e I.
  rewrite Forall_forall in F. specialize (F e I). specialize (Bp e I). destruct e as [u v]. cbn [fst snd] in *.
  unfold heis_bond. cbn [fst snd].
  assert (D1 : x = y -> kmul S (marshall S a c x) (marshall S a c y) = k1 S) by (intros <-; apply marshall_sq).
  assert (D2 : swapped x u v = y -> (nth u x 0 =? nth v x 0)%Z = false ->
               kmul S (marshall S a c x) (marshall S a c y) = kopp S (k1 S)).
  { intros <- Nq. apply Z.eqb_neq in Nq. rewrite (marshall_swap a b); try lia; auto.
    - transitivity (kopp S (kmul S (marshall S a c x) (marshall S a c x))); [ring|]. rewrite marshall_sq. reflexivity.
    - rewrite Forall_forall in V. destruct (V (nth u x 0%Z)), (V (nth v x 0%Z)); try (apply nth_In; lia); try congruence; auto. }
  set (A := if list_eq_dec Z.eq_dec x y then _ else _). set (P := marshall S a c x) in *. set (Q := marshall S a c y) in *.
  assert (EA : A = kmul S A (kmul S P Q)).
  { unfold A. destruct (list_eq_dec Z.eq_dec x y) as [E|]; [rewrite D1 by exact E; ring|ring]. }
  clearbody A.
  destruct (nth u x 0 =? nth v x 0)%Z eqn:Eq.
  - transitivity (kadd S (kmul S A (kmul S P Q)) (k0 S)); [rewrite <- EA; reflexivity|ring].
  - destruct (list_eq_dec Z.eq_dec (swapped x u v) y) as [E|].
    + transitivity (kadd S (kmul S A (kmul S P Q)) (kmul S (kadd S (k1 S) (k1 S)) (kmul S P Q))).
      * rewrite <- EA. rewrite (D2 E eq_refl). ring.
      * ring.
    + transitivity (kadd S (kmul S A (kmul S P Q)) (k0 S)); [rewrite <- EA; reflexivity|ring].
Qed.
End Elements.

(** ** Errors *)
Section Errors.
Variable S : scalars.
Variable depth : nat.
Variable hs : list (list Z).

Lemma graph_errors g (site_ops bond_ops : list (bool * mat S)) colors dtype :
  (n_nodes g <> length hs -> graph_operator S depth hs g site_ops bond_ops colors dtype = Err ValueError) /\
  (bond_ops = [] -> site_ops = [] -> graph_operator S depth hs g site_ops bond_ops colors dtype = Err ValueError) /\
  (n_nodes g = length hs -> site_ops <> [] \/ bond_ops <> [] -> colors <> [] -> length colors <> length bond_ops ->
     graph_operator S depth hs g site_ops bond_ops colors dtype = Err ValueError) /\
  (n_nodes g = length hs -> site_ops <> [] \/ bond_ops <> [] -> colors = [] -> length bond_ops <> 1 ->
     graph_operator S depth hs g site_ops bond_ops colors dtype = Err AssertionError).
Proof.
  assert (Z : site_ops <> [] \/ bond_ops <> [] -> (length bond_ops =? 0) && (length site_ops =? 0) = false).
  { intros [H|H]; [destruct site_ops|destruct bond_ops]; try congruence; cbn; [apply andb_false_r|reflexivity]. }
  unfold graph_operator. repeat split.
  - intros H. apply Nat.eqb_neq in H. rewrite H. reflexivity.
  - intros -> ->. destruct (n_nodes g =? length hs); reflexivity.
  - intros H1 H2 H3 H4. apply Nat.eqb_eq in H1. rewrite H1, (Z H2). cbn [negb]. unfold bond_terms.
    destruct colors as [|c cs]; [congruence|]. cbn [length Nat.ltb Nat.leb].
    assert (E : (length bond_ops =? Datatypes.S (length cs)) = false) by (apply Nat.eqb_neq; cbn in H4; lia).
    rewrite E. reflexivity.
  - intros H1 H2 H3 H4. apply Nat.eqb_eq in H1. rewrite H1, (Z H2). cbn [negb]. subst colors. unfold bond_terms.
    cbn [length Nat.ltb Nat.leb]. destruct bond_ops as [|? [|? ?]]; try reflexivity. cbn in H4. lia.
Qed.

Lemma fold_err {A B} (f : res A -> B -> res A) l : (forall e t, f (Err e) t = Err e) ->
  forall e, fold_left f l (Err e) = Err e.
Proof. intros H. induction l as [|t l IH]; intros e; [reflexivity|]. cbn [fold_left]. rewrite H. apply IH. Qed.

Lemma fold_bad {A B} (f : res A -> B -> res A) l t : (forall e t, f (Err e) t = Err e) ->
  In t l -> (forall a, exists e, f a t = Err e) -> forall a, exists e, fold_left f l a = Err e.
Proof.
  intros H I Ht. induction l as [|h l IH]; intros a; [destruct I|]. cbn [fold_left]. destruct I as [->|I]; [|apply IH, I].
  destruct (Ht a) as [e ->]. exists e. apply fold_err, H.
Qed.

Lemma self_loop g (site_ops bond_ops : list (bool * mat S)) dtype u op :
  n_nodes g = length hs -> bond_ops = [op] -> In (u, u) (edges g None) ->
  exists e, graph_operator S depth hs g site_ops bond_ops [] dtype = Err e.
Proof.
  intros N -> I. unfold graph_operator. rewrite N, Nat.eqb_refl. cbn [negb length Nat.eqb andb bond_terms Nat.ltb Nat.leb bind].
  unfold typed_lop. destruct (negb (forallb is_sorted hs)); [eauto|].
  apply (fold_bad _ _ (op, [u; u])).
  - reflexivity.
  - apply filter_In. split; [|reflexivity]. apply in_app_iff. right. apply in_map_iff. exists (u, u). split; [reflexivity|exact I].
  - intros [a|e]; cbn [bind]; [|eauto]. cbn [fst snd]. destruct (fst op && _); [eauto|].
    unfold add_operator. assert (E : nodupb [u; u] = false) by (cbn; rewrite Nat.eqb_refl; reflexivity).
    rewrite E. cbn [negb]. eauto.
Qed.

Lemma heis_not_bipartite g J : heisenberg S depth hs g false J (Some true) = Err ValueError.
Proof. reflexivity. Qed.

Lemma heis_wrong_size g bip J sign_rule ls n : scalar_laws S -> no_small S -> J <> k0 S -> hs = repeat ls n ->
  StronglySorted Z.lt ls -> length ls <> 2 -> simple g -> n_nodes g = n -> g_edges g <> [] ->
  (sign_rule = Some true -> bip = true) ->
  heisenberg S depth hs g bip J sign_rule = Err RuntimeError.
Proof.
  intros L NS NJ Eh So Hl G N Ne Hb. unfold heisenberg. set (sr := match sign_rule with Some s => s | None => bip end).
  assert (B : sr && negb bip = false).
  { unfold sr. destruct sign_rule as [[|]|]; [rewrite Hb; reflexivity|reflexivity|destruct bip; reflexivity]. }
  rewrite B. unfold graph_operator.
  assert (Ln : n_nodes g = length hs) by (rewrite Eh, repeat_length; exact N). rewrite Ln, Nat.eqb_refl.
  cbn [negb length Nat.eqb andb bond_terms Nat.ltb Nat.leb bind]. unfold edges.
  destruct G as [_ F]. destruct (g_edges g) as [|[u v] es]; [congruence|]. apply Forall_inv in F. cbn [fst snd] in F.
  cbn [site_terms length Nat.ltb Nat.leb app map fst snd]. unfold typed_lop.
  assert (Ss : forallb is_sorted hs = true).
  { apply forallb_forall. intros l I. rewrite Eh in I. apply repeat_spec in I. subst l. clear -So. 
    induction So as [|h t So IH Fh]; [reflexivity|]. destruct t as [|h' t']; [reflexivity|]. cbn [is_sorted] in *.
    rewrite IH. apply Forall_inv in Fh. rewrite andb_true_r. apply negb_true_iff, Z.ltb_ge; lia. }
  rewrite Ss. cbn [negb filter snd fold_left bind fst andb].
  assert (A : add_operator S depth hs (mkLop S [] [] [] [] (k0 S) (kbige S (k0 S)) true)
                (map (map (fun k => kmul S J k)) (heis_term S sr)) [u; v] = Err RuntimeError).
  { unfold add_operator.
    assert (E1 : nodupb [u; v] = true) by (cbn; destruct (Nat.eqb_spec u v); [lia|]; destruct (Nat.eqb_spec v u); [lia|]; reflexivity).
    rewrite E1. cbn [negb existsb].
    assert (E2 : (length hs <=? u) = false) by (apply Nat.leb_gt; lia).
    assert (E3 : (length hs <=? v) = false) by (apply Nat.leb_gt; lia).
    rewrite E2, E3. cbn [orb].
    assert (E4 : forallb (forallb (fun k => negb (kbige S k))) (map (map (fun k => kmul S J k)) (heis_term S sr)) = false).
    { assert (X : kbige S (kmul S J (k1 S)) = true).
      { assert (EJ : kmul S J (k1 S) = J) by (rewrite (Rmul_comm (k_ring S L)); apply (Rmul_1_l (k_ring S L))). rewrite EJ.
        destruct (kbige S J) eqn:E; [reflexivity|]. exfalso. apply NJ, NS. destruct (kbig S J) eqn:E'; [|reflexivity].
        apply (k_big_bige S L) in E'. congruence. }
      assert (X1 : exists r m, heis_term S sr = (kadd S (k1 S) (k0 S) :: r) :: m \/ heis_term S sr = (ksub S (k1 S) (k0 S) :: r) :: m).
      { destruct sr; eexists; eexists; [right|left]; reflexivity. }
      assert (P1 : kadd S (k1 S) (k0 S) = k1 S) by (rewrite (Radd_comm (k_ring S L)); apply (Radd_0_l (k_ring S L))).
      assert (P2 : ksub S (k1 S) (k0 S) = k1 S).
      { rewrite (Rsub_def (k_ring S L)). transitivity (kadd S (k0 S) (kadd S (k1 S) (kopp S (k0 S)))).
        - symmetry. apply (Radd_0_l (k_ring S L)).
        - rewrite (Radd_comm (k_ring S L)), <- (Radd_assoc (k_ring S L)), (Radd_comm (k_ring S L) (kopp S (k0 S))), (Ropp_def (k_ring S L)). exact P1. }
      destruct X1 as [r [m [X1|X1]]]; rewrite X1; cbn [map forallb]; rewrite ?P1, ?P2, X; reflexivity. }
    rewrite E4.
    rewrite (reorder_sorted S depth) by (repeat constructor; lia).
    cbn [bind fst snd lo_act find_support lss_of map].
    assert (E6 : forall w, w < length hs -> nth w hs [] = ls).
    { intros w Hw. rewrite Eh in *. rewrite nth_indep with (d' := ls) by exact Hw. apply nth_repeat. }
    rewrite !E6 by lia. 
    assert (E7 : (nrows S (map (map (fun k => kmul S J k)) (heis_term S sr)) =? nprod [length ls; length ls]) = false).
    { replace (nrows S _) with 4 by (destruct sr; reflexivity). apply Nat.eqb_neq. unfold nprod. cbn [fold_right fold_left].
      destruct (length ls) as [|[|[|k]]]; cbn; lia. }
    rewrite E7. reflexivity. }
  rewrite A. apply fold_err. reflexivity.
Qed.
End Errors.

(** ** The matrix of a bond is sigma . sigma *)
Local Open Scope R_scope.
Lemma pauli_bond i j k l : (i < 2)%nat -> (j < 2)%nat -> (k < 2)%nat -> (l < 2)%nat ->
  entry (cscal 0) (heis_term (cscal 0) false) (2 * i + j) (2 * k + l) =
  cadd (cadd (cmul (of_rows (sigmax_mat 2) i k) (of_rows (sigmax_mat 2) j l))
             (cmul (of_rows (sigmay_mat 2) i k) (of_rows (sigmay_mat 2) j l)))
       (cmul (of_rows (sigmaz_mat 2) i k) (of_rows (sigmaz_mat 2) j l)).
Proof.
  intros Hi Hj Hk Hl.
  rewrite (rz 2 i k), (rz 2 j l), (rx 2 (Nat.lt_0_succ 1) i k), (rx 2 (Nat.lt_0_succ 1) j l),
    (ry 2 (Nat.lt_0_succ 1) i k), (ry 2 (Nat.lt_0_succ 1) j l) by lia.
  unfold Zd, diagonal, Xo, Yo, oadd, osub, oscale, P, M, up, down.
  destruct i as [|[|i]]; try (exfalso; lia); destruct j as [|[|j]]; try (exfalso; lia);
  destruct k as [|[|k]]; try (exfalso; lia); destruct l as [|[|l]]; try (exfalso; lia);
  cbn [Nat.eqb Nat.mul Nat.add]; unfold cadd, csub, cmul, ci; cbn [fst snd INR]; rewrite ?amp_2_1;
  cbv [entry heis_term mzip sz_sz exchange combine map nth fst snd]; cbn; f_equal; ring.
Qed.

(** ** Statements for graphs made from edge lists *)
Local Open Scope nat_scope.
Lemma graph_row_main S (L : scalar_laws S) (NS : no_small S) depth hs (Hs : sorted_space hs)
  es nodes g (site_ops bond_ops : list (bool * mat S)) colors dtype x junk junkx :
  mk_graph es nodes = Ok g -> no_loops es -> n_nodes g = length hs ->
  colors_ok S bond_ops colors -> kinds_ok S dtype (site_ops ++ bond_ops) ->
  sizes_ok S hs (edges_with_color g None) (map snd site_ops) (bond_spec S bond_ops colors) ->
  configuration hs x ->
  exists o, graph_operator S (Datatypes.S depth) hs g site_ops bond_ops colors dtype = Ok o /\
    row_or_fault S hs
      (graph_element S hs (map snd site_ops) (bond_spec S bond_ops colors) (edges_with_color g None) x)
      (get_conn S hs o junk junkx x).
Proof. intros E NL. intros. apply graph_row; auto. eapply mk_graph_simple; eassumption. Qed.

Lemma heis_row_main S (L : scalar_laws S) (NS : no_small S) depth a b (Hab : (a < b)%Z)
  es nodes g bip J sign_rule x junk junkx :
  mk_graph es nodes = Ok g -> no_loops es ->
  (sign_rule = Some true -> bip = true) -> configuration (repeat [a; b] (n_nodes g)) x ->
  exists o, heisenberg S (Datatypes.S depth) (repeat [a; b] (n_nodes g)) g bip J sign_rule = Ok o /\
    row_or_fault S (repeat [a; b] (n_nodes g))
      (heis_element S (if match sign_rule with Some s => s | None => bip end then kopp S else fun k => k)
         J (edges g None) x)
      (get_conn S (repeat [a; b] (n_nodes g)) o junk junkx x).
Proof. intros E NL. intros. apply heis_row; auto. eapply mk_graph_simple; eassumption. Qed.

Lemma perm_dec (x y : list Z) : {Permutation x y} + {~ Permutation x y}.
Proof.
  destruct (Forall_dec (fun z => count_occ Z.eq_dec x z = count_occ Z.eq_dec y z)
              (fun z => Nat.eq_dec _ _) (x ++ y)) as [F|F]; [left|right].
  - apply (Permutation_count_occ Z.eq_dec). intros z.
    destruct (in_dec Z.eq_dec z (x ++ y)) as [I|I].
    + rewrite Forall_forall in F. apply F, I.
    + assert (I1 : ~ In z x) by (intros K; apply I, in_app_iff; auto).
      assert (I2 : ~ In z y) by (intros K; apply I, in_app_iff; auto).
      apply (count_occ_not_In Z.eq_dec) in I1, I2. congruence.
  - intros P. apply F, Forall_forall. intros z _. apply (Permutation_count_occ Z.eq_dec), P.
Qed.

Lemma simple_range g (x : list Z) : simple g -> length x = n_nodes g ->
  Forall (fun e => fst e < length x /\ snd e < length x) (edges g None).
Proof. intros [_ F] E. eapply Forall_impl; [|exact F]. intros e H. cbn beta in *. lia. Qed.

Lemma heis_conserves S (L : scalar_laws S) (NS : no_small S) depth a b (Hab : (a < b)%Z)
  es nodes g bip J sign_rule x junk junkx o l y :
  mk_graph es nodes = Ok g -> no_loops es -> configuration (repeat [a; b] (n_nodes g)) x ->
  heisenberg S (Datatypes.S depth) (repeat [a; b] (n_nodes g)) g bip J sign_rule = Ok o ->
  get_conn S (repeat [a; b] (n_nodes g)) o junk junkx x = Ok l ->
  configuration (repeat [a; b] (n_nodes g)) y -> weight S l y <> k0 S -> Permutation x y.
Proof.
  intros E NL Cx Eo El Cy W. pose proof (mk_graph_simple _ _ _ E NL) as G.
  assert (Hb : sign_rule = Some true -> bip = true).
  { intros ->. destruct bip; [reflexivity|]. cbn in Eo. discriminate. }
  destruct (heis_row S L depth a b Hab (n_nodes g) g bip J sign_rule x junk junkx NS G eq_refl Hb Cx) as [o' [Eo' R]].
  rewrite Eo in Eo'. injection Eo' as <-. rewrite El in R. destruct R as [_ R]. rewrite R in W by exact Cy.
  destruct (perm_dec x y) as [|N]; [assumption|]. exfalso. apply W. apply (heis_not_perm S L); [|exact N].
  apply simple_range; [exact G|]. apply configuration_length in Cx. rewrite repeat_length in Cx. exact Cx.
Qed.

Lemma heis_hermitian S (L : scalar_laws S) es nodes g flip J x y :
  mk_graph es nodes = Ok g -> no_loops es -> length x = n_nodes g -> length y = n_nodes g ->
  heis_element S flip J (edges g None) x y = heis_element S flip J (edges g None) y x.
Proof.
  intros E NL Lx Ly. apply (heis_sym S); [congruence|].
  apply simple_range; [eapply mk_graph_simple; eassumption|exact Lx].
Qed.

Lemma heis_sign_rule S (L : scalar_laws S) es nodes g J a b c x y : a <> b ->
  mk_graph es nodes = Ok g -> no_loops es -> length x = n_nodes g ->
  Forall (fun v => v = a \/ v = b) x -> bipartition c (edges g None) ->
  heis_element S (kopp S) J (edges g None) x y =
  kmul S (kmul S (marshall S a c x) (heis_element S (fun k => k) J (edges g None) x y)) (marshall S a c y).
Proof.
  intros Hab E NL Lx V B. apply (heis_marshall S L a b); auto.
  apply simple_range; [eapply mk_graph_simple; eassumption|exact Lx].
Qed.

Lemma heis_wrong S (L : scalar_laws S) (NS : no_small S) depth ls (Hs : StronglySorted Z.lt ls)
  es nodes g bip J sign_rule : 
  mk_graph es nodes = Ok g -> no_loops es -> es <> [] -> J <> k0 S -> length ls <> 2 ->
  (sign_rule = Some true -> bip = true) ->
  heisenberg S depth (repeat ls (n_nodes g)) g bip J sign_rule = Err RuntimeError.
Proof.
  intros E NL Ne NJ Hl Hb. apply heis_wrong_size with (ls := ls) (n := n_nodes g); auto.
  - eapply mk_graph_simple; eassumption.
  - apply mk_graph_inv in E. destruct E as [_ [_ [_ [-> _]]]]. destruct es; [congruence|discriminate].
Qed.
