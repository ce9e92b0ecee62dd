(** * Proofs about the Bose-Hubbard Hamiltonian *)
From Coq Require Import ZArith List Bool Lia Sorting.Sorted Ring Permutation.
From Verif Require Import Base BaseFacts Scalar LocalOp_Spec LocalOp_Model LocalOp_Facts LocalOp_Kernel
  LocalOp_Build LocalOp_Matmul LocalOp_Proofs LocalOp_Final Special_Model Special_Spec Special_Proofs.
Import ListNotations.

Section Bose.
Variable S : scalars.
Hypothesis L : scalar_laws S.
Notation K := (K S).
Notation "0" := (k0 S).
Notation "1" := (k1 S).
Infix "+" := (kadd S).
Infix "*" := (kmul S).
Infix "-" := (ksub S).
Notation "- x" := (kopp S x).
Add Ring Kring : (k_ring S L).

Variable rt : Z -> K.
Variable o : bose S.
Notation n := (bh_n S o).
Notation nm := (bh_nmax S o).
Notation hs := (occupations n nm).
Hypothesis He : edges_ok n (bh_edges S o).
Notation bhe Uh := (bh_element S rt n (bh_edges S o) Uh (bh_V S o) (bh_J S o) (bh_mu S o)).

Lemma occ_sorted : sorted_space hs.
Proof. apply Forall_forall. intros l Hl. apply repeat_spec in Hl. subst. apply zrange_sorted. Qed.

Lemma occ_length : length hs = n.
Proof. apply repeat_length. Qed.

Lemma occ_nth i : (i < n)%nat -> nth i hs [] = zrange (nm + 1).
Proof. intros H. apply (repeat_spec n (zrange (nm + 1))). apply nth_In. rewrite repeat_length; auto. Qed.

Lemma occ_iff x : configuration hs x <->
  length x = n /\ forall i, (i < n)%nat -> (0 <= nth i x 0 <= nm)%Z.
Proof.
  rewrite configuration_iff, occ_length. split; intros [H1 H2]; (split; [auto|]); intros i Hi.
  - specialize (H2 i). rewrite occ_nth in H2 by auto. rewrite in_zrange in H2. specialize (H2 Hi). lia.
  - rewrite occ_nth by auto. rewrite in_zrange. specialize (H2 i Hi). lia.
Qed.

Lemma edge_ok e : In e (bh_edges S o) -> (fst e < n /\ snd e < n /\ fst e <> snd e)%nat.
Proof. intros H. unfold edges_ok in He. rewrite Forall_forall in He. auto. Qed.

Definition moved (x : list Z) (a b : nat) : list Z :=
  upd (upd x a (nth a x 0 - 1)%Z) b (nth b (upd x a (nth a x 0 - 1)%Z) 0 + 1)%Z.

Lemma moved_eq x a b : a <> b -> moved x a b = upd (upd x a (nth a x 0 - 1)%Z) b (nth b x 0 + 1)%Z.
Proof. intros H. unfold moved. rewrite nth_upd_other by auto. reflexivity. Qed.

Lemma moved_config x a b : configuration hs x -> (a < n)%nat -> (b < n)%nat -> a <> b ->
  (0 < nth a x 0)%Z -> (nth b x 0 < nm)%Z -> configuration hs (moved x a b).
Proof.
  intros Hx Ha Hb Hab H1 H2. rewrite moved_eq by auto. apply occ_iff in Hx. destruct Hx as [Lx Hx].
  apply occ_iff. rewrite !upd_length. split; auto. intros i Hi.
  pose proof (Hx i Hi). pose proof (Hx a Ha). pose proof (Hx b Hb).
  destruct (Nat.eq_dec b i) as [<-|Hbi]; [rewrite nth_upd_same by (rewrite upd_length; lia); lia|].
  rewrite nth_upd_other by auto. destruct (Nat.eq_dec a i) as [<-|Hai]; [rewrite nth_upd_same by lia; lia|].
  rewrite nth_upd_other by auto. lia.
Qed.

Lemma moved_sum x a b : length x = n -> (a < n)%nat -> (b < n)%nat -> a <> b -> zsum (moved x a b) = zsum x.
Proof.
  intros Lx Ha Hb Hab. rewrite moved_eq by auto. rewrite zsum_upd by (rewrite upd_length; lia).
  rewrite zsum_upd by lia. rewrite nth_upd_other by auto. lia.
Qed.

(** one hop *)
Lemma hop_weight x y a b : configuration hs x -> configuration hs y ->
  (a < n)%nat -> (b < n)%nat -> a <> b ->
  weight S (if (0 <? nth a x 0)%Z && (nth b x 0 <? nm)%Z
            then [(moved x a b, - bh_J S o * rt (nth a x 0%Z) * rt (nth b x 0 + 1)%Z)] else []) y =
  - (bh_J S o * hop S rt a b x y).
Proof.
  intros Hx Hy Ha Hb Hab. pose proof Hx as Hx'. pose proof Hy as Hy'.
  apply occ_iff in Hx'. apply occ_iff in Hy'. destruct Hx' as [Lx Bx]. destruct Hy' as [Ly By].
  unfold hop.
  destruct (Z.ltb_spec 0%Z (nth a x 0%Z)) as [H1|H1]; cbn [andb].
  - destruct (Z.ltb_spec (nth b x 0%Z) nm) as [H2|H2]; cbn [andb].
    + rewrite weight_cons. cbn [fst snd]. rewrite moved_eq by auto.
      rewrite upd2_eqb by (auto; lia). unfold weight. cbn [map sum fold_right].
      destruct (same_elsewhere [a; b] x y); cbn [andb]; [|ring].
      destruct (Z.eqb_spec (nth a x 0 - 1)%Z (nth a y 0)%Z) as [Ea|Ea];
      destruct (Z.eqb_spec (nth a x 0)%Z (nth a y 0 + 1)%Z) as [Ea'|Ea']; try lia; cbn [andb]; [|ring].
      destruct (Z.eqb_spec (nth b x 0 + 1)%Z (nth b y 0)%Z) as [Eb|Eb];
      destruct (Z.eqb_spec (nth b y 0)%Z (nth b x 0 + 1)%Z) as [Eb'|Eb']; try lia; cbn [andb]; [|ring].
      rewrite <- Eb. ring.
    + unfold weight. cbn [map sum fold_right].
      destruct (Z.eqb_spec (nth b y 0)%Z (nth b x 0 + 1)%Z) as [Eb'|Eb']; [pose proof (By b Hb); lia|].
      rewrite andb_false_r. ring.
  - unfold weight. cbn [map sum fold_right].
    destruct (Z.eqb_spec (nth a x 0)%Z (nth a y 0 + 1)%Z) as [Ea'|Ea']; [pose proof (By a Ha); lia|].
    rewrite andb_false_r. cbn [andb]. ring.
Qed.

Lemma hops_weight x y e : configuration hs x -> configuration hs y -> In e (bh_edges S o) ->
  weight S (bh_hops S rt o x e) y =
  - (bh_J S o * (hop S rt (fst e) (snd e) x y + hop S rt (snd e) (fst e) x y)).
Proof.
  intros Hx Hy Hin. destruct (edge_ok e Hin) as (H1 & H2 & H3).
  unfold bh_hops. rewrite (weight_app S L).
  pose proof (hop_weight x y (fst e) (snd e) Hx Hy H1 H2 H3) as G1.
  pose proof (hop_weight x y (snd e) (fst e) Hx Hy H2 H1 (fun C => H3 (eq_sym C))) as G2.
  unfold moved in G1, G2. cbv zeta. rewrite G1, G2. ring.
Qed.

Lemma fold_diag (f g : nat -> K) l : forall a,
  fold_left (fun acc i => acc - f i + g i) l a = a + sum S (map (fun i => g i - f i) l).
Proof.
  induction l as [|i l IH]; intros a; cbn [fold_left map sum fold_right]; [ring|].
  rewrite IH. unfold sum. ring.
Qed.

Lemma bh_row_ok x : configuration hs x -> is_row S hs (bhe (bh_Uh S o) x) (bh_row S rt o x).
Proof.
  intros Hx. pose proof Hx as Hx'. apply occ_iff in Hx'. destruct Hx' as [Lx Bx]. split.
  - intros p [<-|Hp]; [exact Hx|]. apply in_flat_map in Hp. destruct Hp as (e & Hin & Hp).
    destruct (edge_ok e Hin) as (H1 & H2 & H3).
    unfold bh_hops in Hp. apply in_app_iff in Hp. destruct Hp as [Hp|Hp].
    + destruct ((0 <? _)%Z && _) eqn:E in Hp; [|destruct Hp]. destruct Hp as [<-|[]].
      apply andb_true_iff in E. rewrite !Z.ltb_lt in E. apply (moved_config x (fst e) (snd e)); tauto.
    + destruct ((0 <? _)%Z && _) eqn:E in Hp; [|destruct Hp]. destruct Hp as [<-|[]].
      apply andb_true_iff in E. rewrite !Z.ltb_lt in E. apply (moved_config x (snd e) (fst e)); auto; tauto.
  - intros y Hy. unfold bh_row. rewrite weight_cons, (weight_flat_map S L). cbn [fst snd].
    rewrite (sum_ext S _ _ _ (fun e => hops_weight x y e Hx Hy)).
    unfold bh_element, bh_diag. cbv zeta. rewrite fold_diag, (fold_add S L), Lx.
    f_equal. destruct (zlist_eqb x y); [|reflexivity].
    rewrite (sum_ext S _ (fun i => bh_Uh S o * (kz S (nth i x 0%Z) * (kz S (nth i x 0%Z) - 1)) - bh_mu S o * kz S (nth i x 0%Z)))
      by (intros; ring).
    rewrite (sum_ext S (fun e => bh_V S o * kz S (nth (fst e) x 0%Z) * kz S (nth (snd e) x 0%Z))
      (fun e => bh_V S o * (kz S (nth (fst e) x 0%Z) * kz S (nth (snd e) x 0%Z)))) by (intros; ring).
    ring.
Qed.

Lemma bh_row_sum x p : length x = n -> In p (bh_row S rt o x) -> zsum (fst p) = zsum x.
Proof.
  intros Lx [<-|Hp]; [reflexivity|]. apply in_flat_map in Hp. destruct Hp as (e & Hin & Hp).
  destruct (edge_ok e Hin) as (H1 & H2 & H3).
  unfold bh_hops in Hp. apply in_app_iff in Hp. destruct Hp as [Hp|Hp];
    (destruct ((0 <? _)%Z && _) in Hp; [|destruct Hp]); destruct Hp as [<-|[]]; cbn [fst].
  - apply (moved_sum x (fst e) (snd e)); auto.
  - apply (moved_sum x (snd e) (fst e)); auto.
Qed.

Lemma bh_row_length x : (length (bh_row S rt o x) <= bh_max_conn S o)%nat.
Proof.
  unfold bh_row, bh_max_conn. cbn [length]. clear He. induction (bh_edges S o) as [|e l IH]; cbn [flat_map length]; [lia|].
  rewrite app_length. assert (length (bh_hops S rt o x e) <= 2)%nat; [|lia].
  unfold bh_hops. rewrite app_length. destruct (_ && _), (_ && _); cbn [length]; lia.
Qed.

Lemma bh_get_conn_ok mels xp x : length mels = length xp -> (bh_max_conn S o <= length mels)%nat ->
  bh_get_conn S rt o mels xp x = Ok (bh_row S rt o x).
Proof.
  intros E H. unfold bh_get_conn. pose proof (bh_row_length x) as HL.
  rewrite (put_row_ok S) by (auto; lia). cbn [bind fst snd Nat.add].
  pose proof (firstn_splice mels (map snd (bh_row S rt o x)) 0) as F1.
  pose proof (firstn_splice xp (map fst (bh_row S rt o x)) 0) as F2.
  rewrite map_length in F1, F2. cbn [Nat.add firstn app] in F1, F2. rewrite F1, F2 by lia.
  f_equal. clear. induction (bh_row S rt o x) as [|[y w] l IH]; cbn; congruence.
Qed.

Lemma concat_bound {A B} (f : A -> list B) m xs : (forall x, (length (f x) <= m)%nat) ->
  (length (concat (map f xs)) <= length xs * m)%nat.
Proof.
  intros H. induction xs as [|x xs IH]; cbn [map concat length]; auto.
  rewrite app_length. specialize (H x). lia.
Qed.

Lemma bh_flattened_ok mels xp junk junkx xs : bh_edges S o <> [] -> length mels = length xp ->
  exists m' x', bh_flattened S rt o false mels xp junk junkx xs =
    Ok ((map snd (concat (map (bh_row S rt o) xs)), map fst (concat (map (bh_row S rt o) xs)),
         ends 0 (map (fun x => length (bh_row S rt o x)) xs)), (m', x')) /\
    length m' = length x' /\ (length mels <= length m')%nat.
Proof.
  clear He. intros Hne E. unfold bh_flattened. destruct (bh_edges S o) eqn:Ee; [congruence|]. cbv zeta.
  set (tot := (length xs * bh_max_conn S o)%nat).
  assert (HB : (length (concat (map (bh_row S rt o) xs)) <= tot)%nat) by (apply concat_bound; apply bh_row_length).
  set (m0 := if (length mels <? tot)%nat then map junk (seq 0 tot) else mels).
  set (x0 := if (length mels <? tot)%nat then map junkx (seq 0 tot) else xp).
  assert (HL : (tot <= length m0)%nat /\ length m0 = length x0 /\ (length mels <= length m0)%nat).
  { unfold m0, x0. destruct (Nat.ltb_spec (length mels) tot); rewrite ?map_length, ?seq_length; lia. }
  destruct HL as (HL1 & HL2 & HL3).
  destruct (put_batch_flat S (bh_row S rt o) xs 0 0 m0 x0 []) as (m' & x' & E1 & E2 & E3 & E4 & E5); [lia|auto|].
  rewrite E1. cbn [bind fst snd app]. cbn [Nat.add firstn app] in *. rewrite E4, E5.
  exists m', x'. split; [reflexivity|]. lia.
Qed.

Lemma map_const {A B} (z : B) (l : list A) : map (fun _ => z) l = repeat z (length l).
Proof. induction l; cbn; congruence. Qed.

Lemma bh_padded_ok mels xp junk junkx xs : bh_edges S o <> [] -> length mels = length xp ->
  exists m' x', bh_flattened S rt o true mels xp junk junkx xs =
    Ok ((concat (map (fun x => padded 0 (bh_max_conn S o) (map snd (bh_row S rt o x))) xs),
         concat (map (fun x => padded (repeat 0%Z n) (bh_max_conn S o) (map fst (bh_row S rt o x))) xs),
         map (fun k => ((k + 1) * bh_max_conn S o)%nat) (seq 0 (length xs))), (m', x')) /\
    length m' = length x' /\ (length mels <= length m')%nat.
Proof.
  clear He. intros Hne E. unfold bh_flattened. destruct (bh_edges S o) eqn:Ee; [congruence|]. cbv zeta.
  set (tot := (length xs * bh_max_conn S o)%nat).
  set (m0 := if (length mels <? tot)%nat then map junk (seq 0 tot) else mels).
  set (x0 := if (length mels <? tot)%nat then map junkx (seq 0 tot) else xp).
  assert (HL : (tot <= length m0)%nat /\ length m0 = length x0 /\ (length mels <= length m0)%nat).
  { unfold m0, x0. destruct (Nat.ltb_spec (length mels) tot); rewrite ?map_length, ?seq_length; lia. }
  destruct HL as (HL1 & HL2 & HL3).
  rewrite !map_const, <- HL2. replace (length m0) with (tot + (length m0 - tot))%nat by lia.
  pose proof (put_batch_padded S (bh_row S rt o) (bh_max_conn S o) 0 (repeat 0%Z n) xs) as HP.
  specialize (HP (proj2 (Forall_forall _ _) (fun x _ => bh_row_length x)) 0%nat [] []
                 (length m0 - tot)%nat eq_refl eq_refl []).
  cbn [app Nat.mul Nat.add] in HP. fold tot in HP. rewrite HP. cbn [bind fst snd]. clear HP.
  assert (EL : forall A (z : A) (f : list Z * K -> A),
    length (concat (map (fun x => padded z (bh_max_conn S o) (map f (bh_row S rt o x))) xs)) = tot).
  { intros A z f. apply concat_const. intros x _. unfold padded.
    rewrite app_length, repeat_length, map_length. pose proof (bh_row_length x). lia. }
  assert (EF : forall A (z : A) (f : list Z * K -> A) r,
    firstn tot (concat (map (fun x => padded z (bh_max_conn S o) (map f (bh_row S rt o x))) xs) ++ r) =
    concat (map (fun x => padded z (bh_max_conn S o) (map f (bh_row S rt o x))) xs)).
  { intros A z f r. rewrite firstn_app, EL, Nat.sub_diag. cbn [firstn]. rewrite app_nil_r.
    apply firstn_all2. rewrite EL. lia. }
  rewrite !EF. eexists. eexists. split; [reflexivity|]. rewrite !app_length, !EL, !repeat_length. lia.
Qed.

(** ** Symmetry *)
Lemma same_elsewhere_sym act x y : length x = length y -> same_elsewhere act x y = same_elsewhere act y x.
Proof.
  intros E. apply eq_true_iff_eq. rewrite !same_elsewhere_iff, E. split; intros H i Hi Hn; symmetry; auto.
Qed.

Lemma same_elsewhere_swap a b x y : same_elsewhere [a; b] x y = same_elsewhere [b; a] x y.
Proof.
  apply eq_true_iff_eq. rewrite !same_elsewhere_iff. cbn [In].
  split; intros H i Hi Hn; apply H; auto; tauto.
Qed.

Lemma hop_sym a b x y : length x = length y -> hop S rt a b x y = hop S rt b a y x.
Proof.
  intros E. unfold hop. rewrite (same_elsewhere_sym [b; a] y x) by auto.
  rewrite (same_elsewhere_swap b a). destruct (same_elsewhere [a; b] x y); cbn [andb]; auto.
  rewrite andb_comm. destruct (_ && _); ring.
Qed.

Lemma bh_symmetric Uh x y : length x = length y -> bhe Uh x y = bhe Uh y x.
Proof.
  intros E. unfold bh_element. rewrite (zlist_eqb_sym y x). f_equal.
  - destruct (zlist_eqb x y) eqn:Exy; auto. apply zlist_eqb_eq in Exy. subst. reflexivity.
  - apply (sum_ext S). intros e _. rewrite (hop_sym (fst e) (snd e) x y), (hop_sym (snd e) (fst e) x y) by auto.
    ring.
Qed.

(** ** The local operator *)
Lemma pos_zrange d v : (0 <= v < d)%Z -> pos_in (zrange d) v = Z.to_nat v.
Proof.
  intros H. transitivity (pos_in (zrange d) (nth (Z.to_nat v) (zrange d) 0%Z)).
  - rewrite zrange_nth by lia. f_equal. lia.
  - apply nth_pos_in; [|rewrite zrange_length; lia].
    pose proof (zrange_sorted d) as HS. clear - HS. induction HS as [|a l H1 IH H2]; constructor; auto.
    intros C. rewrite Forall_forall in H2. specialize (H2 a C). lia.
Qed.

Notation d := (Z.to_nat (nm + 1)).

Lemma occ_dim i : (i < n)%nat -> length (nth i hs []) = d.
Proof. intros H. rewrite occ_nth by auto. apply zrange_length. Qed.

Lemma pos_occ i x : configuration hs x -> (i < n)%nat -> pos_in (nth i hs []) (nth i x 0%Z) = Z.to_nat (nth i x 0%Z).
Proof.
  intros Hx Hi. rewrite occ_nth by auto. apply occ_iff in Hx. destruct Hx as [_ Hx]. specialize (Hx i Hi).
  apply pos_zrange. lia.
Qed.

Lemma number_term i x y : configuration hs x -> configuration hs y -> (i < n)%nat ->
  denote S hs (site_op S (number S d) i) x y = delta S x y (kz S (nth i x 0%Z)).
Proof.
  intros Hx Hy Hi. rewrite (new_one S L).
  rewrite (diag_site S hs _ i x y (fun p => kz S (Z.of_nat p))); auto; [|rewrite occ_length; auto|].
  - rewrite pos_occ by auto. rewrite Z2Nat.id; auto. apply occ_iff in Hx. destruct Hx as [_ Hx]. apply Hx; auto.
  - rewrite occ_dim by auto. intros p q Hp Hq. unfold number. rewrite mbuild_get by auto. reflexivity.
Qed.

Lemma onsite_term i x y U mu : configuration hs x -> configuration hs y -> (i < n)%nat ->
  denote S hs (Minus S (Matmul S (Times S (site_op S (number S d) i) U)
                                 (PlusNum S (site_op S (number S d) i) (- (1))))
                       (Times S (site_op S (number S d) i) mu)) x y =
  delta S x y (U * (kz S (nth i x 0%Z) * (kz S (nth i x 0%Z) - 1)) - mu * kz S (nth i x 0%Z)).
Proof.
  intros Hx Hy Hi.
  change (comp S hs (denote S hs (Times S (site_op S (number S d) i) U))
    (denote S hs (PlusNum S (site_op S (number S d) i) (- (1)))) x y -
    denote S hs (site_op S (number S d) i) x y * mu = 
    delta S x y (U * (kz S (nth i x 0%Z) * (kz S (nth i x 0%Z) - 1)) - mu * kz S (nth i x 0%Z))).
  rewrite (comp_ext S hs _ (fun a b => delta S a b (kz S (nth i a 0%Z) * U)) _
     (fun a b => delta S a b (kz S (nth i a 0%Z) - 1))); auto.
  - rewrite (comp_diag_l S L hs occ_sorted) by auto. rewrite number_term by auto.
    unfold delta. destruct (zlist_eqb x y); ring.
  - intros z Hz. change (denote S hs (site_op S (number S d) i) x z * U = delta S x z (kz S (nth i x 0%Z) * U)).
    rewrite number_term by auto. unfold delta. destruct (zlist_eqb x z); ring.
  - intros z Hz.
    change (denote S hs (site_op S (number S d) i) z y + delta S z y (- (1)) = delta S z y (kz S (nth i z 0%Z) - 1)).
    rewrite number_term by auto. unfold delta. destruct (zlist_eqb z y); ring.
Qed.

Lemma nn_term i j x y : configuration hs x -> configuration hs y -> (i < n)%nat -> (j < n)%nat -> i <> j ->
  denote S hs (Matmul S (site_op S (number S d) i) (site_op S (number S d) j)) x y =
  delta S x y (kz S (nth i x 0%Z) * kz S (nth j x 0%Z)).
Proof.
  intros Hx Hy Hi Hj Hn. rewrite (matmul_denote S hs).
  rewrite (comp_ext S hs _ (fun a b => delta S a b (kz S (nth i a 0%Z))) _
     (fun a b => delta S a b (kz S (nth j a 0%Z)))); auto.
  - rewrite (comp_diag_l S L hs occ_sorted) by auto. unfold delta. destruct (zlist_eqb x y); ring.
  - intros z Hz. apply number_term; auto.
  - intros z Hz. apply number_term; auto.
Qed.

Lemma hop_term i j x y : configuration hs x -> configuration hs y -> (i < n)%nat -> (j < n)%nat -> i <> j ->
  denote S hs (Matmul S (site_op S (create S rt d) i) (site_op S (destroy S rt d) j)) x y = hop S rt i j x y /\
  denote S hs (Matmul S (site_op S (destroy S rt d) i) (site_op S (create S rt d) j)) x y = hop S rt j i x y.
Proof.
  intros Hx Hy Hi Hj Hn.
  pose proof (proj1 (occ_iff x) Hx) as [_ Bx]. pose proof (proj1 (occ_iff y) Hy) as [_ By].
  pose proof (Bx i Hi). pose proof (Bx j Hj). pose proof (By i Hi). pose proof (By j Hj).
  assert (Hc : forall m, square S (mbuild S d d m) d) by (intros; apply mbuild_square).
  assert (C : forall k z w, (k < n)%nat -> (0 <= nth k z 0 <= nm)%Z -> (0 <= nth k w 0 <= nm)%Z ->
     mget S (create S rt d) (Z.to_nat (nth k z 0%Z)) (Z.to_nat (nth k w 0%Z)) =
     if (nth k z 0 =? nth k w 0 + 1)%Z then rt (nth k z 0%Z) else 0).
  { intros k z w Hk Bz Bw. unfold create. rewrite mbuild_get by lia.
    destruct (Z.eqb_spec (nth k z 0)%Z (nth k w 0 + 1)%Z) as [E|E];
    destruct (Nat.eqb_spec (Z.to_nat (nth k z 0)%Z) (Z.to_nat (nth k w 0)%Z + 1)%nat) as [E'|E']; try lia; auto.
    f_equal. lia. }
  assert (D : forall k z w, (k < n)%nat -> (0 <= nth k z 0 <= nm)%Z -> (0 <= nth k w 0 <= nm)%Z ->
     mget S (destroy S rt d) (Z.to_nat (nth k z 0%Z)) (Z.to_nat (nth k w 0%Z)) =
     if (nth k w 0 =? nth k z 0 + 1)%Z then rt (nth k w 0%Z) else 0).
  { intros k z w Hk Bz Bw. unfold destroy. rewrite mbuild_get by lia.
    destruct (Z.eqb_spec (nth k w 0)%Z (nth k z 0 + 1)%Z) as [E|E];
    destruct (Nat.eqb_spec (Z.to_nat (nth k w 0)%Z) (Z.to_nat (nth k z 0)%Z + 1)%nat) as [E'|E']; try lia; auto.
    f_equal. lia. }
  split; rewrite (product_two S L hs occ_sorted) by (rewrite ?occ_length, ?occ_dim; auto; apply Hc);
    rewrite !pos_occ, C, D by auto; unfold hop; [|rewrite (same_elsewhere_swap j i)];
    destruct (same_elsewhere [i; j] x y); cbn [andb]; auto;
    destruct (_ =? _)%Z; destruct (_ =? _)%Z; cbn [andb]; ring.
Qed.

Variable nonzero : K -> bool.
Hypothesis Hnz : forall k, nonzero k = false -> k = 0.
Hypothesis HJ : nonzero (bh_J S o) = true.

Lemma sum_delta {A} x y (f : A -> K) l : sum S (map (fun a => delta S x y (f a)) l) = delta S x y (sum S (map f l)).
Proof.
  unfold delta. destruct (zlist_eqb x y); auto. apply (sum_zero S L). auto.
Qed.

Lemma fold_pm {A} (f g : A -> expr S) x y l : forall e,
  denote S hs (fold_left (fun e i => Minus S (Plus S e (f i)) (g i)) l e) x y =
  denote S hs e x y + sum S (map (fun i => denote S hs (f i) x y - denote S hs (g i) x y) l).
Proof.
  induction l as [|a l IH]; intros e; cbn [fold_left map sum fold_right]; [ring|].
  rewrite IH. cbn [denote]. unfold sum. ring.
Qed.

Lemma bh_local_denote x y : configuration hs x -> configuration hs y ->
  denote S hs (bh_local S rt nonzero o) x y = bhe (bh_U S o) x y.
Proof.
  intros Hx Hy. unfold bh_local. cbv zeta. rewrite HJ, fold_pm.
  set (e1 := if _ || _ then _ else _).
  assert (E1 : denote S hs e1 x y = delta S x y
    (sum S (map (fun i => bh_U S o * (kz S (nth i x 0%Z) * (kz S (nth i x 0%Z) - 1)) - bh_mu S o * kz S (nth i x 0%Z)) (seq 0 n)))).
  { unfold e1. destruct (nonzero (bh_U S o) || nonzero (bh_mu S o)) eqn:En.
    - rewrite (fold_plus S L), (new_none S L). rewrite <- sum_delta.
      rewrite (sum_ext S _ (fun i => delta S x y (bh_U S o * (kz S (nth i x 0%Z) * (kz S (nth i x 0%Z) - 1)) - bh_mu S o * kz S (nth i x 0%Z)))).
      + ring.
      + intros i Hi. apply in_seq in Hi. apply onsite_term; auto. lia.
    - apply orb_false_iff in En. destruct En as [E1 E2]. rewrite (new_none S L), (Hnz _ E1), (Hnz _ E2).
      unfold delta. destruct (zlist_eqb x y); auto. symmetry. apply (sum_zero S L). intros. ring. }
  rewrite E1. unfold bh_element. cbv zeta.
  rewrite (sum_ext S _ (fun e => delta S x y (bh_V S o * (kz S (nth (fst e) x 0%Z) * kz S (nth (snd e) x 0%Z))) +
    - (bh_J S o * (hop S rt (fst e) (snd e) x y + hop S rt (snd e) (fst e) x y)))).
  - rewrite (sum_add S L), sum_delta. unfold delta. destruct (zlist_eqb x y); ring.
  - intros e Hin. destruct (edge_ok e Hin) as (H1 & H2 & H3).
    destruct (hop_term (fst e) (snd e) x y Hx Hy H1 H2 H3) as [G1 G2].
    pose proof (nn_term (fst e) (snd e) x y Hx Hy H1 H2 H3) as G3.
    change (denote S hs (Matmul S (site_op S (number S d) (fst e)) (site_op S (number S d) (snd e))) x y * bh_V S o -
       (denote S hs (Matmul S (site_op S (destroy S rt d) (fst e)) (site_op S (create S rt d) (snd e))) x y +
        denote S hs (Matmul S (site_op S (create S rt d) (fst e)) (site_op S (destroy S rt d) (snd e))) x y) * bh_J S o =
       delta S x y (bh_V S o * (kz S (nth (fst e) x 0%Z) * kz S (nth (snd e) x 0%Z))) +
       - (bh_J S o * (hop S rt (fst e) (snd e) x y + hop S rt (snd e) (fst e) x y))).
    rewrite G1, G2, G3. unfold delta. destruct (zlist_eqb x y); ring.
Qed.

Lemma bh_local_valid : valid_expr S hs (bh_local S rt nonzero o).
Proof.
  assert (Hc : forall m i, (i < n)%nat -> valid_expr S hs (site_op S (mbuild S d d m) i)).
  { intros m i Hi. apply one_site_valid; [rewrite occ_length; auto|]. rewrite occ_dim by auto. apply mbuild_square. }
  unfold bh_local. cbv zeta.
  assert (V0 : valid_expr S hs (New S 0 [])) by constructor.
  set (e1 := if _ || _ then _ else _).
  assert (V1 : valid_expr S hs e1).
  { unfold e1. destruct (_ || _); auto. apply fold_valid; auto. intros e i Hi V. apply in_seq in Hi.
    assert (Vn : valid_expr S hs (site_op S (number S d) i)) by (apply Hc; lia).
    cbn [valid_expr] in Vn |- *. auto. }
  destruct (nonzero (bh_J S o)); auto. apply fold_valid; auto. intros e p Hp V.
  destruct (edge_ok p Hp) as (Hi & Hj & Hn).
  pose proof (fun m => Hc m (fst p) Hi) as Ci. pose proof (fun m => Hc m (snd p) Hj) as Cj.
  cbn [valid_expr site_op] in *. repeat split; auto; try apply Ci; try apply Cj.
Qed.

Lemma occ_uniform : (0 <= nm)%Z -> uniform_space hs d.
Proof. intros H. split; [lia|]. intros s Hs. rewrite occ_length in Hs. apply occ_dim; auto. Qed.

Lemma bh_local_ok (NS : no_small S) depth : (0 <= nm)%Z -> ((nm + 1) ^ Z.of_nat n <= 2 ^ 31 - 1)%Z ->
  exists lo, build S (Datatypes.S depth) hs (bh_local S rt nonzero o) = Ok lo /\
    forall x junk junkx, configuration hs x ->
    row_or_fault S hs (bhe (bh_U S o) x) (get_conn S hs lo junk junkx x).
Proof.
  intros Hn0 Hd. destruct (build_total S L NS depth hs occ_sorted (bh_local S rt nonzero o)) as [lo E].
  - apply bh_local_valid.
  - right. exists d. split; [apply occ_uniform; auto|]. rewrite occ_length, Z2Nat.id by lia. exact Hd.
  - exists lo. split; auto. intros x junk junkx Hx.
    assert (HR : row_or_fault S hs (denote S hs (bh_local S rt nonzero o) x) (get_conn S hs lo junk junkx x)).
    { apply (expr_row S L depth hs occ_sorted NS); auto; [apply bh_local_valid|].
      right. exists d. apply occ_uniform; auto. }
    unfold row_or_fault, is_row in *. destruct (get_conn S hs lo junk junkx x) as [l|e].
    + destruct HR as [H1 H2]. split; auto. intros y Hy. rewrite H2 by auto. apply bh_local_denote; auto.
    + destruct HR as [H1 H2]. split; auto. intros y Hy. rewrite <- bh_local_denote; auto.
Qed.
End Bose.
