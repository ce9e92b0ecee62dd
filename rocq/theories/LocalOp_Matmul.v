(** * Products of LocalOperators *)
From Coq Require Import ZArith List Bool Lia Permutation Sorting.Sorted Ring.
From Verif Require Import Base BaseFacts Hilbert_Model HilbertOps_Model Scalar
  LocalOp_Model LocalOp_Spec LocalOp_Facts LocalOp_Kernel LocalOp_Reorder LocalOp_Build.
Import ListNotations.

Lemma NoDup_app_comm {A} (a b : list A) : NoDup (a ++ b) -> NoDup (b ++ a).
Proof. intros H. eapply Permutation_NoDup; [apply Permutation_app_comm|auto]. Qed.
Lemma NoDup_app_l' {A} (a b : list A) : NoDup (a ++ b) -> NoDup a.
Proof.
  induction a; simpl; intros H; [constructor|]. inversion H; subst. constructor; auto.
  intros C. apply H2. apply in_app_iff. auto.
Qed.
Lemma NoDup_app_intro {A} (a b : list A) : NoDup a -> NoDup b ->
  (forall s, In s a -> ~ In s b) -> NoDup (a ++ b).
Proof.
  induction 1; simpl; intros Hb H'; auto. constructor.
  - rewrite in_app_iff. intros [C|C]; [auto|]. apply (H' x); auto.
  - apply IHNoDup; auto.
Qed.

Section Matmul.
Variable S : scalars.
Hypothesis L : scalar_laws S.
Notation K := (K S).
Notation "0" := (k0 S).
Notation "1" := (k1 S).
Infix "+" := (kadd S).
Infix "*" := (kmul S).
Add Ring Kring : (k_ring S L).

Variable hs : list (list Z).
Hypothesis Hs : sorted_space hs.

Definition comp (f g : list Z -> list Z -> K) (x y : list Z) : K :=
  sum S (map (fun z => f x z * g z y) (all_configs hs)).

Lemma term_bound m act x y :
  same_elsewhere act x y = true -> term_element S hs m act x y = mget S m (loc_index hs act x) (loc_index hs act y).
Proof. intros E. unfold term_element. rewrite E. reflexivity. Qed.

Lemma term_off m act x y : same_elsewhere act x y = false -> term_element S hs m act x y = 0.
Proof. intros E. unfold term_element. rewrite E. reflexivity. Qed.

Lemma loc_index_sites act x y : x_sites x act = x_sites y act -> loc_index hs act x = loc_index hs act y.
Proof. intros E. rewrite !loc_index_mrank, E. auto. Qed.

Lemma x_sites_ext x y act : (forall s, In s act -> nth s x 0%Z = nth s y 0%Z) ->
  x_sites x act = x_sites y act.
Proof. intros H. apply map_ext_in. auto. Qed.

Lemma kron_square A B da db : square S A da -> square S B db -> (0 < da)%nat -> (0 < db)%nat ->
  square S (kron S A B) (da * db).
Proof.
  intros HA HB H1 H2. unfold kron.
  rewrite (square_nrows S A da), (square_nrows S B db), (square_ncols S A da), (square_ncols S B db) by auto.
  apply mbuild_square.
Qed.

Lemma kron_get A B da db p q p' q' : square S A da -> square S B db ->
  (p < da)%nat -> (p' < da)%nat -> (q < db)%nat -> (q' < db)%nat ->
  mget S (kron S A B) (p * db + q) (p' * db + q') = mget S A p p' * mget S B q q'.
Proof.
  intros HA HB Hp Hp' Hq Hq'. unfold kron.
  rewrite (square_nrows S A da), (square_nrows S B db), (square_ncols S A da), (square_ncols S B db) by (auto; lia).
  rewrite mbuild_get by nia.
  rewrite !Nat.div_add_l by lia. rewrite !(Nat.div_small q), !(Nat.div_small q') by auto.
  rewrite !Nat.add_0_r. rewrite !(Nat.add_comm (_ * db)), !Nat.mod_add by lia.
  rewrite !Nat.mod_small by auto. auto.
Qed.

Section Two.
Variables (x y : list Z).
Hypothesis Hx : configuration hs x.
Hypothesis Hy : configuration hs y.

Lemma kron_term A B a b :
  sites_ok hs (a ++ b) -> square S A (local_dim hs a) -> square S B (local_dim hs b) ->
  term_element S hs (kron S A B) (a ++ b) x y =
  comp (term_element S hs A a) (term_element S hs B b) x y.
Proof.
  intros [HN HI] HA HB.
  assert (Hab : forall s, In s a -> ~ In s b).
  { clear - HN. induction a as [|s a IH]; simpl in *; [tauto|]. inversion HN as [|? ? H1 H2]; subst.
    intros t [<-|Ht]; [|auto]. intros C. apply H1. apply in_app_iff. auto. }
  assert (HNa : NoDup a) by (eapply NoDup_app_l'; eauto).
  assert (HIa : forall s, In s a -> (s < length hs)%nat) by (intros; apply HI, in_app_iff; auto).
  assert (HIb : forall s, In s b -> (s < length hs)%nat) by (intros; apply HI, in_app_iff; auto).
  assert (Lx : length x = length hs) by (apply configuration_length; auto).
  assert (Ly : length y = length hs) by (apply configuration_length; auto).
  set (z0 := put_sites x a (x_sites y a)).
  assert (Hz0 : configuration hs z0).
  { unfold z0. apply put_sites_config; auto; [split; auto|]. apply x_sites_mword; auto. }
  assert (Za : x_sites z0 a = x_sites y a).
  { unfold z0. apply put_sites_get; auto; [intros; rewrite Lx; auto|apply x_sites_length]. }
  assert (Zo : forall i, ~ In i a -> nth i z0 0%Z = nth i x 0%Z).
  { intros. unfold z0. apply put_sites_other; auto. }
  assert (Zi : forall i, In i a -> nth i z0 0%Z = nth i y 0%Z).
  { intros i Hi. revert i Hi. apply map_ext_in_iff. exact Za. }
  unfold comp. rewrite (sum_single S L (list_eq_dec Z.eq_dec) _ _ z0).
  2:{ apply all_configs_nodup; auto. } 2:{ apply all_configs_in; auto. }
  2:{ intros z Hz Hne. apply all_configs_in in Hz.
      destruct (same_elsewhere a x z) eqn:E1; [|rewrite term_off by auto; ring].
      destruct (same_elsewhere b z y) eqn:E2; [|rewrite (term_off B) by auto; ring].
      exfalso. apply Hne. rewrite same_elsewhere_iff in E1, E2.
      pose proof (configuration_length _ _ Hz) as Lz. pose proof (configuration_length _ _ Hz0) as Lz0.
      apply nth_ext_Z; [congruence|]. intros i Hi.
      destruct (in_dec Nat.eq_dec i a) as [Hin|Hout].
      - rewrite Zi by auto. apply E2; auto.
      - rewrite Zo by auto. symmetry. apply E1; auto. lia. }
  assert (E1 : same_elsewhere a x z0 = true) by (unfold z0; apply same_elsewhere_put).
  assert (E2 : same_elsewhere b z0 y = same_elsewhere (a ++ b) x y).
  { apply eq_true_iff_eq. rewrite !same_elsewhere_iff.
    rewrite (configuration_length _ _ Hz0), Lx. split; intros G i Hi Hn.
    - rewrite in_app_iff in Hn. rewrite <- Zo by tauto. apply G; auto.
    - destruct (in_dec Nat.eq_dec i a) as [Hin|Hout]; [apply Zi; auto|].
      rewrite Zo by auto. apply G; auto. rewrite in_app_iff. tauto. }
  rewrite (term_bound A) by auto.
  rewrite (loc_index_sites a z0 y) by auto.
  destruct (same_elsewhere (a ++ b) x y) eqn:E.
  - rewrite !term_bound by auto. rewrite !loc_index_app.
    rewrite (loc_index_sites b z0 x).
    + apply kron_get with (da := local_dim hs a); auto; apply loc_index_lt; auto.
    + apply x_sites_ext. intros s Hin. apply Zo. intros C. apply (Hab s); auto.
  - rewrite !term_off by auto. ring.
Qed.

Lemma matmul_term A B act :
  sites_ok hs act -> square S A (local_dim hs act) -> square S B (local_dim hs act) ->
  term_element S hs (matmul S A B) act x y =
  comp (term_element S hs A act) (term_element S hs B act) x y.
Proof.
  intros Ha HA HB. unfold comp. rewrite (sum_configs S L hs act x); auto.
  2:{ intros z Hz E. rewrite term_off by auto. ring. }
  pose proof Ha as [HN HI].
  pose proof (loc_index_lt hs act x Hx HI) as Bx. pose proof (loc_index_lt hs act y Hy HI) as By.
  assert (E : forall j, same_elsewhere act (move hs act x j) y = same_elsewhere act x y).
  { intros j. apply eq_true_iff_eq. rewrite !same_elsewhere_iff. unfold move.
    rewrite put_sites_length. split; intros G i Hi Hn; specialize (G i Hi Hn);
      rewrite put_sites_other in * by auto; auto. }
  destruct (same_elsewhere act x y) eqn:E0.
  - rewrite term_bound by auto. unfold matmul.
    rewrite (square_nrows S A _ HA), (square_nrows S B _ HB), (square_ncols S B (local_dim hs act)) by (auto; lia).
    rewrite mbuild_get by auto. rewrite ksum_sum. apply (sum_ext S). intros j Hj. apply in_seq in Hj.
    rewrite !term_bound by (auto; apply move_same).
    rewrite !move_index by (auto; lia). auto.
  - rewrite term_off by auto. symmetry. apply (sum_zero S L). intros j Hj.
    rewrite (term_off B) by auto. ring.
Qed.

Lemma matmul_square A B d : square S A d -> square S B d -> (0 < d)%nat -> square S (matmul S A B) d.
Proof.
  intros HA HB Hd. unfold matmul. rewrite (square_nrows S A d), (square_ncols S B d) by auto.
  apply mbuild_square.
Qed.

Lemma eye_term s : (s < length hs)%nat ->
  term_element S hs (eye S (length (nth s hs []))) [s] x y = delta S x y 1.
Proof.
  intros Hsn.
  assert (Ha : sites_ok hs [s]).
  { split; [constructor; [simpl; tauto|constructor]|]. intros t [<-|[]]; auto. }
  assert (ED : local_dim hs [s] = length (nth s hs [])) by (unfold local_dim; simpl; lia).
  pose proof (loc_index_lt hs [s] x Hx (proj2 Ha)) as Bx.
  pose proof (loc_index_lt hs [s] y Hy (proj2 Ha)) as By. rewrite ED in *.
  unfold delta. destruct (zlist_eqb x y) eqn:Exy.
  - apply zlist_eqb_eq in Exy. subst y. rewrite term_bound by apply same_elsewhere_refl.
    unfold eye. rewrite mbuild_get by auto. rewrite Nat.eqb_refl. auto.
  - destruct (same_elsewhere [s] x y) eqn:E; [|apply term_off; auto].
    rewrite term_bound by auto. unfold eye. rewrite mbuild_get by auto.
    destruct (Nat.eqb_spec (loc_index hs [s] x) (loc_index hs [s] y)) as [C|]; auto.
    apply zlist_eqb_false in Exy. exfalso. apply Exy. eapply index_inj; eauto.
Qed.

End Two.

(** composition with the identity *)
Lemma comp_ext f f' g g' x y : configuration hs x -> configuration hs y ->
  (forall z, configuration hs z -> f x z = f' x z) ->
  (forall z, configuration hs z -> g z y = g' z y) -> comp f g x y = comp f' g' x y.
Proof.
  intros Hx Hy H1 H2. unfold comp. apply (sum_ext S). intros z Hz. apply all_configs_in in Hz.
  rewrite H1, H2 by auto. auto.
Qed.

Lemma comp_delta_r f c x y : configuration hs y -> comp f (fun a b => delta S a b c) x y = f x y * c.
Proof.
  intros Hy. unfold comp. rewrite (sum_single S L (list_eq_dec Z.eq_dec) _ _ y).
  - unfold delta. rewrite zlist_eqb_refl. auto.
  - apply all_configs_nodup; auto.
  - apply all_configs_in; auto.
  - intros z _ Hne. unfold delta. destruct (zlist_eqb z y) eqn:E; [|ring].
    apply zlist_eqb_eq in E. congruence.
Qed.

Lemma comp_delta_l f c x y : configuration hs x -> comp (fun a b => delta S a b c) f x y = c * f x y.
Proof.
  intros Hx. unfold comp. rewrite (sum_single S L (list_eq_dec Z.eq_dec) _ _ x).
  - unfold delta. rewrite zlist_eqb_refl. auto.
  - apply all_configs_nodup; auto.
  - apply all_configs_in; auto.
  - intros z _ Hne. unfold delta. destruct (zlist_eqb x z) eqn:E; [|ring].
    apply zlist_eqb_eq in E. congruence.
Qed.

Lemma comp_add_l f f' g x y : comp (fun a b => f a b + f' a b) g x y = comp f g x y + comp f' g x y.
Proof.
  unfold comp. rewrite <- (sum_add S L). apply (sum_ext S). intros. ring.
Qed.
Lemma comp_add_r f g g' x y : comp f (fun a b => g a b + g' a b) x y = comp f g x y + comp f g' x y.
Proof.
  unfold comp. rewrite <- (sum_add S L). apply (sum_ext S). intros. ring.
Qed.

Lemma comp_sum_l {A} (F : A -> list Z -> list Z -> K) g l x y :
  comp (fun a b => sum S (map (fun t => F t a b) l)) g x y = sum S (map (fun t => comp (F t) g x y) l).
Proof.
  induction l as [|t l IH].
  - unfold comp. apply (sum_zero S L). intros. unfold sum. simpl. ring.
  - unfold sum. cbn [map fold_right]. rewrite comp_add_l. f_equal. exact IH.
Qed.

Lemma comp_sum_r {A} f (G : A -> list Z -> list Z -> K) l x y :
  comp f (fun a b => sum S (map (fun t => G t a b) l)) x y = sum S (map (fun t => comp f (G t) x y) l).
Proof.
  induction l as [|t l IH].
  - unfold comp. apply (sum_zero S L). intros. unfold sum. simpl. ring.
  - unfold sum. cbn [map fold_right]. rewrite comp_add_r. f_equal. exact IH.
Qed.

(** ** expansion with identities *)
Variable d : nat.
Hypothesis Hd : (0 < d)%nat.
Hypothesis Hu : forall s, (s < length hs)%nat -> length (nth s hs []) = d.

Lemma dim_pos act : (forall s, In s act -> (s < length hs)%nat) -> (0 < local_dim hs act)%nat.
Proof.
  intros H. unfold local_dim. induction act as [|s act IH]; simpl; [lia|].
  rewrite Hu by (apply H; simpl; auto). assert (0 < fold_right Nat.mul 1%nat (map (fun s => length (nth s hs [])) act))%nat.
  { apply IH. intros; apply H; simpl; auto. }
  nia.
Qed.

Lemma one_dim s : local_dim hs [s] = length (nth s hs []).
Proof. unfold local_dim. simpl. lia. Qed.

Lemma eye_square n : square S (eye S n) n.
Proof. apply mbuild_square. Qed.

Definition expanded (op : mat S) (act0 : list nat) (seen : list nat) (st : mat S * list nat) : Prop :=
  sites_ok hs (snd st) /\ square S (fst st) (local_dim hs (snd st)) /\
  (forall s, In s (snd st) <-> In s act0 \/ In s seen) /\
  term_same S hs op act0 (fst st) (snd st).

Lemma expand_sites_spec op act0 other :
  act0 <> [] -> sites_ok hs act0 -> square S op (local_dim hs act0) -> sites_ok hs other ->
  expanded op act0 other (expand_sites S hs op act0 other).
Proof.
  intros Hne Ha Hop Ho. unfold expand_sites.
  set (actmin := fold_right Nat.min (nth 0 act0 0%nat) act0). clearbody actmin.
  assert (G : forall rest seen st, NoDup (seen ++ rest) ->
    (forall s, In s rest -> (s < length hs)%nat) ->
    expanded op act0 seen st ->
    expanded op act0 (seen ++ rest)
      (fold_left (fun st site => if nat_mem site act0 then st
         else if (site <? actmin)%nat then (kron S (eye S (length (nth site hs []))) (fst st), site :: snd st)
         else (kron S (fst st) (eye S (length (nth site hs []))), snd st ++ [site])) rest st)).
  { induction rest as [|s rest IH]; intros seen st HN HI HE; cbn [fold_left].
    - rewrite app_nil_r. auto.
    - replace (seen ++ s :: rest) with ((seen ++ [s]) ++ rest) in * by (rewrite <- app_assoc; auto).
      apply IH; auto; [intros; apply HI; simpl; auto|].
      destruct HE as (H1 & H2 & H3 & H4).
      assert (Hs' : (s < length hs)%nat) by (apply HI; simpl; auto).
      destruct (nat_mem s act0) eqn:E.
      + apply nat_mem_in in E. split; auto. split; auto. split; auto.
        intros t. rewrite H3, in_app_iff. simpl. intuition (subst; auto).
      + apply nat_mem_false in E.
        assert (Hns : ~ In s (snd st)).
        { rewrite H3. intros [C|C]; [auto|]. apply NoDup_app_l' in HN.
          apply NoDup_app_comm in HN. simpl in HN. inversion HN; subst. auto. }
        assert (ED : local_dim hs [s] = length (nth s hs [])) by apply one_dim.
        destruct (Nat.ltb s actmin); split; [|split; [|split]| |split; [|split]]; cbn [fst snd].
        * split; [constructor; auto; apply H1|]. intros t [<-|Ht]; auto. apply H1; auto.
        * change (s :: snd st) with ([s] ++ snd st). rewrite local_dim_app, ED.
          apply kron_square; auto; [apply eye_square|rewrite Hu; auto|apply dim_pos; apply H1].
        * intros t. rewrite in_app_iff. cbn [In]. rewrite H3. simpl. intuition.
        * intros x y Hx Hy. change (s :: snd st) with ([s] ++ snd st).
          rewrite (kron_term x y Hx Hy); auto.
          -- rewrite (comp_ext _ (fun a b => delta S a b 1) _ (term_element S hs op act0)); auto.
             ++ rewrite comp_delta_l by auto. ring.
             ++ intros z Hz. apply eye_term; auto.
          -- split; [simpl; constructor; auto; apply H1|]. intros t [<-|Ht]; auto. apply H1; auto.
          -- rewrite ED. apply eye_square.
        * destruct H1 as [H1 H1']. split.
          -- apply NoDup_app_comm. simpl. constructor; auto.
          -- intros t Ht. apply in_app_iff in Ht. destruct Ht as [Ht|[<-|[]]]; auto.
        * rewrite local_dim_app, ED.
          apply kron_square; auto; [apply eye_square|apply dim_pos; apply H1|rewrite Hu; auto].
        * intros t. rewrite !in_app_iff. cbn [In]. rewrite H3. simpl. intuition.
        * intros x y Hx Hy. rewrite (kron_term x y Hx Hy); auto.
          -- rewrite (comp_ext _ (term_element S hs op act0) _ (fun a b => delta S a b 1)); auto.
             ++ rewrite comp_delta_r by auto. ring.
             ++ intros z Hz. apply eye_term; auto.
          -- destruct H1 as [H1 H1']. split.
             ++ apply NoDup_app_comm. simpl. constructor; auto.
             ++ intros t Ht. apply in_app_iff in Ht. destruct Ht as [Ht|[<-|[]]]; auto.
          -- rewrite ED. apply eye_square. }
  apply (G other [] (op, act0)).
  - apply Ho.
  - apply Ho.
  - split; [apply Ha|]. split; auto. split; [simpl; tauto|]. intros x y _ _. auto.
Qed.

Variable depth : nat.
Notation dp := (Datatypes.S depth).

Definition product_of (A : mat S) (a : list nat) (B : mat S) (b : list nat) (t : mat S * list nat) : Prop :=
  forall x y, configuration hs x -> configuration hs y ->
    term_element S hs (fst t) (snd t) x y =
    comp (term_element S hs A a) (term_element S hs B b) x y.

Lemma uniform_order act : (forall s, In s act -> (s < length hs)%nat) -> order_ok hs act.
Proof. intros H. right. exists d. intros; apply Hu; auto. Qed.

(** reordering a term with the sites of a uniform space *)
Lemma reorder_ok m act r :
  act <> [] -> sites_ok hs act -> square S m (local_dim hs act) ->
  reorder S dp hs m act = Ok r ->
  good_term S hs (fst r) (snd r) /\ (forall s, In s (snd r) <-> In s act) /\
  term_same S hs m act (fst r) (snd r).
Proof.
  intros Hne Ha Hm HR.
  assert (HV : valid_term S hs (m, act)).
  { split; auto. split; [apply Ha|]. split; [apply Ha|auto]. }
  assert (HO : ordered_or_uniform hs act).
  { eapply (reorder_ok_ordered S depth hs); eauto; [apply uniform_order; apply Ha|].
    pose proof (dim_pos act (proj2 Ha)). lia. }
  destruct (reorder_term S depth hs Hs m act HV HO) as (m' & act' & E & H1 & H2 & H3).
  rewrite E in HR. inversion HR; subst r. auto.
Qed.

Lemma multiply_one_ok A a B b t :
  good_term S hs A a -> good_term S hs B b ->
  multiply_one S dp hs A a B b = Ok t ->
  input_ok S hs t /\ product_of A a B b t.
Proof.
  intros (Ha0 & Ha & Hai & HA) (Hb0 & Hb & Hbi & HB) H. unfold multiply_one in H.
  destruct (natlist_eqb b a) eqn:Eab.
  - apply natlist_eqb_eq in Eab. subst b. inversion H; subst t. clear H. split.
    + split; cbn [fst snd]; [|left; auto].
      split; auto. split; [apply Ha|]. split; [apply Ha|]. apply matmul_square; auto.
      apply dim_pos. apply Ha.
    + intros x y Hx Hy. cbn [fst snd]. apply matmul_term; auto.
  - destruct (existsb (fun s => nat_mem s b) a) eqn:Eo; cbn [negb] in H.
    + destruct (expand_sites_spec B b a Hb0 Hb HB Ha) as (X1 & X2 & X3 & X4).
      destruct (expand_sites_spec A a b Ha0 Ha HA Hb) as (Y1 & Y2 & Y3 & Y4).
      destruct (reorder S dp hs (fst (expand_sites S hs B b a)) (snd (expand_sites S hs B b a)))
        as [r|e] eqn:ER; [|discriminate]. cbn [bind] in H.
      destruct (reorder S dp hs (fst (expand_sites S hs A a b)) (snd (expand_sites S hs A a b)))
        as [ri|e] eqn:ERi; [|discriminate]. cbn [bind] in H.
      assert (N1 : snd (expand_sites S hs B b a) <> []).
      { intros C. destruct b as [|s b]; [congruence|].
        assert (In s (snd (expand_sites S hs B (s :: b) a))) by (apply X3; simpl; auto).
        rewrite C in H0. simpl in H0. auto. }
      assert (N2 : snd (expand_sites S hs A a b) <> []).
      { intros C. destruct a as [|s a]; [congruence|].
        assert (In s (snd (expand_sites S hs A (s :: a) b))) by (apply Y3; simpl; auto).
        rewrite C in H0. simpl in H0. auto. }
      destruct (reorder_ok _ _ _ N1 X1 X2 ER) as ((R1 & R2 & R3 & R4) & R5 & R6).
      destruct (reorder_ok _ _ _ N2 Y1 Y2 ERi) as ((Q1 & Q2 & Q3 & Q4) & Q5 & Q6).
      destruct (natlist_eqb (snd r) (snd ri)) eqn:E; [|discriminate].
      apply natlist_eqb_eq in E. inversion H; subst t. clear H. rewrite E in *. split.
      * split; cbn [fst snd]; [|left; auto]. split; auto. split; [apply Q2|]. split; [apply Q2|].
        apply matmul_square; auto. apply dim_pos. apply Q2.
      * intros x y Hx Hy. cbn [fst snd]. rewrite matmul_term by auto.
        apply comp_ext; auto.
        -- intros z Hz. rewrite Q6, Y4 by auto. auto.
        -- intros z Hz. rewrite R6, X4 by auto. auto.
    + assert (Hdis : forall s, In s a -> ~ In s b).
      { intros s H1 H2. assert (existsb (fun s => nat_mem s b) a = true).
        { apply existsb_exists. exists s. split; auto. apply nat_mem_in; auto. }
        congruence. }
      assert (Hab : sites_ok hs (a ++ b)).
      { split; [apply NoDup_app_intro; try apply Ha; try apply Hb; auto|].
        intros s Hin. apply in_app_iff in Hin. destruct Hin; [apply Ha|apply Hb]; auto. }
      inversion H; subst t. clear H. split.
      * split; cbn [fst snd]; [|apply uniform_order; apply Hab].
        split; [destruct a; simpl; congruence|]. split; [apply Hab|]. split; [apply Hab|].
        cbn [fst snd]. rewrite local_dim_app. apply kron_square; auto; apply dim_pos; apply Ha || apply Hb.
      * intros x y Hx Hy. apply kron_term; auto.
Qed.

(** ** all products of terms *)
Lemma sequence_inv {A B} (f : A -> res B) l bs :
  sequence (map f l) = Ok bs -> Forall2 (fun a b => f a = Ok b) l bs.
Proof.
  revert bs. induction l as [|a l IH]; intros bs H; simpl in H.
  - inversion H. constructor.
  - destruct (f a) as [b|e] eqn:E; [|discriminate]. cbn [bind] in H.
    destruct (sequence (map f l)) as [t|e]; [|discriminate]. cbn [bind] in H.
    inversion H; subst. constructor; auto.
Qed.

Definition good_pair (t : mat S * list nat) : Prop := good_term S hs (fst t) (snd t).

Lemma good_pairs o : wf S hs o -> Forall good_pair (terms_of S o).
Proof. intros [W _]. unfold terms_of. induction W; simpl; constructor; auto. Qed.

Lemma products_row ts B b l :
  Forall good_pair ts -> good_term S hs B b ->
  Forall2 (fun t r => multiply_one S dp hs (fst t) (snd t) B b = Ok r) ts l ->
  Forall (input_ok S hs) l /\
  forall x y, configuration hs x -> configuration hs y ->
    terms_sum S hs l x y = comp (terms_sum S hs ts) (term_element S hs B b) x y.
Proof.
  intros HG HB H. induction H as [|t r ts l E H IH].
  - split; auto. intros. unfold terms_sum. symmetry. unfold comp. apply (sum_zero S L).
    intros. unfold sum; simpl. ring.
  - inversion HG as [|? ? G1 G2]; subst. destruct (IH G2) as [I1 I2].
    destruct (multiply_one_ok _ _ _ _ _ G1 HB E) as [M1 M2]. split; [constructor; auto|].
    intros x y Hx Hy. unfold terms_sum, sum. cbn [map fold_right].
    rewrite comp_add_l. f_equal; [apply M2; auto|apply I2; auto].
Qed.

Lemma product_terms_ok a b ts :
  wf S hs a -> wf S hs b -> product_terms S dp hs a b = Ok ts ->
  Forall (input_ok S hs) ts /\
  forall x y, configuration hs x -> configuration hs y ->
    terms_sum S hs ts x y = comp (terms_sum S hs (terms_of S a)) (terms_sum S hs (terms_of S b)) x y.
Proof.
  intros Wa Wb H. unfold product_terms in H.
  pose proof (good_pairs a Wa) as Ga. pose proof (good_pairs b Wb) as Gb.
  destruct (sequence _) as [l|e] eqn:E; [|discriminate]. cbn [bind] in H.
  inversion H; subst ts. clear H. apply sequence_inv in E.
  induction E as [|t r tb l Et E IH].
  - split; [constructor|]. intros. unfold terms_sum. simpl. symmetry. unfold comp. apply (sum_zero S L).
    intros. unfold sum; simpl. ring.
  - inversion Gb as [|? ? G1 G2]; subst. destruct (IH G2) as [I1 I2].
    unfold multiply_operator in Et. apply sequence_inv in Et.
    destruct (products_row _ _ _ _ Ga G1 Et) as [M1 M2]. cbn [concat]. split.
    + apply Forall_app; auto.
    + intros x y Hx Hy. rewrite (terms_sum_app S L). unfold terms_sum at 4, sum. cbn [map fold_right].
      rewrite comp_add_r. f_equal; [apply M2; auto|apply I2; auto].
Qed.

Hypothesis NS : no_small S.

Lemma big_false c : kbig S c = false -> c = 0.
Proof. apply NS. Qed.

Lemma comp_elements a b x y : configuration hs x -> configuration hs y ->
  comp (op_element S hs a) (op_element S hs b) x y =
  delta S x y (lo_const S a * lo_const S b) +
  (terms_sum S hs (terms_of S a) x y * lo_const S b) +
  (lo_const S a * terms_sum S hs (terms_of S b) x y) +
  comp (terms_sum S hs (terms_of S a)) (terms_sum S hs (terms_of S b)) x y.
Proof.
  intros Hx Hy.
  rewrite (comp_ext _ (fun u v => delta S u v (lo_const S a) + terms_sum S hs (terms_of S a) u v)
             _ (fun u v => delta S u v (lo_const S b) + terms_sum S hs (terms_of S b) u v)); auto.
  rewrite comp_add_l, !comp_add_r, !comp_delta_l, comp_delta_r by auto.
  unfold delta. destruct (zlist_eqb x y); ring.
Qed.

Lemma set_nzd_wf o v : wf S hs o -> wf S hs (set_nzd S o v).
Proof. intros [W1 W2]. constructor; [exact W1|exact W2]. Qed.
Lemma set_const_wf o v : wf S hs o -> wf S hs (set_const S o v).
Proof. intros [W1 W2]. constructor; [exact W1|exact W2]. Qed.

Lemma imatmul_ok a b o :
  wf S hs a -> wf S hs b -> imatmul S dp hs a b = Ok o ->
  wf S hs o /\ nzd_ok S o /\
  forall x y, configuration hs x -> configuration hs y ->
    op_element S hs o x y = comp (op_element S hs a) (op_element S hs b) x y.
Proof.
  intros Wa Wb H. unfold imatmul in H.
  destruct (product_terms S dp hs a b) as [ts|e] eqn:ET; [|discriminate]. cbn [bind] in H.
  destruct (product_terms_ok a b ts Wa Wb ET) as [HI Hts].
  destruct (mk_lop S dp hs 0 ts) as [pr|e] eqn:EP; [|discriminate]. cbn [bind] in H.
  destruct (mk_lop_ok S L depth hs Hs NS 0 ts pr HI EP) as (Wp & _ & Cp & Ep).
  assert (HP : forall x y, configuration hs x -> configuration hs y ->
    terms_sum S hs (terms_of S pr) x y =
    comp (terms_sum S hs (terms_of S a)) (terms_sum S hs (terms_of S b)) x y).
  { intros x y Hx Hy. rewrite <- Hts by auto. specialize (Ep x y Hx Hy).
    rewrite op_element_split, Cp in Ep. unfold element in Ep. fold (terms_sum S hs ts x y) in Ep.
    unfold delta in Ep. destruct (zlist_eqb x y).
    - transitivity (0 + terms_sum S hs (terms_of S pr) x y); [ring|]. rewrite Ep. ring.
    - transitivity (0 + terms_sum S hs (terms_of S pr) x y); [ring|]. rewrite Ep. ring. }
  (* first step *)
  assert (H1 : exists s1,
    (if kbig S (lo_const S b)
     then (let? s := iadd S dp hs (imul_number S a (lo_const S b)) pr in Ok (set_const S s 0))
     else Ok pr) = Ok s1 /\ wf S hs s1 /\
    forall x y, configuration hs x -> configuration hs y ->
      op_element S hs s1 x y =
      terms_sum S hs (terms_of S a) x y * lo_const S b +
      comp (terms_sum S hs (terms_of S a)) (terms_sum S hs (terms_of S b)) x y).
  { destruct (kbig S (lo_const S b)) eqn:EB.
    - destruct (imul_number_ok S L hs a (lo_const S b) Wa) as (Wi & _ & Ci & Ei).
      destruct (iadd_ok S L depth hs Hs NS _ pr Wi Wp) as (s & Es & Ws & _ & Cs & El).
      rewrite Es. cbn [bind]. eexists. split; [reflexivity|]. split; [apply set_const_wf; auto|].
      intros x y Hx Hy. specialize (El x y Hx Hy). rewrite Ei in El. rewrite !op_element_split in El.
      rewrite Cs, Ci, Cp, HP in El by auto.
      rewrite op_element_split. cbn [lo_const set_const].
      change (terms_of S (set_const S s 0)) with (terms_of S s).
      unfold delta in *. destruct (zlist_eqb x y).
      + transitivity (ksub S (lo_const S a * lo_const S b + 0 + terms_sum S hs (terms_of S s) x y)
                             (lo_const S a * lo_const S b)); [ring|]. rewrite El. ring.
      + transitivity (0 + terms_sum S hs (terms_of S s) x y); [ring|]. rewrite El. ring.
    - apply big_false in EB. eexists. split; [reflexivity|]. split; auto.
      intros x y Hx Hy. rewrite op_element_split, Cp, HP, EB by auto.
      unfold delta. destruct (zlist_eqb x y); ring. }
  destruct H1 as (s1 & E1 & W1 & El1). rewrite E1 in H. cbn [bind] in H. clear E1.
  assert (H2 : exists s2,
    (if kbig S (lo_const S a)
     then (let? m := mul_number S dp hs b (lo_const S a) in iadd S dp hs s1 m)
     else Ok s1) = Ok s2 /\ wf S hs s2 /\
    forall x y, configuration hs x -> configuration hs y ->
      op_element S hs s2 x y = op_element S hs s1 x y + op_element S hs b x y * lo_const S a).
  { destruct (kbig S (lo_const S a)) eqn:EA.
    - destruct (mul_number_ok S L depth hs Hs NS b (lo_const S a) Wb) as (m & Em & Wm & _ & Cm & Elm).
      rewrite Em. cbn [bind].
      destruct (iadd_ok S L depth hs Hs NS s1 m W1 Wm) as (s & Es & Ws & _ & Cs & El).
      exists s. split; auto. split; auto. intros x y Hx Hy. rewrite El, Elm by auto. auto.
    - apply big_false in EA. exists s1. split; auto. split; auto. intros. rewrite EA. ring. }
  destruct H2 as (s2 & E2 & W2 & El2). rewrite E2 in H. cbn [bind] in H. clear E2.
  inversion H; subst o. split; [apply set_nzd_wf; auto|]. split; [reflexivity|].
  intros x y Hx Hy.
  change (op_element S hs (set_nzd S s2 (has_nonzero_diagonal S s2)) x y) with (op_element S hs s2 x y).
  rewrite El2, El1, comp_elements, (op_element_split S hs b) by auto.
  unfold delta. destruct (zlist_eqb x y); ring.
Qed.

Lemma matmul_op_ok a b o :
  wf S hs a -> wf S hs b -> matmul_op S dp hs a b = Ok o ->
  wf S hs o /\ nzd_ok S o /\
  forall x y, configuration hs x -> configuration hs y ->
    op_element S hs o x y = comp (op_element S hs a) (op_element S hs b) x y.
Proof.
  intros Wa Wb H. unfold matmul_op in H.
  destruct (copy_ok S L depth hs Hs NS a Wa) as (a' & E & Wa' & _ & Ca & Ea).
  rewrite E in H. cbn [bind] in H.
  destruct (imatmul_ok a' b o Wa' Wb H) as (Wo & Hz & El). split; auto. split; auto.
  intros x y Hx Hy. rewrite El by auto. apply comp_ext; auto.
Qed.

(** A @= A when A has no constant *)
Lemma imatmul_self_ok a o :
  lo_const S a = 0 -> wf S hs a -> imatmul_self S dp hs a = Ok o ->
  wf S hs o /\ nzd_ok S o /\
  forall x y, configuration hs x -> configuration hs y ->
    op_element S hs o x y = comp (op_element S hs a) (op_element S hs a) x y.
Proof.
  intros Ha W H. apply imatmul_ok; auto. unfold imatmul_self in H. unfold imatmul.
  destruct (product_terms S dp hs a a) as [ts|e]; [|discriminate]. cbn [bind] in *.
  destruct (mk_lop S dp hs 0 ts) as [pr|e]; [|discriminate]. cbn [bind] in *.
  assert (EB : kbig S 0 = false).
  { destruct (kbig S 0) eqn:E; auto. apply (k_big_bige S L) in E. rewrite (k_bige_0 S L) in E. discriminate. }
  rewrite Ha, EB in *. exact H.
Qed.

(** success when the space can be enumerated *)
Hypothesis Hsmall : (Z.of_nat d ^ Z.of_nat (length hs) <= 2 ^ 31 - 1)%Z.

Lemma sites_count act : sites_ok hs act -> (length act <= length hs)%nat.
Proof.
  intros [HN HI]. rewrite <- (seq_length (length hs) 0). apply NoDup_incl_length; auto.
  intros s H. apply in_seq. apply HI in H. lia.
Qed.

Lemma small_total act : sites_ok hs act -> ordered_or_uniform hs act.
Proof.
  intros Ha. right. exists d. split; auto. split; [intros; apply Hu; apply Ha; auto|].
  eapply Z.le_trans; [|exact Hsmall]. apply Z.pow_le_mono_r; [lia|].
  pose proof (sites_count act Ha). lia.
Qed.

Lemma multiply_one_total A a B b :
  good_term S hs A a -> good_term S hs B b -> exists t, multiply_one S dp hs A a B b = Ok t.
Proof.
  intros (Ha0 & Ha & Hai & HA) (Hb0 & Hb & Hbi & HB). unfold multiply_one.
  destruct (natlist_eqb b a) eqn:Eab; [eauto|].
  destruct (existsb (fun s => nat_mem s b) a) eqn:Eo; cbn [negb]; [|eauto].
  destruct (expand_sites_spec B b a Hb0 Hb HB Ha) as (X1 & X2 & X3 & X4).
  destruct (expand_sites_spec A a b Ha0 Ha HA Hb) as (Y1 & Y2 & Y3 & Y4).
  assert (N1 : snd (expand_sites S hs B b a) <> []).
  { intros C. destruct b as [|s b]; [congruence|].
    assert (In s (snd (expand_sites S hs B (s :: b) a))) by (apply X3; simpl; auto).
    rewrite C in H. simpl in H. auto. }
  assert (N2 : snd (expand_sites S hs A a b) <> []).
  { intros C. destruct a as [|s a]; [congruence|].
    assert (In s (snd (expand_sites S hs A (s :: a) b))) by (apply Y3; simpl; auto).
    rewrite C in H. simpl in H. auto. }
  destruct (reorder_term S depth hs Hs (fst (expand_sites S hs B b a)) (snd (expand_sites S hs B b a)))
    as (m1 & act1 & E1 & (_ & _ & S1 & _) & I1 & _).
  { split; auto. split; [apply X1|]. split; [apply X1|auto]. }
  { apply small_total; auto. }
  destruct (reorder_term S depth hs Hs (fst (expand_sites S hs A a b)) (snd (expand_sites S hs A a b)))
    as (m2 & act2 & E2 & (_ & _ & S2 & _) & I2 & _).
  { split; auto. split; [apply Y1|]. split; [apply Y1|auto]. }
  { apply small_total; auto. }
  rewrite E1. cbn [bind]. rewrite E2. cbn [bind fst snd].
  assert (E : act1 = act2).
  { apply sorted_same_elements; auto. intros s. rewrite I1, I2, X3, Y3. tauto. }
  replace (natlist_eqb act1 act2) with true by (symmetry; apply natlist_eqb_eq; auto). eauto.
Qed.

Lemma input_small t : input_ok S hs t -> input_total S hs t.
Proof.
  intros [H1 H2]. split; auto. destruct H1 as (_ & G1 & G2 & _). apply small_total. split; auto.
Qed.

Lemma product_terms_total a b : wf S hs a -> wf S hs b -> exists ts, product_terms S dp hs a b = Ok ts.
Proof.
  intros Wa Wb. pose proof (good_pairs a Wa) as Ga. pose proof (good_pairs b Wb) as Gb.
  unfold product_terms.
  destruct (sequence_map_ok (fun t => multiply_operator S dp hs a (fst t) (snd t)) (terms_of S b)) as [l E].
  - intros t Ht. unfold multiply_operator. apply sequence_map_ok. intros u Hu'.
    rewrite Forall_forall in Ga, Gb. apply multiply_one_total; [apply Ga|apply Gb]; auto.
  - rewrite E. cbn [bind]. eauto.
Qed.

Lemma imatmul_total a b : wf S hs a -> wf S hs b -> exists o, imatmul S dp hs a b = Ok o.
Proof.
  intros Wa Wb. unfold imatmul.
  destruct (product_terms_total a b Wa Wb) as [ts ET]. rewrite ET. cbn [bind].
  destruct (product_terms_ok a b ts Wa Wb ET) as [HI _].
  destruct (mk_lop_total S L depth hs Hs NS 0 ts) as [pr EP].
  { eapply Forall_impl; [|exact HI]. apply input_small. }
  rewrite EP. cbn [bind].
  destruct (mk_lop_ok S L depth hs Hs NS 0 ts pr HI EP) as (Wp & _).
  assert (H1 : exists s1, (if kbig S (lo_const S b)
     then (let? s := iadd S dp hs (imul_number S a (lo_const S b)) pr in Ok (set_const S s 0))
     else Ok pr) = Ok s1 /\ wf S hs s1).
  { destruct (kbig S (lo_const S b)); [|eauto].
    destruct (imul_number_ok S L hs a (lo_const S b) Wa) as (Wi & _).
    destruct (iadd_ok S L depth hs Hs NS _ pr Wi Wp) as (s & Es & Ws & _).
    rewrite Es. cbn [bind]. eexists. split; [reflexivity|]. apply set_const_wf; auto. }
  destruct H1 as (s1 & E1 & W1). rewrite E1. cbn [bind].
  destruct (kbig S (lo_const S a)); [|cbn [bind]; eauto].
  destruct (mul_number_ok S L depth hs Hs NS b (lo_const S a) Wb) as (m & Em & Wm & _).
  rewrite Em. cbn [bind].
  destruct (iadd_ok S L depth hs Hs NS s1 m W1 Wm) as (s & Es & _).
  rewrite Es. cbn [bind]. eauto.
Qed.

Lemma matmul_op_total a b : wf S hs a -> wf S hs b -> exists o, matmul_op S dp hs a b = Ok o.
Proof.
  intros Wa Wb. unfold matmul_op.
  destruct (copy_ok S L depth hs Hs NS a Wa) as (a' & E & Wa' & _). rewrite E. cbn [bind].
  apply imatmul_total; auto.
Qed.
End Matmul.
