(** * Proofs: linear layers *)
From Coq Require Import ZArith List Bool Lia.
From Verif Require Import Base Dense_Model Dense_Spec.
Import ListNotations.
Open Scope nat_scope.

Lemma mem_In d l : mem d l = true <-> In d l.
Proof. unfold mem. rewrite existsb_exists. split; [intros (x & H & E); apply Nat.eqb_eq in E; subst; exact H|intros H; exists d; split; [exact H|apply Nat.eqb_refl]]. Qed.
Lemma mem_false d l : mem d l = false <-> ~ In d l.
Proof. rewrite <- mem_In. destruct (mem d l); split; congruence. Qed.
Lemma list_eqb_eq a : forall b, list_eqb a b = true <-> a = b.
Proof.
  induction a as [|x a IH]; intros [|y b]; cbn; try (split; congruence).
  rewrite andb_true_iff, Nat.eqb_eq, IH. split; [intros [-> ->]; reflexivity|intros E; injection E; auto].
Qed.
Lemma list_eqb_refl a : list_eqb a a = true.
Proof. apply list_eqb_eq. reflexivity. Qed.
Lemma distinct_NoDup l : NoDup l -> distinct l = true.
Proof. induction 1 as [|d l H Hn IH]; cbn; [reflexivity|]. rewrite IH. apply mem_false in H. rewrite H. reflexivity. Qed.

Lemma seq_split3 a b c : seq 0 (a + b + c) = seq 0 a ++ seq a b ++ seq (a + b) c.
Proof. rewrite seq_app, seq_app, <- app_assoc. reflexivity. Qed.

(** Values of dimensions *)
Lemma assoc_app d kv kv' : (forall v, ~ In (d, v) kv) -> assoc d (kv ++ kv') = assoc d kv'.
Proof.
  induction kv as [|[k v] kv IH]; intros H; cbn; [reflexivity|]. destruct (Nat.eqb_spec d k) as [->|].
  - exfalso. apply (H v). left. reflexivity.
  - apply IH. intros w Hw. apply (H w). right. exact Hw.
Qed.
Lemma combine_key (d v : nat) (s l : list nat) : In (d, v) (combine s l) -> In d s.
Proof. apply in_combine_l. Qed.
Lemma assoc_seg kv' : forall n s v, length v = n -> map (fun d => assoc d (combine (seq s n) v ++ kv')) (seq s n) = v.
Proof.
  induction n as [|n IH]; intros s v Hv; destruct v as [|a v]; try discriminate; [reflexivity|]. cbn [seq combine map app assoc].
  rewrite Nat.eqb_refl. f_equal. transitivity (map (fun d => assoc d (combine (seq (S s) n) v ++ kv')) (seq (S s) n)); [|apply IH; cbn in Hv; lia]. apply map_ext_in. intros d Hd. apply in_seq in Hd.
  destruct (Nat.eqb_spec d s); [lia|reflexivity].
Qed.
Lemma assoc_skip n s v kv' l : (forall d, In d l -> ~ (s <= d < s + n)) ->
  map (fun d => assoc d (combine (seq s n) v ++ kv')) l = map (fun d => assoc d kv') l.
Proof.
  intros H. apply map_ext_in. intros d Hd. apply assoc_app. intros w Hw. apply combine_key, in_seq in Hw. apply (H d Hd), Hw.
Qed.

Lemma place_left nb ne na b e c : length b = nb -> length e = ne -> length c = na ->
  place (nb + ne + na) (combine (seq 0 nb) b ++ combine (seq (nb + ne) na) c ++ combine (seq nb ne) e) = b ++ e ++ c.
Proof.
  intros Hb He Hc. unfold place. rewrite seq_split3, !map_app. f_equal; [|f_equal].
  - apply assoc_seg, Hb.
  - rewrite assoc_skip, assoc_skip by (intros d Hd; apply in_seq in Hd; lia).
    rewrite <- (app_nil_r (combine (seq nb ne) e)). apply assoc_seg, He.
  - rewrite assoc_skip by (intros d Hd; apply in_seq in Hd; lia). apply assoc_seg, Hc.
Qed.
Lemma place_right nb na nf b c f : length b = nb -> length c = na -> length f = nf ->
  place (nb + na + nf) (combine (seq 0 nb) b ++ combine (seq nb na) c ++ combine (seq (nb + na) nf) f) = b ++ c ++ f.
Proof.
  intros Hb Hc Hf. unfold place. rewrite seq_split3, !map_app. f_equal; [|f_equal].
  - apply assoc_seg, Hb.
  - rewrite assoc_skip by (intros d Hd; apply in_seq in Hd; lia). apply assoc_seg, Hc.
  - rewrite assoc_skip, assoc_skip by (intros d Hd; apply in_seq in Hd; lia).
    rewrite <- (app_nil_r (combine (seq (nb + na) nf) f)). apply assoc_seg, Hf.
Qed.

(** Remaining dimensions *)
Lemma filter_all {X} (t : X -> bool) l : (forall d, In d l -> t d = true) -> filter t l = l.
Proof. induction l as [|x l IH]; intros H; cbn; [reflexivity|]. rewrite (H x (or_introl eq_refl)). f_equal. apply IH. intros d Hd. apply H. right. exact Hd. Qed.
Lemma filter_none {X} (t : X -> bool) l : (forall d, In d l -> t d = false) -> filter t l = [].
Proof. induction l as [|x l IH]; intros H; cbn; [reflexivity|]. rewrite (H x (or_introl eq_refl)). apply IH. intros d Hd. apply H. right. exact Hd. Qed.
Lemma free_mid nb ne na used : (forall d, In d used <-> (d < nb \/ nb + ne <= d < nb + ne + na)) ->
  free (nb + ne + na) used = seq nb ne.
Proof.
  intros H. unfold free. rewrite seq_split3, !filter_app. rewrite (filter_none _ (seq 0 nb)), (filter_all _ (seq nb ne)), (filter_none _ (seq (nb + ne) na)).
  - cbn. apply app_nil_r.
  - intros d Hd. apply in_seq in Hd. apply negb_false_iff, mem_In, H. lia.
  - intros d Hd. apply in_seq in Hd. apply negb_true_iff, mem_false. rewrite H. lia.
  - intros d Hd. apply in_seq in Hd. apply negb_false_iff, mem_In, H. lia.
Qed.
Lemma free_last n nf used : (forall d, In d used <-> d < n) -> free (n + nf) used = seq n nf.
Proof.
  intros H. rewrite <- (Nat.add_0_r (n + nf)). apply free_mid. intros d. rewrite H. lia.
Qed.

Lemma dims_seg {A} (t : tensor A) p s q : shape t = p ++ s ++ q -> dims t (seq (length p) (length s)) = s.
Proof.
  intros E. unfold dims. rewrite E. clear E. apply (nth_ext _ _ 0 0); [rewrite map_length, seq_length; reflexivity|].
  intros i Hi. rewrite map_length, seq_length in Hi. rewrite (nth_indep _ 0 (nth 0 (p ++ s ++ q) 0)) by (rewrite map_length, seq_length; exact Hi).
  rewrite (map_nth (fun d => nth d (p ++ s ++ q) 0)). rewrite seq_nth by exact Hi.
  rewrite app_nth2 by lia. replace (length p + i - length p) with i by lia. apply app_nth1, Hi.
Qed.

(** Sums *)
Section Sums.
Context {A : Type} (zero : A) (add mul : A -> A -> A).
Hypothesis add_assoc : forall a b c, add a (add b c) = add (add a b) c.
Hypothesis add_0_l : forall a, add zero a = a.
Hypothesis add_0_r : forall a, add a zero = a.

Lemma total_app l l' : total zero add (l ++ l') = add (total zero add l) (total zero add l').
Proof. induction l as [|a l IH]; cbn [app total fold_right]; [symmetry; apply add_0_l|]. unfold total in *. cbn. rewrite IH. apply add_assoc. Qed.
Lemma total_box s : forall f, total zero add (map f (box s)) = nested_sum zero add s f.
Proof.
  induction s as [|n s IH]; intros f; [cbn; apply add_0_r|]. cbn [box nested_sum]. generalize (seq 0 n). intros l.
  induction l as [|i l IHl]; [reflexivity|]. cbn [flat_map map fold_right]. rewrite map_app, total_app, IHl. f_equal.
  rewrite map_map. apply IH.
Qed.
End Sums.

Lemma box_length s c : In c (box s) -> length c = length s.
Proof.
  revert c. induction s as [|n s IH]; intros c H; cbn in H; [destruct H as [<-|[]]; reflexivity|].
  apply in_flat_map in H. destruct H as (i & _ & H). apply in_map_iff in H. destruct H as (c' & <- & H). cbn. f_equal. apply IH, H.
Qed.

(** ** Contraction of the last dimensions *)
Lemma firstn_app_exact {X} (a b : list X) n : length a = n -> firstn n (a ++ b) = a.
Proof. intros <-. rewrite firstn_app, Nat.sub_diag, firstn_all. cbn. apply app_nil_r. Qed.
Lemma skipn_app_exact {X} (a b : list X) n : length a = n -> skipn n (a ++ b) = b.
Proof. intros <-. rewrite skipn_app, Nat.sub_diag, skipn_all. reflexivity. Qed.

Lemma NoDup_two a n b m : a + n <= b -> NoDup (seq a n ++ seq b m).
Proof.
  intros H. assert (G : forall l l' : list nat, NoDup l -> NoDup l' -> (forall x, In x l -> ~ In x l') -> NoDup (l ++ l')).
  { induction l as [|x l IH]; intros l' H1 H2 H3; cbn; [exact H2|]. inversion H1; subst. constructor.
    - rewrite in_app_iff. intros [Hx|Hx]; [contradiction|]. apply (H3 x); [left; reflexivity|exact Hx].
    - apply IH; auto. intros y Hy. apply H3. right. exact Hy. }
  apply G; [apply seq_NoDup|apply seq_NoDup|]. intros x Hx Hx'. apply in_seq in Hx. apply in_seq in Hx'. lia.
Qed.
Lemma forallb_lt l n : (forall d, In d l -> d < n) -> forallb (fun d => d <? n) l = true.
Proof. intros H. apply forallb_forall. intros d Hd. apply Nat.ltb_lt, H, Hd. Qed.

Lemma dot_trailing {A} zero add mul (x k : tensor A) B E C F :
  shape x = B ++ E ++ C -> shape k = B ++ C ++ F ->
  exists y, dot_general zero add mul x k (seq (length B + length E) (length C)) (seq (length B) (length C)) (seq 0 (length B)) (seq 0 (length B)) = Ok y /\
    shape y = B ++ E ++ F /\
    forall b e f, length b = length B -> length e = length E -> length f = length F ->
      at_ y (b ++ e ++ f) = total zero add (map (fun c => mul (at_ x (b ++ e ++ c)) (at_ k (b ++ c ++ f))) (box C)).
Proof.
  intros Hx Hk.
  assert (Nx : length (shape x) = length B + length E + length C) by (rewrite Hx, !app_length; lia).
  assert (Nk : length (shape k) = length B + length C + length F) by (rewrite Hk, !app_length; lia).
  assert (D1 : dims x (seq 0 (length B)) = B) by (apply (dims_seg x [] B (E ++ C)); exact Hx).
  assert (D2 : dims k (seq 0 (length B)) = B) by (apply (dims_seg k [] B (C ++ F)); exact Hk).
  assert (D3 : dims x (seq (length B) (length E)) = E) by (apply (dims_seg x B E C); exact Hx).
  assert (D4 : dims x (seq (length B + length E) (length C)) = C).
  { rewrite <- app_length. apply (dims_seg x (B ++ E) C []). rewrite app_nil_r, <- app_assoc. exact Hx. }
  assert (D5 : dims k (seq (length B) (length C)) = C) by (apply (dims_seg k B C F); exact Hk).
  assert (D6 : dims k (seq (length B + length C) (length F)) = F).
  { rewrite <- app_length. apply (dims_seg k (B ++ C) F []). rewrite app_nil_r, <- app_assoc. exact Hk. }
  unfold dot_general. rewrite Nx, Nk.
  rewrite (free_mid (length B) (length E) (length C)) by (intros d; rewrite in_app_iff, !in_seq; lia).
  rewrite (free_last (length B + length C) (length F)) by (intros d; rewrite in_app_iff, !in_seq; lia).
  rewrite !seq_length, !Nat.eqb_refl, D1, D2, D3, D4, D5, D6, !list_eqb_refl.
  rewrite !distinct_NoDup by (apply NoDup_two; lia).
  rewrite !forallb_lt by (intros d; rewrite in_app_iff, !in_seq; lia). cbn [andb].
  eexists. split; [reflexivity|]. split; [reflexivity|]. intros b e f Hb He Hf. cbn [at_ shape].
  assert (E1 : firstn (length B) (b ++ e ++ f) = b) by (apply firstn_app_exact, Hb).
  assert (E2 : firstn (length E) (skipn (length B) (b ++ e ++ f)) = e) by (rewrite (skipn_app_exact b) by exact Hb; apply firstn_app_exact, He).
  assert (E3 : skipn (length B + length E) (b ++ e ++ f) = f) by (rewrite app_assoc; apply skipn_app_exact; rewrite app_length; lia).
  rewrite E1, E2, E3.
  f_equal. apply map_ext_in. intros c Hc. apply box_length in Hc.
  rewrite place_left, place_right by assumption. reflexivity.
Qed.
