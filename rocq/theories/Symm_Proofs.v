From Coq Require Import List Arith Bool Lia Permutation.
From Verif Require Import Base Rings Group_Model Group_Spec Group_Proofs Group_Props Masked_Model Masked_Spec Masked_Proofs Symm_Model Symm_Spec.
Import ListNotations.
Open Scope nat_scope.

Lemma div_mod_at a m b : b < m -> (a * m + b) / m = a /\ (a * m + b) mod m = b.
Proof.
  intros H. split.
  - rewrite Nat.div_add_l by lia. rewrite Nat.div_small by lia. lia.
  - rewrite Nat.add_comm, Nat.mod_add by lia. apply Nat.mod_small; lia.
Qed.

(** ** translations *)
Lemma inverses_sym n p q : inverses n p q -> inverses n q p.
Proof. intros [A B]; split; assumption. Qed.

Lemma times_in n rows k q : Forall (isperm n) rows -> is_group n rows -> In k rows -> In q rows -> In (times k q) rows.
Proof.
  intros F [_ [I Cl]] Hk Hq. destruct (I k Hk) as [k' [Hk' J]].
  apply (Cl k' q k Hk' Hq). apply inverses_sym, J.
Qed.

Lemma translation_exists n rows k : Forall (isperm n) rows -> is_group n rows -> In k rows ->
  exists L, translation rows k L.
Proof.
  intros F G Hk.
  exists (fun h => match lookup rows (times k (nth h rows [])) with Some i => i | None => 0 end).
  intros h Hh. destruct (lookup_in rows (times k (nth h rows []))) as [i E].
  { apply (times_in n); auto. apply nth_In, Hh. }
  rewrite E. apply lookup_some in E. exact E.
Qed.

Lemma times_cancel n k p q : isperm n k -> isperm n p -> isperm n q -> times k p = times k q -> p = q.
Proof.
  intros K P Q E. pose proof (argsort_perm n k K) as K'. pose proof (argsort_inverses n k K) as [_ J].
  rewrite <- (times_id_l n p P), <- (times_id_l n q Q), <- J.
  rewrite !(times_assoc n) by assumption. now rewrite E.
Qed.

Lemma translation_inj n rows k L i j : permutation_group n rows -> In k rows -> translation rows k L ->
  i < length rows -> j < length rows -> L i = L j -> i = j.
Proof.
  intros [F [G N]] Hk HL Hi Hj E. rewrite Forall_forall in F.
  destruct (HL i Hi) as [_ Ei]. destruct (HL j Hj) as [_ Ej]. rewrite E in Ei.
  rewrite Ei in Ej. apply (times_cancel n) in Ej; try (apply F; auto using nth_In).
  apply (proj1 (NoDup_nth rows []) N i j Hi Hj Ej).
Qed.

Lemma translation_perm n rows k L : permutation_group n rows -> In k rows -> translation rows k L ->
  Permutation (map L (seq 0 (length rows))) (seq 0 (length rows)).
Proof.
  intros G Hk HL. apply perm_seq.
  - intros i Hi. apply HL, Hi.
  - intros i j Hi Hj. eapply translation_inj; eauto.
Qed.

Lemma moved_rows {A} (d : A) L m x : Forall (fun r => length r = m) x ->
  Permutation (map L (seq 0 m)) (seq 0 m) -> Forall2 (@Permutation A) (moved d L x) x.
Proof.
  intros F P. unfold moved. induction x as [|r x IH]; cbn [map]; constructor.
  - apply Forall_cons_iff in F. destruct F as [F _]. rewrite F. rewrite <- (map_map L (fun i => nth i r d)).
    etransitivity; [apply Permutation_map, P|].
    change (Permutation (permuted d (seq 0 m) r) r). rewrite permuted_id by exact F. apply Permutation_refl.
  - apply IH. apply Forall_cons_iff in F. tauto.
Qed.

Section WithRing.
  Variable C : cring.
  Hypothesis laws : cring_laws C.
  Notation "0" := (r0 C).
  Infix "+" := (radd C).
  Infix "*" := (rmul C).

  Lemma apply_mask_nth mask features kernel n k f : length kernel = (n * features)%nat -> k < n -> f < features ->
    nth (k * features + f)%nat (apply_mask C mask features kernel) 0 = weight C features kernel mask k f.
  Proof.
    intros Lk Hk Hf. unfold apply_mask, weight. destruct mask as [m|]; [|reflexivity].
    rewrite nth_map_seq' by nia. destruct (div_mod_at k features f Hf) as [E _].
    rewrite Nat.add_0_l, E. reflexivity.
  Qed.

  Lemma symm_entry n rows features kernel mask bias x f s :
    Forall (isperm n) rows -> length kernel = (n * features)%nat -> f < features -> s < length rows ->
    nth s (nth f (dense_symm C rows features kernel mask bias x) []) 0
    = biased C bias f (fsum C n (fun i => nth i x 0 * weight C features kernel mask (nth i (nth s rows []) O) f)).
  Proof.
    intros F Lk Hf Hs. unfold dense_symm.
    assert (Ln : length (hd [] rows) = n).
    { destruct rows as [|r rows]; cbn in Hs; [lia|]. cbn. apply isperm_len. apply Forall_cons_iff in F. tauto. }
    rewrite Ln. rewrite nth_map_seq' by exact Hf. rewrite nth_map_seq' by exact Hs. rewrite !Nat.add_0_l.
    unfold biased.
    match goal with |- context [fsum C n ?g] => set (lhs := fsum C n g) end.
    match goal with |- context [match bias with None => fsum C n ?g | _ => _ end] => set (rhs := fsum C n g) end.
    assert (E : lhs = rhs); [|rewrite E; reflexivity].
    subst lhs rhs. apply fsum_ext. intros i Hi. f_equal.
    unfold symmetrizer_col. rewrite Ln.
    set (ns := length rows) in *.
    assert (Hj : (f * ns + s < features * ns)%nat) by nia.
    replace ((i * features + f) * ns + s)%nat with (i * (features * ns) + (f * ns + s))%nat by ring.
    rewrite map_map. rewrite nth_map_seq' by nia. rewrite Nat.add_0_l.
    destruct (div_mod_at i (features * ns) _ Hj) as [-> ->].
    destruct (div_mod_at f ns s Hs) as [-> ->].
    apply (apply_mask_nth mask features kernel n); auto.
    eapply isperm_lt; [|apply nth_In; rewrite (isperm_len n); [exact Hi|]];
      rewrite Forall_forall in F; apply F, nth_In, Hs.
  Qed.

  Lemma symm_shaped rows features kernel mask bias x :
    shaped features (length rows) (dense_symm C rows features kernel mask bias x).
  Proof.
    unfold dense_symm. split; [now rewrite map_length, seq_length|].
    apply Forall_forall. intros r Hr. apply in_map_iff in Hr. destruct Hr as [f [<- _]].
    now rewrite map_length, seq_length.
  Qed.

  Lemma shaped_ext {A} (d : A) n m (a b : list (list A)) : shaped n m a -> shaped n m b ->
    (forall i j, i < n -> j < m -> nth j (nth i a []) d = nth j (nth i b []) d) -> a = b.
  Proof.
    intros [La Fa] [Lb Fb] E. apply nth_ext with [] []; [congruence|]. rewrite La. intros i Hi.
    rewrite Forall_forall in Fa, Fb.
    assert (Ha : length (nth i a []) = m) by (apply Fa, nth_In; lia).
    assert (Hb : length (nth i b []) = m) by (apply Fb, nth_In; lia).
    apply nth_ext with d d; [congruence|]. rewrite Ha. intros j Hj. apply E; assumption.
  Qed.

  Lemma moved_shaped {A} (d : A) L n m x : shaped n m x -> shaped n m (moved d L x).
  Proof.
    intros [La Fa]. unfold moved. split; [now rewrite map_length|].
    apply Forall_forall. intros r Hr. apply in_map_iff in Hr. destruct Hr as [q [<- Hq]].
    rewrite map_length, seq_length. rewrite Forall_forall in Fa. auto.
  Qed.

  Lemma moved_nth {A} (d : A) L n m x i j : shaped n m x -> i < n -> j < m ->
    nth j (nth i (moved d L x) []) d = nth (L j) (nth i x []) d.
  Proof.
    intros [La Fa] Hi Hj. unfold moved.
    match goal with |- context [map ?f x] => set (F := f) end.
    rewrite (map_nth' F []) by reflexivity. subst F. cbv beta.
    rewrite nth_map_seq'; [reflexivity|]. rewrite Forall_forall in Fa. rewrite Fa; [exact Hj|]. apply nth_In. lia.
  Qed.

  Lemma symm_equivariant n rows features kernel mask bias x g g' L :
    permutation_group n rows -> length kernel = (n * features)%nat -> length x = n ->
    In g rows -> inverses n g g' -> translation rows g' L ->
    dense_symm C rows features kernel mask bias (permuted 0 g x)
    = moved 0 L (dense_symm C rows features kernel mask bias x).
  Proof.
    intros [F [G N]] Lk Lx Hg J HL. pose proof F as F'. rewrite Forall_forall in F'.
    pose proof (F' g Hg) as Pg. pose proof (inverses_perm n g g' Pg J) as Pg'.
    apply (shaped_ext 0 features (length rows)); [apply symm_shaped|apply moved_shaped, symm_shaped|].
    intros f s Hf Hs. rewrite (moved_nth 0 L features (length rows)); [|apply symm_shaped|assumption|assumption].
    destruct (HL s Hs) as [Ls Es].
    rewrite !(fun x => symm_entry n rows features kernel mask bias x f) by assumption.
    f_equal. rewrite Es.
    rewrite <- (fsum_perm C laws n (fun i => nth i g O)
       (fun i => nth i x 0 * weight C features kernel mask (nth i (times g' (nth s rows [])) O) f)).
    - apply fsum_ext. intros i Hi. rewrite nth_permuted by (rewrite (isperm_len n); [exact Hi|exact Pg]).
      f_equal. f_equal. unfold times.
      assert (Hgi : nth i g O < n) by (eapply isperm_lt; [exact Pg|apply nth_In; rewrite (isperm_len n g Pg); exact Hi]).
      rewrite nth_permuted by (rewrite (isperm_len n g' Pg'); exact Hgi). f_equal.
      destruct J as [A _]. apply (f_equal (fun l => nth i l O)) in A. rewrite seq_nth in A by exact Hi.
      unfold times in A. rewrite nth_permuted in A by (rewrite (isperm_len n g Pg); exact Hi). symmetry. exact A.
    - intros i Hi. eapply isperm_lt; [exact Pg|apply nth_In; rewrite (isperm_len n g Pg); exact Hi].
    - intros i j Hi Hj E. apply (proj1 (NoDup_nth g O) (isperm_nodup n g Pg)); try rewrite (isperm_len n g Pg); assumption.
  Qed.

  Lemma symm_pooled n rows features kernel mask bias x g :
    permutation_group n rows -> length kernel = (n * features)%nat -> length x = n -> In g rows ->
    Forall2 (@Permutation (T C)) (dense_symm C rows features kernel mask bias (permuted 0 g x))
      (dense_symm C rows features kernel mask bias x).
  Proof.
    intros G Lk Lx Hg. pose proof G as [F [GG N]]. destruct (proj1 (proj2 GG) g Hg) as [g' [Hg' J]].
    destruct (translation_exists n rows g' F GG Hg') as [L HL].
    rewrite (symm_equivariant n rows features kernel mask bias x g g' L) by assumption.
    apply (moved_rows 0 L (length rows)); [apply symm_shaped|].
    eapply translation_perm; eauto.
  Qed.

  (** ** equivariant layer *)
  Lemma equiv_length pt cin cout kernel mask bias x :
    length (dense_equivariant C pt cin cout kernel mask bias x) = (cout * length pt)%nat.
  Proof. unfold dense_equivariant. now rewrite map_length, seq_length. Qed.

  Lemma equiv_entry pt cin cout kernel mask bias x o g :
    Forall (fun r => length r = length pt) pt -> (forall h, h < length pt -> nth g (nth h pt []) O < length pt) ->
    length kernel = (cout * cin * length pt)%nat -> shaped cin (length pt) x ->
    o < cout -> g < length pt ->
    nth (o * length pt + g)%nat (dense_equivariant C pt cin cout kernel mask bias x) 0
    = biased C bias o (fsum C cin (fun i => fsum C (length pt) (fun h =>
        nth h (nth i x []) 0 * weight3 C (length pt) cin kernel mask o i (nth g (nth h pt []) O)))).
  Proof.
    intros Fp Hpt Lk [Lx Fx] Ho Hg. unfold dense_equivariant. set (n := length pt) in *.
    rewrite nth_map_seq' by nia. rewrite Nat.add_0_l.
    destruct (div_mod_at o n g Hg) as [-> ->].
    unfold biased.
    match goal with |- context [fsum C (cin * n)%nat ?g] => set (lhs := fsum C (cin * n)%nat g) end.
    match goal with |- context [match bias with None => fsum C cin ?g | _ => _ end] => set (rhs := fsum C cin g) end.
    assert (E : lhs = rhs); [|rewrite E; reflexivity].
    subst lhs rhs. rewrite <- (fsum_flat C laws cin n). apply fsum_ext. intros row Hrow.
    rewrite (nth_concat 0 n) by (lia || assumption). f_equal.
    set (i := row / n). set (h := row mod n).
    assert (Hi : i < cin) by (apply Nat.div_lt_upper_bound; lia).
    assert (Hh : h < n) by (apply Nat.mod_upper_bound; lia).
    assert (H1 : (o * cin + i < cout * cin)%nat) by nia.
    assert (H2 : (h * n + g < n * n)%nat) by nia.
    assert (HQ : ((o * cin + i) * (n * n) + (h * n + g) < cout * cin * (n * n))%nat).
    { generalize dependent (n * n)%nat. generalize dependent (cout * cin)%nat. clear. intros. nia. }
    replace (((o * cin + i) * n + h) * n + g)%nat with ((o * cin + i) * (n * n) + (h * n + g))%nat by ring.
    rewrite nth_map_seq' by exact HQ. rewrite Nat.add_0_l.
    destruct (div_mod_at (o * cin + i) (n * n) (h * n + g)) as [-> ->]; [nia|].
    rewrite (nth_concat O n) by (lia || assumption).
    destruct (div_mod_at h n g Hg) as [-> ->].
    pose proof (Hpt h Hh) as Ht. set (t := nth g (nth h pt []) O) in *. unfold weight3.
    destruct mask as [m|]; [|reflexivity].
    rewrite nth_map_seq' by nia. rewrite Nat.add_0_l.
    destruct (div_mod_at (o * cin + i) n t Ht) as [_ ->]. reflexivity.
  Qed.
End WithRing.

Lemma product_table_widths g pt : Forall (wf (degree g)) (elems g) -> product_table g = Ok pt ->
  Forall (fun r => length r = length (elems g)) pt.
Proof.
  intros W H. unfold product_table in H. rewrite (to_array_ok g W) in H. cbn [bind] in H.
  destruct (inverse_of (perms g)) as [inv|] eqn:E; [|discriminate]. cbn [bind] in H.
  assert (H' : product_table_of (perms g) inv = Ok pt) by (destruct (perms g); [discriminate|exact H]).
  unfold product_table_of in H'. apply sequence_ok_in in H'.
  apply Forall_forall. intros r Hr. apply (in_map Ok) in Hr. rewrite <- H' in Hr.
  apply in_map_iff in Hr. destruct Hr as [i [Er _]]. apply sequence_ok_in in Er.
  apply (f_equal (@length _)) in Er. rewrite !map_length in Er. unfold perms in Er. rewrite map_length in Er. auto.
Qed.

(** everything the layers need to know about the product table of a group *)
Lemma table_facts g pt : Forall (wf (degree g)) (elems g) -> product_table g = Ok pt ->
  length pt = length (perms g) /\ Forall (fun r => length r = length pt) pt /\
  is_group (degree g) (perms g) /\ Forall (isperm (degree g)) (perms g) /\
  quotients (degree g) (perms g) (fun h k => nth k (nth h pt []) 0).
Proof.
  intros W H. pose proof (C27_product_table g W) as T. rewrite H in T. destruct T as [G [L Q]].
  assert (LE : length (perms g) = length (elems g)) by (unfold perms; now rewrite map_length).
  split; [congruence|]. split; [rewrite L; now apply product_table_widths|]. split; [exact G|].
  split; [apply Forall_forall; intros p Hp; eapply perms_perm; eauto|].
  intros h k p Hh Hk J. rewrite LE in *. apply Q; assumption.
Qed.

Lemma quotients_unique n rows q q' : NoDup rows -> Forall (isperm n) rows ->
  quotients n rows q -> quotients n rows q' -> forall h g, h < length rows -> g < length rows -> q h g = q' h g.
Proof.
  intros N F Q Q' h g Hh Hg. rewrite Forall_forall in F.
  pose proof (argsort_inverses n _ (F _ (nth_In rows [] Hh))) as J.
  destruct (Q h g _ Hh Hg J) as [A A']. destruct (Q' h g _ Hh Hg J) as [B B'].
  apply (proj1 (NoDup_nth rows []) N); try assumption. congruence.
Qed.

(** h^-1 g is unchanged when both are multiplied by k from the left *)
Lemma quotients_translation n rows q k L : permutation_group n rows -> In k rows -> quotients n rows q ->
  translation rows k L -> forall h g, h < length rows -> g < length rows -> q (L h) (L g) = q h g.
Proof.
  intros [F [G N]] Hk Q HL h g Hh Hg. rewrite Forall_forall in F.
  pose proof (F _ (nth_In rows [] Hh)) as Ph. pose proof (F _ (nth_In rows [] Hg)) as Pg. pose proof (F k Hk) as Pk.
  pose proof (argsort_inverses n _ Ph) as Jh. pose proof (argsort_inverses n k Pk) as Jk.
  pose proof (argsort_perm n _ Ph) as Ph'. pose proof (argsort_perm n k Pk) as Pk'.
  set (h' := argsort (nth h rows [])) in *. set (k' := argsort k) in *.
  destruct (HL h Hh) as [Lh Eh]. destruct (HL g Hg) as [Lg Eg].
  assert (J : inverses n (nth (L h) rows []) (times h' k')).
  { rewrite Eh. destruct Jh as [A B], Jk as [A' B']. split.
    - rewrite (times_assoc n), <- (times_assoc n (nth h rows []) h' k') by (try apply times_perm; assumption).
      rewrite A, (times_id_l n) by assumption. exact A'.
    - rewrite (times_assoc n), <- (times_assoc n k' k (nth h rows [])) by (try apply times_perm; assumption).
      rewrite B', (times_id_l n) by assumption. exact B. }
  destruct (Q h g h' Hh Hg Jh) as [A A']. destruct (Q (L h) (L g) _ Lh Lg J) as [B B'].
  apply (proj1 (NoDup_nth rows []) N); try assumption. rewrite A', B', Eg.
  rewrite (times_assoc n), <- (times_assoc n k' k (nth g rows [])) by (try apply times_perm; assumption).
  destruct Jk as [_ ->]. now rewrite (times_id_l n).
Qed.

Section Equivariant.
  Variable C : cring.
  Hypothesis laws : cring_laws C.
  Notation "0" := (r0 C).
  Infix "+" := (radd C).
  Infix "*" := (rmul C).
  Variable g : pgroup.
  Variable pt : list (list nat).
  Hypothesis W : Forall (wf (degree g)) (elems g).
  Hypothesis N : NoDup (perms g).
  Hypothesis PT : product_table g = Ok pt.

  Lemma equiv_formula cin cout kernel mask bias x q o k :
    quotients (degree g) (perms g) q ->
    length kernel = (cout * cin * length pt)%nat -> shaped cin (length pt) x -> o < cout -> k < length pt ->
    nth (o * length pt + k)%nat (dense_equivariant C pt cin cout kernel mask bias x) 0
    = biased C bias o (fsum C cin (fun i => fsum C (length pt) (fun h =>
        nth h (nth i x []) 0 * weight3 C (length pt) cin kernel mask o i (q h k)))).
  Proof.
    intros Hq Lk Sx Ho Hk. destruct (table_facts g pt W PT) as [LP [WP [G [F Q]]]].
    assert (Hlt : forall h, h < length pt -> nth k (nth h pt []) O < length pt).
    { intros h Hh. rewrite LP in *. rewrite Forall_forall in F.
      apply (Q h k _ Hh Hk (argsort_inverses _ _ (F _ (nth_In _ [] Hh)))). }
    rewrite (equiv_entry C laws) by assumption. f_equal. apply fsum_ext. intros i Hi. apply fsum_ext. intros h Hh.
    f_equal. f_equal. rewrite LP in Hh, Hk.
    apply (quotients_unique _ _ (fun h k => nth k (nth h pt []) O) q N F Q Hq h k Hh Hk).
  Qed.

  Lemma concat_reshape {A} a b (l : list A) : length l = (a * b)%nat -> concat (reshape a b l) = l.
  Proof.
    revert l. induction a as [|a IH]; intros l H; cbn [reshape concat].
    - destruct l; [reflexivity|discriminate].
    - rewrite IH; [apply firstn_skipn|]. rewrite skipn_length. cbn in H. lia.
  Qed.
  Lemma reshape_shaped {A} a b (l : list A) : length l = (a * b)%nat -> shaped a b (reshape a b l).
  Proof.
    intros H. split; [apply reshape_length|]. revert l H.
    induction a as [|a IH]; intros l H; cbn [reshape]; constructor.
    - rewrite firstn_length. cbn in H. lia.
    - apply IH. rewrite skipn_length. cbn in H. lia.
  Qed.
  Lemma reshape_at {A} (d : A) a b (l : list A) i j : length l = (a * b)%nat -> i < a -> j < b ->
    nth j (nth i (reshape a b l) []) d = nth (i * b + j)%nat l d.
  Proof.
    intros H Hi Hj. rewrite <- (concat_reshape a b l H) at 2.
    rewrite (nth_concat d b); [|lia|apply (reshape_shaped a b l H)].
    destruct (div_mod_at i b j Hj) as [-> ->]. reflexivity.
  Qed.

  Lemma equiv_translation cin cout kernel mask bias x k L :
    In k (perms g) -> translation (perms g) k L ->
    length kernel = (cout * cin * length pt)%nat -> shaped cin (length pt) x ->
    reshape cout (length pt) (dense_equivariant C pt cin cout kernel mask bias (moved 0 L x))
    = moved 0 L (reshape cout (length pt) (dense_equivariant C pt cin cout kernel mask bias x)).
  Proof.
    intros Hk HL Lk Sx. destruct (table_facts g pt W PT) as [LP [WP [G [F Q]]]].
    assert (PG : permutation_group (degree g) (perms g)) by (split; [|split]; assumption).
    assert (LL : forall y, length (dense_equivariant C pt cin cout kernel mask bias y) = (cout * length pt)%nat)
      by (intros; apply equiv_length).
    apply (shaped_ext 0 cout (length pt)).
    - apply reshape_shaped, LL.
    - apply moved_shaped, reshape_shaped, LL.
    - intros o s Ho Hs. rewrite (moved_nth 0 L cout (length pt)); [|apply reshape_shaped, LL|assumption|assumption].
      assert (Hs' : s < length (perms g)) by (now rewrite <- LP).
      assert (Ls : L s < length pt) by (rewrite LP; apply HL; exact Hs').
      rewrite !reshape_at by (auto; apply LL).
      rewrite !(fun x => equiv_formula cin cout kernel mask bias x _ o _ Q) by (try apply moved_shaped; assumption).
      f_equal. apply fsum_ext. intros i Hi.
      rewrite <- (fsum_perm C laws (length pt) L (fun h =>
        nth h (nth i x []) 0 * weight3 C (length pt) cin kernel mask o i (nth (L s) (nth h pt []) O))).
      + apply fsum_ext. intros h Hh. rewrite (moved_nth 0 L cin (length pt)) by assumption. f_equal. f_equal.
        rewrite LP in Hh. symmetry. apply (quotients_translation _ _ _ k L PG Hk Q HL h s Hh Hs').
      + intros h Hh. rewrite LP in *. apply HL. exact Hh.
      + intros a b Ha Hb E. rewrite LP in *. eapply translation_inj; eauto.
  Qed.

  Lemma moved_map {A} (d : A) (f : A -> A) L n m x : (forall h, h < m -> L h < m) -> shaped n m x ->
    map (map f) (moved d L x) = moved d L (map (map f) x).
  Proof.
    intros HL [Ln F]. unfold moved. rewrite !map_map. apply map_ext_in. intros r Hr.
    rewrite Forall_forall in F. pose proof (F r Hr) as Lr.
    rewrite map_map, map_length. apply map_ext_in. intros h Hh. apply in_seq in Hh.
    rewrite (nth_indep (map f r) d (f d)) by (rewrite map_length; specialize (HL h); lia). now rewrite map_nth.
  Qed.

  Lemma stack_translation act ls : forall c x k L, fits_stack (length pt) ls c ->
    In k (perms g) -> translation (perms g) k L -> shaped c (length pt) x ->
    stack C act pt ls (moved 0 L x) = moved 0 L (stack C act pt ls x)
    /\ Forall (fun r => length r = length pt) (stack C act pt ls x).
  Proof.
    destruct (table_facts g pt W PT) as [LP _].
    induction ls as [|l ls IH]; intros c x k L H Hk HL Sx; cbn [stack fold_left].
    - split; [reflexivity|apply Sx].
    - cbn [fits_stack] in H. destruct H as [E [Lk H]].
      assert (HLt : forall h, h < length pt -> L h < length pt) by (intros h Hh; rewrite LP in *; now apply HL).
      assert (Sa : shaped (e_in l) (length pt) (map (map act) x)).
      { rewrite E. destruct Sx as [Lx Fx]. split; [now rewrite map_length|].
        apply Forall_forall. intros r Hr. apply in_map_iff in Hr. destruct Hr as [r' [<- Hr]].
        rewrite map_length. rewrite Forall_forall in Fx. auto. }
      rewrite (moved_map 0 act L c (length pt)) by assumption.
      rewrite (equiv_translation (e_in l) (e_out l) (e_kernel l) (e_mask l) (e_bias l) _ k L) by assumption.
      change (fold_left _ ls ?y) with (stack C act pt ls y).
      apply (IH (e_out l) _ k L H Hk HL). apply reshape_shaped, equiv_length.
  Qed.

  Lemma network_invariant act ls features kernel mask bias x h :
    In h (perms g) -> length kernel = (degree g * features)%nat -> length x = degree g -> fits_stack (length pt) ls features ->
    Forall2 (@Permutation (T C))
      (stack C act pt ls (dense_symm C (perms g) features kernel mask bias (permuted 0 h x)))
      (stack C act pt ls (dense_symm C (perms g) features kernel mask bias x)).
  Proof.
    intros Hh Lk Lx Hf. destruct (table_facts g pt W PT) as [LP [WP [G [F Q]]]].
    assert (PG : permutation_group (degree g) (perms g)) by (split; [|split]; assumption).
    destruct (proj1 (proj2 G) h Hh) as [h' [Hh' J]].
    destruct (translation_exists _ _ h' F G Hh') as [L HL].
    rewrite (symm_equivariant C laws (degree g) (perms g) features kernel mask bias x h h' L) by assumption.
    assert (S1 : shaped features (length pt) (dense_symm C (perms g) features kernel mask bias x))
      by (rewrite LP; apply symm_shaped).
    destruct (stack_translation act ls features _ h' L Hf Hh' HL S1) as [-> S2].
    apply (moved_rows 0 L (length pt)); [exact S2|]. rewrite LP. eapply translation_perm; eauto.
  Qed.
End Equivariant.
