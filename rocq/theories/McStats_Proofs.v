(** * Proofs about the statistics of Monte Carlo data *)
From Coq Require Import List ZArith QArith Qcanon Arith Bool Lia Lqa Permutation Field.
From Verif Require Import MpiStats_Model MpiStats_Spec MpiStats_Proofs McStats_Model McStats_Spec.
Import ListNotations.
Open Scope Qc_scope.

(** ** Lists *)
Lemma concat_map_concat {A} (rs : list (list (list A))) : concat (map (@concat A) rs) = concat (concat rs).
Proof. induction rs as [|r rs IH]; [reflexivity|]. cbn [map concat]. rewrite IH, concat_app. reflexivity. Qed.

Lemma concat_len {A} (k : nat) (l : list (list A)) : Forall (fun a => length a = k) l -> length (concat l) = (length l * k)%nat.
Proof. induction 1 as [|a l H F IH]; [reflexivity|]. cbn [concat length]. rewrite app_length, IH, H. lia. Qed.

Lemma Forall_concat {A} (P : A -> Prop) (l : list (list A)) : Forall (Forall P) l -> Forall P (concat l).
Proof. induction 1; cbn [concat]; [constructor|]. apply Forall_app. auto. Qed.

Lemma shape_chains n L ranks : same_shape n L ranks ->
  Forall (fun c => length c = L) (concat ranks) /\ length (concat ranks) = (length ranks * n)%nat /\
  concat ranks <> [].
Proof.
  intros (Hn & HL & Ne & F). split; [|split].
  - apply Forall_concat. eapply Forall_impl; [|exact F]. intros m [_ H]. exact H.
  - apply concat_len. eapply Forall_impl; [|exact F]. intros m [H _]. exact H.
  - destruct ranks as [|m r]; [congruence|]. inversion F as [|? ? [H _] _]; subst. destruct m; [cbn in Hn; lia|discriminate].
Qed.

Lemma firstn_skipn_firstn {A} (l i N : nat) (c : list A) : (i + l <= N)%nat ->
  firstn l (skipn i (firstn N c)) = firstn l (skipn i c).
Proof.
  intros H. rewrite skipn_firstn_comm, firstn_firstn. f_equal. lia.
Qed.

Lemma windows {B} (g : list cplx -> B) (l q L : nat) m : (0 < l)%nat -> q = (L / l)%nat ->
  Forall (fun c => length c = L) m ->
  map (fun i => g (firstn l (skipn (i * l) (concat (map (firstn (q * l)) m)))))
      (seq 0 (length (concat (map (firstn (q * l)) m)) / l)) =
  map g (flat_map (pieces l) m).
Proof.
  intros Hl Hq. assert (HqL : (q * l <= L)%nat) by (subst q; rewrite Nat.mul_comm; apply Nat.mul_div_le; lia).
  induction 1 as [|c m Hc F IH].
  { cbn [map concat length]. rewrite Nat.div_0_l by lia. reflexivity. }
  cbn [map concat flat_map]. rewrite map_app, <- IH. set (xs := concat (map (firstn (q * l)) m)).
  assert (La : length (firstn (q * l) c) = (q * l)%nat) by (rewrite firstn_length; lia).
  rewrite app_length, La, Nat.div_add_l by lia. rewrite seq_app, map_app. f_equal.
  - unfold pieces. rewrite Hc, <- Hq, map_map. apply map_ext_in. intros i Hi. apply in_seq in Hi. f_equal.
    assert (Hi' : (i * l + l <= q * l)%nat) by nia.
    rewrite skipn_app, firstn_app, skipn_length, La.
    replace (l - (q * l - i * l))%nat with 0%nat by lia. cbn [firstn]. rewrite app_nil_r.
    apply firstn_skipn_firstn. exact Hi'.
  - rewrite Nat.add_0_l. rewrite <- (Nat.add_0_r q) at 1.
    rewrite <- (map_id (seq (q + 0) _)). 
    replace (seq (q + 0) (length xs / l)) with (map (fun j => (q + j)%nat) (seq 0 (length xs / l))).
    2:{ clear. generalize (length xs / l)%nat as k. generalize 0%nat as s. intros s k. revert s.
        induction k as [|k IH]; intros s; [reflexivity|]. cbn [seq map]. f_equal. rewrite IH. f_equal. lia. }
    rewrite !map_map. apply map_ext. intros j. f_equal. f_equal.
    rewrite skipn_app, La. rewrite skipn_all2 by (rewrite La; nia). cbn [app]. f_equal. nia.
Qed.

Lemma hd_length L (m : list (list cplx)) : m <> [] -> Forall (fun c => length c = L) m -> length (hd [] m) = L.
Proof. destruct m; [congruence|]. intros _ F. inversion F. assumption. Qed.

Lemma get_blocks_eq l L m : (0 < l)%nat -> m <> [] -> Forall (fun c => length c = L) m ->
  get_blocks l m = map gmean (flat_map (pieces l) m).
Proof.
  intros Hl Ne F. unfold get_blocks. rewrite (hd_length L) by assumption.
  apply (windows gmean l (L / l) L m Hl eq_refl F).
Qed.

Lemma pieces_count l L m : Forall (fun c => length c = L) m -> length (flat_map (pieces l) m) = (length m * (L / l))%nat.
Proof.
  induction 1 as [|c m Hc F IH]; [reflexivity|]. cbn [flat_map length]. rewrite app_length, IH. unfold pieces at 1.
  rewrite map_length, seq_length, Hc. lia.
Qed.

Lemma pieces_length l L c : (0 < l)%nat -> length c = L -> Forall (fun p => length p = l) (pieces l c).
Proof.
  intros Hl Hc. unfold pieces. apply Forall_forall. intros p I. apply in_map_iff in I. destruct I as [i [<- I]].
  apply in_seq in I. rewrite firstn_length, skipn_length.
  assert (((length c) / l) * l <= length c)%nat by (rewrite Nat.mul_comm; apply Nat.mul_div_le; lia). nia.
Qed.

Lemma pieces_concat l c : (0 < l)%nat -> concat (pieces l c) = firstn (length c / l * l) c.
Proof.
  intros Hl. unfold pieces. 
  assert (H : forall k, (k * l <= length c)%nat -> concat (map (fun i => firstn l (skipn (i * l) c)) (seq 0 k)) = firstn (k * l) c).
  { induction k as [|k IH]; intros Hk; [reflexivity|]. rewrite seq_S, map_app, concat_app, IH by nia. cbn [map concat Nat.add].
    rewrite app_nil_r. replace (S k * l)%nat with (k * l + l)%nat by lia.
    rewrite <- (firstn_skipn (k * l) c) at 3. rewrite firstn_app, firstn_length_le by nia.
    replace (k * l + l - k * l)%nat with l by lia. rewrite firstn_firstn. f_equal. f_equal. lia. }
  apply H. rewrite Nat.mul_comm. apply Nat.mul_div_le. lia.
Qed.

(** ** Inequalities between rational numbers *)
Lemma this_add a b : (this (a + b) == this a + this b)%Q.
Proof. apply Qred_correct. Qed.
Lemma this_mul a b : (this (a * b) == this a * this b)%Q.
Proof. apply Qred_correct. Qed.
Lemma this_opp a : (this (- a) == - this a)%Q.
Proof. apply Qred_correct. Qed.
Lemma this_sub a b : (this (a - b) == this a - this b)%Q.
Proof. unfold Qcminus. rewrite this_add, this_opp. reflexivity. Qed.

Ltac toQ := unfold Qcle, Qclt in *;
  repeat first [ setoid_rewrite this_add | setoid_rewrite this_mul | setoid_rewrite this_opp | setoid_rewrite this_sub ].

Lemma qc_lt_iff a b : qc_lt a b = true <-> a < b.
Proof. unfold qc_lt. rewrite Qclt_alt. destruct (a ?= b); split; congruence. Qed.

Lemma qsum_nonneg {A} (f : A -> Qc) l : (forall x, 0 <= f x) -> 0 <= qsum (map f l).
Proof. intros H. induction l as [|a l IH]; cbn [map qsum]; [apply Qcle_refl|]. apply Qc_add_nonneg; auto. Qed.

Lemma qsum_le {A} (f g : A -> Qc) l : (forall x, In x l -> f x <= g x) -> qsum (map f l) <= qsum (map g l).
Proof.
  intros H. induction l as [|a l IH]; cbn [map qsum]; [apply Qcle_refl|].
  apply Qcplus_le_compat; [apply H; left; reflexivity|apply IH; intros x I; apply H; right; exact I].
Qed.

Lemma qsum_scale {A} (f : A -> Qc) c l : qsum (map (fun x => c * f x) l) = c * qsum (map f l).
Proof. induction l as [|a l IH]; cbn [map qsum]; [ring|]. rewrite IH. ring. Qed.

Lemma nQc_S n : nQc (S n) = nQc n + 1.
Proof. replace (S n) with (n + 1)%nat by lia. rewrite nQc_add. reflexivity. Qed.

Lemma nQc_pos n : (0 < n)%nat -> 0 < nQc n.
Proof.
  intros H.
  destruct (Qcle_lt_or_eq _ _ (nQc_le 0 n (Nat.le_0_l n))) as [P|P]; [exact P|].
  exfalso. apply (nQc_ne n H). rewrite <- P. reflexivity.
Qed.

(** sum of |x - t|^2, expanded *)
Definition csq (t : cplx) (l : list cplx) : Qc := qsum (map (fun x => cabs2 (csub x t)) l).
Definition sq (l : list cplx) : Qc := qsum (map cabs2 l).

Lemma csq_expand t l : csq t l = sq l - nQc 2 * (fst t * fst (csum l) + snd t * snd (csum l)) + nQc (length l) * cabs2 t.
Proof.
  unfold csq, sq. induction l as [|x l IH]; cbn [map qsum csum length].
  - unfold c0. cbn [fst snd]. change (nQc 0) with 0. ring.
  - rewrite IH, (nQc_S (length l)). unfold cabs2, csub, cadd. cbn [fst snd]. change (nQc 2) with (1 + 1). ring.
Qed.

Lemma cabs2_nonneg x : 0 <= cabs2 x.
Proof. unfold cabs2. apply Qc_add_nonneg; apply sq_nonneg. Qed.

Lemma csum_gmean l : l <> [] -> csum l = (nQc (length l) * fst (gmean l), nQc (length l) * snd (gmean l)).
Proof.
  intros H. unfold gmean, cdivr. cbn [fst snd]. destruct (csum l) as [a b]. cbn [fst snd].
  assert (nQc (length l) <> 0) by (apply nQc_ne; destruct l; [congruence|cbn; lia]). f_equal; field; assumption.
Qed.

Lemma csq_shift t l : l <> [] -> csq t l = csq (gmean l) l + nQc (length l) * cabs2 (csub (gmean l) t).
Proof.
  intros H. rewrite !csq_expand, csum_gmean by exact H. unfold cabs2, csub. cbn [fst snd]. change (nQc 2) with (1 + 1). ring.
Qed.

Lemma le_plus_r a b : 0 <= b -> a <= a + b.
Proof. intros H. rewrite <- (Qcplus_0_r a) at 1. apply Qcplus_le_compat; [apply Qcle_refl|exact H]. Qed.
Lemma le_plus_l a b : 0 <= b -> a <= b + a.
Proof. intros H. rewrite Qcplus_comm. apply le_plus_r, H. Qed.

Lemma mul_nonneg a b : 0 <= a -> 0 <= b -> 0 <= a * b.
Proof. intros A B. replace 0 with (0 * b) by ring. apply Qcmult_le_compat_r; assumption. Qed.

Lemma csq_nonneg t l : 0 <= csq t l.
Proof. apply qsum_nonneg. intros x. apply cabs2_nonneg. Qed.
Lemma nQc_nonneg n : 0 <= nQc n.
Proof. apply (nQc_le 0). lia. Qed.

Lemma csq_min t l : l <> [] -> csq (gmean l) l <= csq t l.
Proof. intros H. rewrite (csq_shift t l H). apply le_plus_r, mul_nonneg; [apply nQc_nonneg|apply cabs2_nonneg]. Qed.

Lemma csq_app t a b : csq t (a ++ b) = csq t a + csq t b.
Proof. unfold csq. rewrite map_app. apply qsum_app. Qed.

Lemma jensen t g : g <> [] -> nQc (length g) * cabs2 (csub (gmean g) t) <= csq t g.
Proof. intros H. rewrite (csq_shift t g H). apply le_plus_l, csq_nonneg. Qed.

Lemma means_csq t k gs : (0 < k)%nat -> Forall (fun g => length g = k) gs ->
  nQc k * csq t (map gmean gs) <= csq t (concat gs).
Proof.
  intros Hk F. induction F as [|g gs Hg F IH]; [unfold csq; cbn; replace (nQc k * 0) with 0 by ring; apply Qcle_refl|].
  cbn [map concat]. rewrite csq_app. unfold csq at 1. cbn [map qsum]. fold (csq t (map gmean gs)).
  replace (nQc k * (cabs2 (csub (gmean g) t) + csq t (map gmean gs)))
    with (nQc k * cabs2 (csub (gmean g) t) + nQc k * csq t (map gmean gs)) by ring.
  apply Qcplus_le_compat; [|exact IH]. rewrite <- Hg. apply jensen. destruct g; [cbn in Hg; lia|discriminate].
Qed.

Lemma gvar_csq l : l <> [] -> gvar 0 l * nQc (length l) = csq (gmean l) l.
Proof.
  intros H. unfold gvar. change (nQc 0) with 0. fold (csq (gmean l) l).
  assert (nQc (length l) <> 0) by (apply nQc_ne; destruct l; [congruence|cbn; lia]). field. 
  replace (nQc (length l) - 0) with (nQc (length l)) by ring. assumption.
Qed.

Lemma means_bound t k gs : (0 < k)%nat -> gs <> [] -> Forall (fun g => length g = k) gs ->
  nQc k * nQc (length gs) * means_variance gs <= csq t (concat gs).
Proof.
  intros Hk Ne F. eapply Qcle_trans; [|apply (means_csq t k gs Hk F)].
  assert (Nm : map gmean gs <> []) by (destruct gs; [congruence|discriminate]).
  replace (nQc k * nQc (length gs) * means_variance gs) with (csq (gmean (map gmean gs)) (map gmean gs) * nQc k).
  - rewrite (Qcmult_comm (nQc k)). apply Qcmult_le_compat_r; [apply csq_min, Nm|apply nQc_nonneg].
  - rewrite <- gvar_csq by exact Nm. rewrite map_length. unfold means_variance. ring.
Qed.

Lemma csq_firstn t n l : csq t (firstn n l) <= csq t l.
Proof. rewrite <- (firstn_skipn n l) at 2. rewrite csq_app. apply le_plus_r, csq_nonneg. Qed.

Lemma pieces_csq t l m : (0 < l)%nat -> csq t (concat (flat_map (pieces l) m)) <= csq t (concat m).
Proof.
  intros Hl. induction m as [|c m IH]; [apply Qcle_refl|]. cbn [flat_map concat]. rewrite concat_app, !csq_app, pieces_concat by exact Hl.
  apply Qcplus_le_compat; [apply csq_firstn|exact IH].
Qed.

(** the bound on the autocorrelation time that the code tests always holds *)
Lemma tau_small (ts nb l : nat) (bv V : Qc) : (0 < nb)%nat -> (0 < l)%nat -> (ts <= 2 * (l * nb))%nat -> 0 < V ->
  nQc l * nQc nb * bv <= V * nQc ts ->
  (nQc ts / nQc nb * bv / V - 1) / nQc 2 < nQc (6 * l).
Proof.
  intros Hnb Hl Hts HV Hb.
  assert (Pn : 0 < nQc nb) by (apply nQc_pos; exact Hnb). assert (Pl : 0 < nQc l) by (apply nQc_pos; exact Hl).
  pose proof (nQc_ne nb Hnb) as Nn. pose proof (nQc_ne l Hl) as Nl.
  assert (NV : V <> 0) by (intros E; rewrite E in HV; apply (Qclt_not_eq _ _ HV); reflexivity).
  set (x := nQc ts / nQc nb * bv / V).
  assert (Ex : x * (nQc nb * V) = nQc ts * bv) by (unfold x; field; split; assumption).
  assert (Hx : x <= nQc (4 * l)).
  { apply (Qcmult_lt_0_le_reg_r _ _ (nQc nb * V * (nQc l * nQc nb))).
    - assert (0 < nQc nb * V * (nQc l * nQc nb)); [|assumption].
      replace 0 with (0 * (nQc l * nQc nb)) by ring. apply Qcmult_lt_compat_r.
      + replace 0 with (0 * nQc nb) by ring. apply Qcmult_lt_compat_r; [exact Pn|exact Pl].
      + replace 0 with (0 * V) by ring. apply Qcmult_lt_compat_r; [exact HV|exact Pn].
    - replace (x * (nQc nb * V * (nQc l * nQc nb))) with ((x * (nQc nb * V)) * (nQc l * nQc nb)) by ring. rewrite Ex.
      replace (nQc ts * bv * (nQc l * nQc nb)) with ((nQc l * nQc nb * bv) * nQc ts) by ring.
      apply Qcle_trans with (V * nQc ts * nQc ts); [apply Qcmult_le_compat_r; [exact Hb|apply nQc_nonneg]|].
      replace (nQc (4 * l) * (nQc nb * V * (nQc l * nQc nb))) with (nQc (2 * (l * nb)) * nQc (2 * (l * nb)) * V).
      + replace (V * nQc ts * nQc ts) with (nQc ts * nQc ts * V) by ring.
        apply Qcmult_le_compat_r; [|apply Qclt_le_weak; exact HV].
        rewrite <- !nQc_mul. apply nQc_le. nia.
      + rewrite !nQc_mul. change (nQc 4) with (nQc (2 * 2)). rewrite nQc_mul. ring. }
  clearbody x. clear Ex Hb.
  assert (H6 : nQc (6 * l) * nQc 2 = nQc (4 * l) + nQc (8 * l)).
  { rewrite <- nQc_mul, <- nQc_add. f_equal. lia. }
  apply Qcnot_le_lt. intros C.
  apply (Qcmult_le_compat_r _ _ (nQc 2)) in C; [|apply nQc_nonneg].
  replace ((x - 1) / nQc 2 * nQc 2) with (x - 1) in C by (field; discriminate).
  rewrite H6 in C.
  assert (D : x < nQc (4 * l) + nQc (8 * l) + 1).
  { apply Qcle_lt_trans with (nQc (4 * l)); [exact Hx|].
    rewrite <- nQc_add. replace (nQc (4 * l + 8 * l) + 1) with (nQc (4 * l) + nQc (8 * l + 1)) by (rewrite !nQc_add; change (nQc 1) with 1; ring).
    apply Qclt_minus_iff. replace (nQc (4 * l) + nQc (8 * l + 1) + - nQc (4 * l)) with (nQc (8 * l + 1)) by ring. apply nQc_pos. lia. }
  apply (Qcle_not_lt _ _ C). apply Qclt_minus_iff. apply Qclt_minus_iff in D.
  replace (nQc (4 * l) + nQc (8 * l) + - (x - 1)) with (nQc (4 * l) + nQc (8 * l) + 1 + - x) by ring. exact D.
Qed.

(** ** The main theorem *)
Lemma gvar_nonneg l : l <> [] -> 0 <= gvar 0 l.
Proof.
  intros H. apply (Qcmult_lt_0_le_reg_r _ _ (nQc (length l))).
  - apply nQc_pos. destruct l; [congruence|cbn; lia].
  - rewrite gvar_csq by exact H. replace (0 * nQc (length l)) with 0 by ring. apply csq_nonneg.
Qed.

Lemma l_block_bounds bs L : (0 < bs)%nat -> (0 < L)%nat ->
  let l := Nat.max 1 (L / bs) in
  (0 < l)%nat /\ (0 < L / l)%nat /\ (L <= 2 * (l * (L / l)))%nat /\ (bs <= L -> bs <= L / l)%nat /\ (L < bs -> l = 1)%nat.
Proof.
  intros Hb HL l.
  assert (Hl : (l <= L)%nat). { unfold l. pose proof (Nat.div_le_upper_bound L bs L ltac:(lia)). nia. }
  assert (Hl0 : (0 < l)%nat) by (unfold l; lia).
  assert (Hq : (0 < L / l)%nat) by (apply Nat.div_str_pos; lia).
  repeat split; auto.
  - pose proof (Nat.div_mod L l ltac:(lia)). pose proof (Nat.mod_upper_bound L l ltac:(lia)). nia.
  - intros H. apply Nat.div_le_lower_bound; [lia|]. unfold l.
    assert (1 <= L / bs)%nat by (apply Nat.div_le_lower_bound; lia). rewrite Nat.max_r by lia. rewrite Nat.mul_comm. apply Nat.mul_div_le. lia.
  - intros H. unfold l. rewrite Nat.div_small by exact H. reflexivity.
Qed.

Section Main.
Variables (n L bs : nat) (ranks : list (list (list cplx))).
Hypothesis Sh : same_shape n L ranks.
Hypothesis Hbs : (0 < bs)%nat.
Let chains := concat ranks.

Lemma Fchains : Forall (fun c => length c = L) chains.
Proof. apply (shape_chains n L ranks Sh). Qed.
Lemma Nchains : chains <> [].
Proof. apply (shape_chains n L ranks Sh). Qed.
Lemma Lchains : length chains = (length ranks * n)%nat.
Proof. apply (shape_chains n L ranks Sh). Qed.
Lemma HL : (0 < L)%nat.
Proof. apply Sh. Qed.

Lemma split_data : equal_split (n * L) (map (@concat cplx) ranks).
Proof.
  destruct Sh as (Hn & HL & Ne & F). split; [nia|]. split; [destruct ranks; [congruence|discriminate]|].
  apply Forall_map. eapply Forall_impl; [|exact F]. intros m [Hm Fm]. rewrite (concat_len L) by exact Fm. lia.
Qed.
Lemma split_means : equal_split n (map (map local_mean) ranks).
Proof.
  destruct Sh as (Hn & HL & Ne & F). split; [exact Hn|]. split; [destruct ranks; [congruence|discriminate]|].
  apply Forall_map. eapply Forall_impl; [|exact F]. intros m [Hm Fm]. rewrite map_length. exact Hm.
Qed.

Lemma rank_chains m : In m ranks -> length m = n /\ Forall (fun c => length c = L) m /\ m <> [].
Proof.
  intros I. destruct Sh as (Hn & HL & Ne & F). rewrite Forall_forall in F. destruct (F m I) as [Hm Fm].
  repeat split; auto. destruct m; [cbn in Hm; lia|discriminate].
Qed.

Lemma blocks_map l : (0 < l)%nat ->
  map (get_blocks l) ranks = map (fun m => map gmean (flat_map (pieces l) m)) ranks.
Proof. intros Hl. apply map_ext_in. intros m I. destruct (rank_chains m I) as (_ & F & Ne). apply (get_blocks_eq l L); assumption. Qed.

Lemma split_blocks l : (0 < l)%nat -> (0 < L / l)%nat -> equal_split (n * (L / l)) (map (get_blocks l) ranks).
Proof.
  intros Hl Hq. rewrite blocks_map by exact Hl.
  destruct Sh as (Hn & HL & Ne & F). split; [nia|]. split; [destruct ranks; [congruence|discriminate]|].
  apply Forall_map. eapply Forall_impl; [|exact F]. intros m [Hm Fm]. rewrite map_length, (pieces_count l L) by exact Fm. lia.
Qed.

Lemma concat_blocks l : (0 < l)%nat -> concat (map (get_blocks l) ranks) = map gmean (flat_map (pieces l) chains).
Proof.
  intros Hl. rewrite blocks_map by exact Hl. unfold chains. clear.
  induction ranks as [|m r IH]; [reflexivity|]. cbn [map concat]. rewrite IH, flat_map_app, map_app. reflexivity.
Qed.

Lemma data_ne : concat chains <> [].
Proof.
  pose proof Fchains as F. pose proof Nchains as N. pose proof HL as H0. clearbody chains. destruct chains as [|c cs]; [congruence|].
  inversion F as [|? ? Hc _]. destruct c; [cbn in Hc; lia|discriminate].
Qed.

Lemma groups_ineq k gs : (0 < k)%nat -> gs <> [] -> Forall (fun g => length g = k) gs ->
  csq (gmean (concat chains)) (concat gs) <= csq (gmean (concat chains)) (concat chains) ->
  nQc k * nQc (length gs) * means_variance gs <= variance chains * nQc (length (concat chains)).
Proof.
  intros Hk Ne F Hle. unfold variance. rewrite gvar_csq.
  - eapply Qcle_trans; [apply (means_bound (gmean (concat chains)) k gs Hk Ne F)|exact Hle].
  - exact data_ne.
Qed.

Lemma fdiv_zero a : a = 0 -> fdiv a 0 = NaN.
Proof. intros ->. reflexivity. Qed.

Lemma fdiv_fin a b : b <> 0 -> fdiv a b = Fin (a / b).
Proof. intros H. unfold fdiv. destruct (Qc_eq_dec b 0); [contradiction|reflexivity]. Qed.

(** if the variance is zero so is the variance of the means *)
Lemma means_zero k gs : (0 < k)%nat -> gs <> [] -> Forall (fun g => length g = k) gs ->
  csq (gmean (concat chains)) (concat gs) <= csq (gmean (concat chains)) (concat chains) ->
  variance chains = 0 -> means_variance gs = 0.
Proof.
  intros Hk Ne F Hle HV. pose proof (groups_ineq k gs Hk Ne F Hle) as H. rewrite HV in H.
  replace (0 * nQc (length (concat chains))) with 0 in H by ring.
  assert (P : 0 < nQc k * nQc (length gs)).
  { replace 0 with (0 * nQc (length gs)) by ring. apply Qcmult_lt_compat_r; apply nQc_pos; [destruct gs; [congruence|cbn; lia]|exact Hk]. }
  assert (G : 0 <= means_variance gs) by (apply gvar_nonneg; destruct gs; [congruence|discriminate]).
  apply Qcle_antisym; [|exact G].
  apply (Qcmult_lt_0_le_reg_r _ _ _ P). replace (0 * (nQc k * nQc (length gs))) with 0 by ring. rewrite Qcmult_comm. exact H.
Qed.

Lemma tau_good k gs : (0 < k)%nat -> gs <> [] -> Forall (fun g => length g = k) gs ->
  csq (gmean (concat chains)) (concat gs) <= csq (gmean (concat chains)) (concat chains) ->
  (length (concat chains) <= 2 * (k * length gs))%nat -> variance chains <> 0 ->
  qc_lt (tau_of chains gs) (nQc (6 * k)) = true.
Proof.
  intros Hk Ne F Hle Hts NV. apply qc_lt_iff. unfold tau_of. apply tau_small; auto.
  - destruct gs; [congruence|cbn; lia].
  - assert (P : 0 <= variance chains) by (apply gvar_nonneg, data_ne).
    apply Qcle_lt_or_eq in P. destruct P as [P|P]; [exact P|]. congruence.
  - apply groups_ineq; assumption.
Qed.

Lemma pick k gs : (0 < k)%nat -> gs <> [] -> Forall (fun g => length g = k) gs ->
  csq (gmean (concat chains)) (concat gs) <= csq (gmean (concat chains)) (concat chains) ->
  (length (concat chains) <= 2 * (k * length gs))%nat ->
  let tau := faff (fun x => (x - 1) / nQc 2)
       (fdiv (nQc (length (concat chains)) / nQc (length gs) * means_variance gs) (variance chains)) in
  tau = (if Qc_eq_dec (variance chains) 0 then NaN else Fin (tau_of chains gs)) /\
  flt tau (nQc (6 * k)) = (if Qc_eq_dec (variance chains) 0 then false else true).
Proof.
  intros Hk Ne F Hle Hts tau.
  assert (E : tau = if Qc_eq_dec (variance chains) 0 then NaN else Fin (tau_of chains gs)).
  { unfold tau. destruct (Qc_eq_dec (variance chains) 0) as [Z|NZ].
    - rewrite Z, (means_zero k gs Hk Ne F Hle Z), fdiv_zero by ring. reflexivity.
    - rewrite fdiv_fin by exact NZ. reflexivity. }
  split; [exact E|]. rewrite E. destruct (Qc_eq_dec (variance chains) 0) as [Z|NZ]; [reflexivity|].
  apply (tau_good k gs); assumption.
Qed.

Theorem distributed mine : In mine ranks -> statistics bs ranks mine = stats_of bs L chains.
Proof.
  intros I. destruct (rank_chains mine I) as (Lm & Fm & Nm). pose proof HL as HL0.
  unfold statistics. rewrite (hd_length L) by assumption.
  set (l := Nat.max 1 (L / bs)). destruct (l_block_bounds bs L Hbs HL0) as (Hl & Hq & H2 & _). fold l in Hl, Hq, H2.
  rewrite (mean_main (n * L)) by exact split_data. rewrite concat_map_concat. fold chains.
  rewrite (var_main (n * L) (map (@concat cplx) ranks) 0 (concat mine) split_data) by (apply in_map; exact I).
  rewrite concat_map_concat. fold chains. fold (variance chains).
  rewrite (var_main n (map (map local_mean) ranks) 0 (map local_mean mine) split_means) by (apply in_map; exact I).
  rewrite <- concat_map. change local_mean with gmean.
  fold chains. fold (means_variance chains).
  rewrite (var_main (n * (L / l)) (map (get_blocks l) ranks) 0 (get_blocks l mine) (split_blocks l Hl Hq)) by (apply in_map; exact I).
  rewrite (concat_blocks l Hl). fold (means_variance (flat_map (pieces l) chains)).
  assert (T1 : total_size (length ranks) (concat mine) = length (concat chains)).
  { unfold total_size. rewrite (concat_len L mine Fm), (concat_len L chains Fchains), Lchains. lia. }
  assert (T2 : total_size (length ranks) (map gmean mine) = length chains).
  { unfold total_size. rewrite map_length, Lchains, ?Lm. ring. }
  assert (T3 : total_size (length ranks) (get_blocks l mine) = length (flat_map (pieces l) chains)).
  { unfold total_size. rewrite (get_blocks_eq l L mine Hl Nm Fm), map_length, (pieces_count l L mine Fm), (pieces_count l L chains Fchains), Lchains, ?Lm. ring. }
  rewrite T1, T2, T3. set (ps := flat_map (pieces l) chains) in *.
  assert (Cl : length (concat chains) = (length chains * L)%nat) by apply (concat_len L chains Fchains).
  assert (Pl : length ps = (length chains * (L / l))%nat) by apply (pieces_count l L chains Fchains).
  assert (Nc : (0 < length chains)%nat) by (pose proof Nchains; destruct chains; [congruence|cbn; lia]).
  assert (Nps : ps <> []) by (intros E; rewrite E in Pl; pose proof (Nat.mul_pos_pos _ _ Nc Hq) as PP; rewrite <- Pl in PP; cbn in PP; lia).
  assert (Fps : Forall (fun g => length g = l) ps).
  { unfold ps. apply Forall_forall. intros p Ip. apply in_flat_map in Ip. destruct Ip as [c [Ic Ip]].
    pose proof Fchains as FF. rewrite Forall_forall in FF. pose proof (pieces_length l L c Hl (FF c Ic)) as PL.
    rewrite Forall_forall in PL. apply PL, Ip. }
  destruct (pick L chains HL0 Nchains Fchains (Qcle_refl _) ltac:(nia)) as [B1 B2].
  destruct (pick l ps Hl Nps Fps (pieces_csq _ l chains Hl) ltac:(nia)) as [K1 K2].
  cbn zeta in B1, B2, K1, K2. cbn zeta. rewrite B2, K2, B1, K1.
  unfold stats_of, groups. fold l. fold ps.
  destruct (Qc_eq_dec (variance chains) 0) as [Z|NZ].
  - cbn [andb fst snd]. f_equal.
    + destruct (bs <=? length chains)%nat, (bs <=? length ps)%nat; reflexivity.
    + destruct (bs <=? length chains)%nat, (bs <=? length ps)%nat; reflexivity.
    + rewrite andb_false_r. destruct (1 <? length chains)%nat; [|reflexivity].
      rewrite Z, (means_zero L chains HL0 Nchains Fchains (Qcle_refl _) Z). reflexivity.
  - cbn [andb negb]. rewrite andb_true_r. f_equal.
    + destruct (bs <=? length chains)%nat, (bs <=? length ps)%nat; reflexivity.
    + destruct (bs <=? length chains)%nat, (bs <=? length ps)%nat; reflexivity.
    + destruct (1 <? length chains)%nat; [|reflexivity]. rewrite fdiv_fin by exact NZ. reflexivity.
Qed.
End Main.

(** ** Consequences *)
Lemma Fin_inj a b : Fin a = Fin b -> a = b.
Proof. intros H. congruence. Qed.

Definition chains_ok (L : nat) (chains : list (list cplx)) : Prop :=
  (0 < L)%nat /\ chains <> [] /\ Forall (fun c => length c = L) chains.

Lemma shape_ok n L ranks : same_shape n L ranks -> chains_ok L (concat ranks).
Proof. intros H. split; [apply H|]. split; apply (shape_chains n L ranks H). Qed.

Lemma single_shape L chains : chains_ok L chains -> same_shape (length chains) L [chains].
Proof.
  intros (H1 & H2 & H3). repeat split; auto; [destruct chains; [congruence|cbn; lia]|discriminate].
Qed.

Lemma groups_some bs L chains : (0 < bs)%nat -> chains_ok L chains ->
  match groups bs L chains with
  | Some gs => gs <> [] /\ (bs <= length (concat chains))%nat
  | None => (length (concat chains) < bs)%nat
  end.
Proof.
  intros Hb (HL & Ne & F). unfold groups. destruct (l_block_bounds bs L Hb HL) as (Hl & Hq & H2 & H3 & H4).
  set (l := Nat.max 1 (L / bs)) in *. rewrite (concat_len L chains F), (pieces_count l L chains F).
  destruct (Nat.leb_spec bs (length chains)) as [A|A]; [split; [exact Ne|nia]|].
  destruct (Nat.leb_spec bs (length chains * (L / l))) as [B|B].
  - split.
    + intros E. apply (f_equal (@length _)) in E. rewrite (pieces_count l L chains F) in E. cbn [length] in E. lia.
    + assert (L / l <= L)%nat by (apply Nat.div_le_upper_bound; nia). nia.
  - destruct (Nat.le_gt_cases bs L) as [C|C].
    + exfalso. specialize (H3 C). destruct chains; [congruence|]. cbn [length] in B. nia.
    + specialize (H4 C). rewrite H4, Nat.div_1_r in B. exact B.
Qed.

Lemma defined_main n L bs ranks mine : same_shape n L ranks -> (0 < bs)%nat -> In mine ranks ->
  (exists e, s_error2 (statistics bs ranks mine) = Fin e) <->
  variance (concat ranks) <> 0 /\ (bs <= length (concat (concat ranks)))%nat.
Proof.
  intros Sh Hb I. rewrite (distributed n L bs ranks Sh Hb mine I). unfold stats_of. cbn [s_error2].
  pose proof (groups_some bs L _ Hb (shape_ok n L ranks Sh)) as G.
  destruct (groups bs L (concat ranks)) as [gs|].
  - destruct (Qc_eq_dec (variance (concat ranks)) 0) as [Z|NZ]; split.
    + intros [e E]. discriminate.
    + intros [N _]. contradiction.
    + intros _. split; [exact NZ|apply G].
    + intros _. eauto.
  - split; [intros [e E]; discriminate|]. intros [_ H]. lia.
Qed.

Lemma error_tau_main n L bs ranks mine e t : same_shape n L ranks -> (0 < bs)%nat -> In mine ranks ->
  s_error2 (statistics bs ranks mine) = Fin e -> s_tau (statistics bs ranks mine) = Fin t ->
  0 <= t /\ e <= s_var (statistics bs ranks mine) * (1 + nQc 2 * t) / nQc (length (concat (concat ranks))) /\
  (0 < t -> e = s_var (statistics bs ranks mine) * (1 + nQc 2 * t) / nQc (length (concat (concat ranks)))).
Proof.
  intros Sh Hb I. rewrite (distributed n L bs ranks Sh Hb mine I). unfold stats_of. cbn [s_error2 s_tau s_var].
  pose proof (groups_some bs L _ Hb (shape_ok n L ranks Sh)) as G.
  destruct (groups bs L (concat ranks)) as [gs|]; [|discriminate].
  destruct (Qc_eq_dec (variance (concat ranks)) 0) as [Z|NZ]; [discriminate|].
  intros E T. apply Fin_inj in E. apply Fin_inj in T. subst e. destruct G as [Ng Hts].
  set (V := variance (concat ranks)) in *. set (ts := length (concat (concat ranks))) in *.
  assert (Nts : nQc ts <> 0) by (apply nQc_ne; lia).
  assert (Ngs : nQc (length gs) <> 0) by (apply nQc_ne; destruct gs; [congruence|cbn; lia]).
  assert (X : means_variance gs / nQc (length gs) = V * (1 + nQc 2 * tau_of (concat ranks) gs) / nQc ts).
  { unfold tau_of. fold V. fold ts. change (nQc 2) with (1 + 1). field. repeat split; auto; discriminate. }
  destruct (qc_lt (tau_of (concat ranks) gs) 0) eqn:Q.
  - apply qc_lt_iff in Q. subst t. split; [apply Qcle_refl|]. split.
    + rewrite X. unfold Qcdiv. apply Qcmult_le_compat_r.
      * rewrite (Qcmult_comm V), (Qcmult_comm V). apply Qcmult_le_compat_r.
        -- apply Qcplus_le_compat; [apply Qcle_refl|].
           rewrite !(Qcmult_comm (nQc 2)). apply Qcmult_le_compat_r; [apply Qclt_le_weak, Q|apply nQc_nonneg].
        -- apply gvar_nonneg. intros E. unfold ts in Hts. rewrite E in Hts. cbn in Hts. lia.
      * assert (P : 0 < nQc ts) by (apply nQc_pos; lia).
        apply (Qcmult_lt_0_le_reg_r _ _ (nQc ts) P). rewrite (Qcmult_comm (/ nQc ts)), Qcmult_inv_r by exact Nts.
        replace (0 * nQc ts) with 0 by ring. discriminate.
    + intros C. exfalso. revert C. apply Qcle_not_lt, Qcle_refl.
  - assert (P : 0 <= t).
    { rewrite <- T. apply Qcnot_lt_le. intros C. apply qc_lt_iff in C. congruence. }
    rewrite <- T in *. split; [exact P|]. split; [rewrite X; apply Qcle_refl|intros _; exact X].
Qed.

Lemma rhat_main n L bs ranks mine r : same_shape n L ranks -> (0 < bs)%nat -> In mine ranks ->
  s_rhat2 (statistics bs ranks mine) = Fin r -> r < nQc 2.
Proof.
  intros Sh Hb I. rewrite (distributed n L bs ranks Sh Hb mine I). unfold stats_of. cbn [s_rhat2].
  destruct (Qc_eq_dec (variance (concat ranks)) 0) as [Z|NZ]; [rewrite andb_false_r; discriminate|].
  rewrite andb_true_r. destruct (1 <? length (concat ranks))%nat; [|discriminate]. intros E. apply Fin_inj in E. subst r.
  destruct (shape_ok n L ranks Sh) as (HL & Ne & F).
  pose proof (groups_ineq n L bs ranks Sh Hb L (concat ranks) HL Ne F (Qcle_refl _)) as H.
  rewrite (concat_len L _ F), nQc_mul in H.
  set (V := variance (concat ranks)) in *. set (B := means_variance (concat ranks)) in *. set (c := length (concat ranks)) in *.
  assert (Pc : 0 < nQc c) by (apply nQc_pos; unfold c; destruct (concat ranks); [congruence|cbn; lia]).
  assert (PL : 0 < nQc L) by (apply nQc_pos; exact HL). pose proof (nQc_ne L HL) as NL.
  assert (PV : 0 < V).
  { destruct (Qcle_lt_or_eq 0 V) as [P|P]; [apply gvar_nonneg, (data_ne n L bs ranks Sh Hb)|exact P|congruence]. }
  assert (HB : B <= V).
  { apply (Qcmult_lt_0_le_reg_r _ _ (nQc L * nQc c)).
    - replace 0 with (0 * nQc c) by ring. apply Qcmult_lt_compat_r; assumption.
    - replace (B * (nQc L * nQc c)) with (nQc L * nQc c * B) by ring.
      replace (V * (nQc L * nQc c)) with (V * (nQc c * nQc L)) by ring. exact H. }
  assert (H1 : B / V <= 1).
  { apply (Qcmult_lt_0_le_reg_r _ _ V PV). unfold Qcdiv. rewrite <- Qcmult_assoc, (Qcmult_comm (/ V)), Qcmult_inv_r by exact NZ.
    rewrite Qcmult_1_r, Qcmult_1_l. exact HB. }
  apply Qcle_lt_trans with ((nQc L - 1) / nQc L + 1).
  - apply Qcplus_le_compat; [apply Qcle_refl|exact H1].
  - apply Qclt_minus_iff.
    replace (nQc 2 + - ((nQc L - 1) / nQc L + 1)) with (1 / nQc L) by (change (nQc 2) with (1 + 1); field; exact NL).
    apply Qcnot_le_lt. intros C. apply (Qcmult_le_compat_r _ _ (nQc L)) in C; [|apply nQc_nonneg].
    replace (1 / nQc L * nQc L) with 1 in C by (field; exact NL). replace (0 * nQc L) with 0 in C by ring. apply C. reflexivity.
Qed.

(** *** Affine maps of the data *)
Lemma csum_affine a c l : csum (map (affine a c) l) = cadd (cmulc a (csum l)) (nQc (length l) * fst c, nQc (length l) * snd c).
Proof.
  induction l as [|x l IH]; cbn [map csum length].
  - unfold cadd, cmulc, c0. cbn [fst snd]. change (nQc 0) with 0. f_equal; ring.
  - rewrite IH, (nQc_S (length l)). unfold affine, cadd, cmulc. cbn [fst snd]. f_equal; ring.
Qed.

Lemma gmean_affine a c l : l <> [] -> gmean (map (affine a c) l) = affine a c (gmean l).
Proof.
  intros H. unfold gmean. rewrite csum_affine, map_length.
  assert (nQc (length l) <> 0) by (apply nQc_ne; destruct l; [congruence|cbn; lia]).
  unfold affine, cadd, cmulc, cdivr. cbn [fst snd]. f_equal; field; assumption.
Qed.

Lemma gvar_affine a c l : l <> [] -> gvar 0 (map (affine a c) l) = cabs2 a * gvar 0 l.
Proof.
  intros H. unfold gvar. rewrite gmean_affine, map_length, map_map by exact H.
  replace (qsum (map (fun x => cabs2 (csub (affine a c x) (affine a c (gmean l)))) l))
    with (cabs2 a * qsum (map (fun x => cabs2 (csub x (gmean l))) l)); [unfold Qcdiv; ring|].
  rewrite <- qsum_scale. f_equal. apply map_ext. intros x. unfold cabs2, csub, affine, cadd, cmulc. cbn [fst snd]. ring.
Qed.

Lemma concat_map_map {A B} (f : A -> B) l : concat (map (map f) l) = map f (concat l).
Proof. symmetry. apply concat_map. Qed.

Lemma pieces_map f l c : pieces l (map f c) = map (map f) (pieces l c).
Proof.
  unfold pieces. rewrite map_length, map_map. apply map_ext. intros i. rewrite skipn_map, firstn_map. reflexivity.
Qed.

Lemma groups_map bs L f chains : groups bs L (map (map f) chains) = option_map (map (map f)) (groups bs L chains).
Proof.
  unfold groups. rewrite map_length.
  assert (E : flat_map (pieces (Nat.max 1 (L / bs))) (map (map f) chains) = map (map f) (flat_map (pieces (Nat.max 1 (L / bs))) chains)).
  { induction chains as [|c cs IH]; [reflexivity|]. cbn [map flat_map]. rewrite IH, pieces_map, map_app. reflexivity. }
  rewrite E, map_length. destruct (bs <=? length chains)%nat; [reflexivity|]. destruct (bs <=? _)%nat; reflexivity.
Qed.

Lemma groups_nonempty bs L chains gs : (0 < bs)%nat -> chains_ok L chains -> groups bs L chains = Some gs ->
  gs <> [] /\ Forall (fun g => g <> []) gs.
Proof.
  intros Hb Ok E. pose proof (groups_some bs L chains Hb Ok) as G. rewrite E in G. split; [apply G|].
  destruct Ok as (HL & Ne & F). unfold groups in E. destruct (bs <=? length chains)%nat.
  - injection E as <-. eapply Forall_impl; [|exact F]. intros c Hc. destruct c; [cbn in Hc; lia|discriminate].
  - destruct (bs <=? _)%nat; [|discriminate]. injection E as <-. destruct (l_block_bounds bs L Hb HL) as (Hl & _).
    apply Forall_forall. intros p I. apply in_flat_map in I. destruct I as [c [Ic I]]. rewrite Forall_forall in F.
    pose proof (pieces_length _ L c Hl (F c Ic)) as P. rewrite Forall_forall in P. specialize (P p I). intros E; subst p; change (0%nat = Nat.max 1 (L / bs)) in P; lia.
Qed.

Lemma means_affine a c gs : gs <> [] -> Forall (fun g => g <> []) gs ->
  means_variance (map (map (affine a c)) gs) = cabs2 a * means_variance gs.
Proof.
  intros Ne F. unfold means_variance. rewrite map_map.
  replace (map (fun x => gmean (map (affine a c) x)) gs) with (map (affine a c) (map gmean gs)).
  - apply gvar_affine. destruct gs; [congruence|discriminate].
  - rewrite map_map. apply map_ext_in. intros g I. symmetry. apply gmean_affine. rewrite Forall_forall in F. apply F, I.
Qed.

Lemma affine_main n L bs ranks mine a c : same_shape n L ranks -> (0 < bs)%nat -> In mine ranks -> cabs2 a <> 0 ->
  let s := statistics bs ranks mine in
  statistics bs (map (map (map (affine a c))) ranks) (map (map (affine a c)) mine) =
  mkStats (affine a c (s_mean s)) (scale2 (cabs2 a) (s_error2 s)) (cabs2 a * s_var s) (s_tau s) (s_rhat2 s).
Proof.
  intros Sh Hb I Na s. unfold s.
  assert (Sh' : same_shape n L (map (map (map (affine a c))) ranks)).
  { destruct Sh as (H1 & H2 & H3 & F). repeat split; auto; [destruct ranks; [congruence|discriminate]|].
    apply Forall_map. eapply Forall_impl; [|exact F]. intros m [Hm Fm]. split; [rewrite map_length; exact Hm|].
    apply Forall_map. eapply Forall_impl; [|exact Fm]. intros x Hx. cbn beta. rewrite map_length. exact Hx. }
  rewrite (distributed n L bs _ Sh' Hb) by (apply in_map; exact I).
  rewrite (distributed n L bs ranks Sh Hb mine I).
  pose proof (data_ne n L bs ranks Sh Hb) as Nd. pose proof (shape_ok n L ranks Sh) as Ok.
  rewrite concat_map_map. set (ch := concat ranks) in *.
  unfold stats_of. rewrite groups_map, concat_map_map.
  assert (EV : variance (map (map (affine a c)) ch) = cabs2 a * variance ch).
  { unfold variance. rewrite concat_map_map. apply gvar_affine, Nd. }
  assert (Nch : Forall (fun g => g <> []) ch).
  { destruct Ok as (HL & Ne & F). eapply Forall_impl; [|exact F]. intros x Hx. destruct x; [cbn in Hx; lia|discriminate]. }
  assert (EG : forall gs, groups bs L ch = Some gs -> means_variance (map (map (affine a c)) gs) = cabs2 a * means_variance gs).
  { intros gs E. destruct (groups_nonempty bs L ch gs Hb Ok E) as [A B]. apply means_affine; assumption. }
  rewrite EV.
  destruct (Qc_eq_dec (variance ch) 0) as [Z|NZ]; destruct (Qc_eq_dec (cabs2 a * variance ch) 0) as [Z'|NZ'].
  - cbn [s_mean s_error2 s_var s_tau s_rhat2]. rewrite (gmean_affine a c (concat ch) Nd), !andb_false_r.
    destruct (groups bs L ch); reflexivity.
  - exfalso. apply NZ'. rewrite Z. ring.
  - exfalso. apply Qcmult_integral in Z'. tauto.
  - cbn [s_mean s_error2 s_var s_tau s_rhat2]. rewrite (gmean_affine a c (concat ch) Nd), map_length.
    destruct (groups bs L ch) as [gs|] eqn:E; cbn [option_map scale2].
    + destruct (groups_nonempty bs L ch gs Hb Ok E) as [Ng Fg].
      assert (Ngs : nQc (length gs) <> 0) by (apply nQc_ne; destruct gs; [congruence|cbn; lia]).
      assert (ET : tau_of (map (map (affine a c)) ch) (map (map (affine a c)) gs) = tau_of ch gs).
      { unfold tau_of. rewrite EV, (EG gs eq_refl), concat_map_map, !map_length. f_equal. f_equal. field. repeat split; auto. }
      rewrite ET, (EG gs eq_refl), map_length. f_equal.
      * f_equal. unfold Qcdiv. ring.
      * destruct ((1 <? length ch)%nat); [|reflexivity]. cbn [andb negb]. f_equal. f_equal.
        rewrite (means_affine a c ch); [field; auto|apply Ok|exact Nch].
    + f_equal. destruct ((1 <? length ch)%nat); [|reflexivity]. cbn [andb negb]. f_equal. f_equal.
      rewrite (means_affine a c ch); [field; auto|apply Ok|exact Nch].
Qed.

(** *** The order of the chains and their distribution over the ranks do not matter *)
Lemma csum_perm l l' : Permutation l l' -> csum l = csum l'.
Proof.
  induction 1; cbn [csum]; try congruence.
  rewrite !cadd_assoc. f_equal. unfold cadd. f_equal; ring.
Qed.
Lemma qsum_perm l l' : Permutation l l' -> qsum l = qsum l'.
Proof. induction 1; cbn [qsum]; try congruence. ring. Qed.
Lemma gmean_perm l l' : Permutation l l' -> gmean l = gmean l'.
Proof. intros H. unfold gmean. rewrite (csum_perm _ _ H), (Permutation_length H). reflexivity. Qed.
Lemma gvar_perm l l' : Permutation l l' -> gvar 0 l = gvar 0 l'.
Proof.
  intros H. unfold gvar. rewrite (gmean_perm _ _ H), (Permutation_length H). f_equal.
  apply qsum_perm, Permutation_map, H.
Qed.
Lemma concat_perm {A} (l l' : list (list A)) : Permutation l l' -> Permutation (concat l) (concat l').
Proof.
  induction 1; cbn [concat]; auto.
  - apply Permutation_app_head. assumption.
  - rewrite !app_assoc. apply Permutation_app_tail, Permutation_app_comm.
  - eapply Permutation_trans; eassumption.
Qed.

Lemma stats_perm bs L ch ch' : Permutation ch ch' -> stats_of bs L ch = stats_of bs L ch'.
Proof.
  intros P. pose proof (Permutation_length P) as EL. pose proof (concat_perm _ _ P) as PC.
  assert (EV : variance ch = variance ch') by (apply gvar_perm, PC).
  assert (EM : forall g g', Permutation g g' -> means_variance g = means_variance g')
    by (intros g g' Pg; apply gvar_perm, Permutation_map, Pg).
  assert (ET : forall g g', Permutation g g' -> tau_of ch g = tau_of ch' g').
  { intros g g' Pg. unfold tau_of. rewrite (EM g g' Pg), EV, (Permutation_length PC), (Permutation_length Pg). reflexivity. }
  assert (PF : Permutation (flat_map (pieces (Nat.max 1 (L / bs))) ch) (flat_map (pieces (Nat.max 1 (L / bs))) ch'))
    by (apply Permutation_flat_map, P).
  unfold stats_of, groups. rewrite <- EL, <- (Permutation_length PF), (gmean_perm _ _ PC), EV, (EM ch ch' P).
  destruct (bs <=? length ch)%nat.
  - rewrite (ET ch ch' P), ?(EM ch ch' P), EL. reflexivity.
  - destruct (bs <=? _)%nat; [|reflexivity]. rewrite (ET _ _ PF), (EM _ _ PF), (Permutation_length PF). reflexivity.
Qed.

Lemma redistribute n n' L bs ranks ranks' mine mine' :
  same_shape n L ranks -> same_shape n' L ranks' -> (0 < bs)%nat -> In mine ranks -> In mine' ranks' ->
  Permutation (concat ranks) (concat ranks') -> statistics bs ranks mine = statistics bs ranks' mine'.
Proof.
  intros Sh Sh' Hb I I' P. rewrite (distributed n L bs ranks Sh Hb mine I), (distributed n' L bs ranks' Sh' Hb mine' I').
  apply stats_perm, P.
Qed.

Lemma constant_main n L bs ranks mine : same_shape n L ranks -> (0 < bs)%nat -> In mine ranks ->
  variance (concat ranks) = 0 ->
  s_error2 (statistics bs ranks mine) = NaN /\ s_tau (statistics bs ranks mine) = NaN /\
  s_rhat2 (statistics bs ranks mine) = NaN.
Proof.
  intros Sh Hb I Z. rewrite (distributed n L bs ranks Sh Hb mine I). unfold stats_of. cbn [s_error2 s_tau s_rhat2].
  destruct (Qc_eq_dec (variance (concat ranks)) 0) as [_|NZ]; [|contradiction].
  cbn [negb]. rewrite andb_false_r. destruct (groups bs L (concat ranks)); auto.
Qed.
