(** * Proofs: filling two-valued sites and shuffling two values is uniform *)
From Coq Require Import ZArith QArith List Bool Reals Permutation Factorial Lra Lia.
From Verif Require Import Base BaseFacts Hilbert_Model Hilbert_Spec HilbertOps_Model HilbertOps_Spec Balance_Spec Balance_Proofs Rules_Spec Unif_Model Unif_Spec Unif_Proofs.
Import ListNotations.
Open Scope R_scope.

(** Sum over positions of a list, a term per element satisfying a test. *)
Lemma rsum_positions {A} (d : A) (t : A -> bool) (f : nat -> R) c : forall l,
  (forall s, (s < length l)%nat -> f s = if t (nth s l d) then c else 0) ->
  rsum f (seq 0 (length l)) = INR (length (filter t l)) * c.
Proof.
  assert (G : forall l k, (forall s, (s < length l)%nat -> f (k + s)%nat = if t (nth s l d) then c else 0) ->
    rsum f (seq k (length l)) = INR (length (filter t l)) * c).
  { induction l as [|x l IH]; intros k H; [cbn; ring|]. cbn [length seq rsum filter].
    rewrite (IH (S k)).
    - specialize (H O ltac:(cbn; lia)). rewrite Nat.add_0_r in H. rewrite H. cbn [nth]. destruct (t x); cbn [length]; [rewrite S_INR|]; ring.
    - intros s Hs. specialize (H (S s) ltac:(cbn; lia)). replace (S k + s)%nat with (k + S s)%nat by lia. exact H. }
  intros l H. apply (G l O). exact H.
Qed.

Lemma del_length {A} s (l : list A) : (s < length l)%nat -> length (del s l) = (length l - 1)%nat.
Proof. intros H. unfold del. rewrite app_length, firstn_length, skipn_length. lia. Qed.
Lemma nth_split_del {A} (d : A) s l : (s < length l)%nat -> l = firstn s l ++ nth s l d :: skipn (S s) l.
Proof.
  revert s. induction l as [|x l IH]; intros s H; cbn in H; [lia|]. destruct s; cbn; [reflexivity|]. f_equal. apply IH. lia.
Qed.
Lemma del_incl {A} s (l : list A) x : In x (del s l) -> In x l.
Proof.
  unfold del. rewrite in_app_iff. intros [H|H].
  - rewrite <- (firstn_skipn s l). apply in_app_iff. auto.
  - rewrite <- (firstn_skipn (S s) l). apply in_app_iff. auto.
Qed.
Lemma del_filter {A} (d : A) t s l : (s < length l)%nat ->
  length (filter t l) = (length (filter t (del s l)) + if t (nth s l d) then 1 else 0)%nat.
Proof.
  intros H. rewrite (nth_split_del d s l H) at 1. unfold del. rewrite !filter_app, !app_length. cbn [filter].
  destruct (t (nth s l d)); cbn [length]; lia.
Qed.
Lemma del_NoDup {A} (d : A) s l : (s < length l)%nat -> NoDup l -> NoDup (del s l) /\ ~ In (nth s l d) (del s l).
Proof.
  intros H Hn. rewrite (nth_split_del d s l H) in Hn. split; [eapply NoDup_remove_1, Hn|eapply NoDup_remove_2, Hn].
Qed.
Lemma del_other {A} (d : A) s l x : (s < length l)%nat -> In x l -> x <> nth s l d -> In x (del s l).
Proof.
  intros H Hi Hx. rewrite (nth_split_del d s l H) in Hi. unfold del. apply in_app_iff in Hi. apply in_app_iff.
  destruct Hi as [Hi|[Hi|Hi]]; [auto|congruence|auto].
Qed.
Lemma del_perm {A} (d : A) s l : (s < length l)%nat -> Permutation l (nth s l d :: del s l).
Proof. intros H. rewrite (nth_split_del d s l H) at 1. unfold del. symmetry. apply Permutation_middle. Qed.

Lemma fill_other step full n : forall sites out x j, ~ In j sites -> nth j x 0%Z <> nth j out 0%Z ->
  prob (fill_prog step full n sites out) x = 0.
Proof.
  induction n as [|n IH]; intros sites out x j Hj Hx.
  - unfold prob. cbn. destruct (cfg_eqd out x); [congruence|reflexivity].
  - destruct sites as [|s0 sites]; [reflexivity|]. rewrite fill_step_prog. unfold prob. cbn [expect].
    rewrite rsum_zero; [ring|]. intros s Hs. apply in_seq in Hs. cbv zeta.
    assert (Hj' : nth s (s0 :: sites) O <> j) by (intros E; apply Hj; rewrite <- E; apply nth_In; lia).
    apply (IH _ _ x j).
    + match goal with |- context [if ?b then _ else _] => destruct b end; [intros Hi; apply Hj; exact (del_incl _ _ _ Hi)|exact Hj].
    + rewrite nth_upd_other by congruence. exact Hx.
Qed.

Lemma fill_two b d full : d <> 0%Z -> full (b + d)%Z = true -> forall n sites out x,
  NoDup sites -> (forall j, In j sites -> (j < length out)%nat /\ nth j out 0%Z = b /\ (nth j x 0 = b \/ nth j x 0 = b + d)%Z) ->
  length x = length out -> (forall j, ~ In j sites -> nth j x 0%Z = nth j out 0%Z) ->
  prob (fill_prog d full n sites out) x =
  if (length (filter (fun j => nth j x 0 =? b + d)%Z sites) =? n)%nat
  then INR (fact n) * INR (fact (length sites - n)) / INR (fact (length sites)) else 0.
Proof.
  intros Hd Hfull. induction n as [|n IH]; intros sites out x Hnd Hs Hlen Hout.
  - cbn [fill_prog]. unfold prob. cbn [expect]. destruct (Nat.eqb_spec (length (filter (fun j => (nth j x 0 =? b + d)%Z) sites)) 0) as [E|E].
    + apply length_zero_iff_nil in E. destruct (cfg_eqd out x) as [_|Ne].
      * rewrite Nat.sub_0_r. change (INR (fact 0)) with 1. field. apply INR_fact_neq_0.
      * exfalso. apply Ne. apply (nth_ext _ _ 0%Z 0%Z); [auto|]. intros j Hj. destruct (in_dec Nat.eq_dec j sites) as [Hi|Hi].
        -- destruct (Hs j Hi) as (_ & H1 & [H2|H2]); [congruence|]. exfalso.
           assert (In j []) as [] by (rewrite <- E; apply filter_In; split; [exact Hi|apply Z.eqb_eq, H2]).
        -- symmetry. apply Hout, Hi.
    + destruct (cfg_eqd out x) as [->|]; [|reflexivity]. exfalso. apply E. apply length_zero_iff_nil.
      destruct (filter (fun j => (nth j x 0 =? b + d)%Z) sites) as [|j l] eqn:F; [reflexivity|].
      assert (Hj : In j (filter (fun j => (nth j x 0 =? b + d)%Z) sites)) by (rewrite F; left; reflexivity).
      apply filter_In in Hj. destruct Hj as [Hj1 Hj2]. apply Z.eqb_eq in Hj2. destruct (Hs j Hj1) as (_ & H & _). lia.
  - destruct sites as [|s0 sites']; [reflexivity|]. rewrite fill_step_prog. set (sites := s0 :: sites') in *.
    assert (HL : (0 < length sites)%nat) by (cbn; lia).
    unfold prob. cbn [expect]. cbv zeta.
    set (c := if (length (filter (fun j => nth j x 0 =? b + d)%Z sites) =? S n)%nat
      then INR (fact n) * INR (fact (length sites - S n)) / INR (fact (length sites - 1)) else 0).
    rewrite (rsum_positions O (fun j => nth j x 0 =? b + d)%Z _ c sites).
    + unfold c. destruct (Nat.eqb_spec (length (filter (fun j => (nth j x 0 =? b + d)%Z) sites)) (S n)) as [E|E]; [|ring].
      rewrite E. change (fact (S n)) with (S n * fact n)%nat. rewrite mult_INR.
      destruct (length sites) as [|L] eqn:EL; [lia|]. replace (S L - 1)%nat with L by lia. change (fact (S L)) with (S L * fact L)%nat. rewrite mult_INR.
      field. split; [apply INR_fact_neq_0|]. apply not_0_INR. lia.
    + intros s Hsl. set (j := nth s sites O). assert (Hj : In j sites) by (apply nth_In; exact Hsl).
      destruct (Hs j Hj) as (Hj1 & Hj2 & Hj3). rewrite nth_upd_same by exact Hj1. rewrite Hj2, Hfull.
      destruct (del_NoDup O s sites Hsl Hnd) as [D1 D2].
      destruct (Z.eqb_spec (nth j x 0%Z) (b + d)) as [E|E].
      * fold (prob (fill_prog d full n (del s sites) (upd out j (b + d)%Z)) x). rewrite IH.
        -- rewrite (del_length s sites Hsl). unfold c. rewrite (del_filter O _ s sites Hsl). fold j. rewrite E, Z.eqb_refl.
           rewrite Nat.add_1_r. cbn [Nat.eqb]. replace (length sites - 1 - n)%nat with (length sites - S n)%nat by lia. reflexivity.
        -- exact D1.
        -- intros k Hk. destruct (Hs k (del_incl _ _ _ Hk)) as (K1 & K2 & K3). rewrite upd_length. split; [exact K1|]. split; [|exact K3].
           rewrite nth_upd_other; [exact K2|]. intros Ej. apply D2. change (In j (del s sites)). first [rewrite <- Ej; exact Hk|rewrite Ej; exact Hk].
        -- rewrite upd_length. exact Hlen.
        -- intros k Hk. destruct (Nat.eq_dec k j) as [->|Hkj].
           ++ rewrite nth_upd_same by exact Hj1. exact E.
           ++ rewrite nth_upd_other by congruence. apply Hout. intros Hi. apply Hk. apply (del_other O); assumption.
      * apply (fill_other d full n (del s sites) (upd out j (b + d)%Z) x j); [exact D2|].
        rewrite nth_upd_same by exact Hj1. exact E.
Qed.

Lemma fill_flat b d full n N (P : list Z -> Prop) : d <> 0%Z -> full (b + d)%Z = true ->
  (forall x, P x -> length x = N /\ forall z, In z x -> (z = b \/ z = b + d)%Z) ->
  good (fill_prog d full n (seq 0 N) (repeat b N)) P -> flat (fill_prog d full n (seq 0 N) (repeat b N)) P.
Proof.
  intros Hd Hf HP [_ Hg]. exists (INR (fact n) * INR (fact (length (seq 0 N) - n)) / INR (fact (length (seq 0 N)))).
  intros x Hx. destruct (HP x Hx) as [Hl Hv]. specialize (Hg x Hx). revert Hg.
  rewrite (fill_two b d full Hd Hf).
  - destruct (_ =? _)%nat; [reflexivity|lra].
  - apply seq_NoDup.
  - intros j Hj. apply in_seq in Hj. rewrite repeat_length. split; [lia|]. split; [rewrite (nth_indep _ 0%Z b) by (rewrite repeat_length; lia); apply nth_repeat|]. apply Hv, nth_In. lia.
  - rewrite repeat_length. exact Hl.
  - intros j Hj. rewrite !nth_overflow; [reflexivity|rewrite repeat_length|]; rewrite in_seq in Hj; lia.
Qed.

(** ** Shuffling *)
Lemma shuffle_step n l : l <> [] -> shuffle (S n) l =
  Draw (length l) (fun s => pbind (shuffle n (del s l)) (fun r => Ret (nth s l 0%Z :: r))).
Proof. destruct l; [congruence|reflexivity]. Qed.

Lemma shuffle_out : forall n l, length l = n -> all_out (shuffle n l) (Permutation l).
Proof.
  induction n as [|n IH]; intros l Hl; [destruct l; [apply Permutation_refl|discriminate]|].
  rewrite shuffle_step by (intros ->; discriminate). split; [lia|]. intros s Hs.
  apply (all_out_bind _ _ (Permutation (del s l))); [apply IH; rewrite del_length by exact Hs; lia|].
  intros r Hr. cbn. eapply perm_trans; [apply (del_perm 0%Z s l Hs)|]. apply perm_skip, Hr.
Qed.

Lemma prob_cons p z l x : prob (pbind p (fun r => Ret (z :: r))) (l :: x) = if Z.eqb z l then prob p x else 0.
Proof.
  unfold prob. rewrite expect_bind. cbn [expect]. destruct (Z.eqb_spec z l) as [->|Hz].
  - apply expect_ext_all. intros a. destruct (cfg_eqd (l :: a) (l :: x)) as [E|E], (cfg_eqd a x) as [E'|E']; try reflexivity; exfalso; [injection E as E; exact (E' E)|apply E; rewrite E'; reflexivity].
  - transitivity (expect p (fun _ => 0)); [|apply expect_zero]. apply expect_ext_all. intros a. destruct (cfg_eqd (z :: a) (l :: x)) as [E|]; [injection E as E _; contradiction|reflexivity].
Qed.

Definition cnt (z : Z) (l : list Z) : nat := length (filter (fun y => y =? z)%Z l).
Lemma cnt_perm z l l' : Permutation l l' -> cnt z l = cnt z l'.
Proof. intros H. unfold cnt. induction H as [|a l l' H IH|a b l|l1 l2 l3 H1 IH1 H2 IH2]; cbn; auto; [destruct (a =? z)%Z; cbn; lia|destruct (a =? z)%Z, (b =? z)%Z; reflexivity|lia]. Qed.

Lemma shuffle_prob u v : u <> v -> forall n l x, length l = n -> (forall z, In z l -> z = u \/ z = v) -> Permutation l x ->
  prob (shuffle n l) x = INR (fact (cnt u l)) * INR (fact (cnt v l)) / INR (fact n).
Proof.
  intros Huv. induction n as [|n IH]; intros l x Hl Hv Hp.
  - destruct l; [|discriminate]. apply Permutation_nil in Hp. subst x. unfold prob. cbn. destruct (cfg_eqd [] []); [field|congruence].
  - destruct x as [|y x]; [apply Permutation_sym, Permutation_nil in Hp; subst l; discriminate|].
    rewrite shuffle_step by (intros ->; discriminate). unfold prob. cbn [expect].
    assert (Hy : y = u \/ y = v) by (apply Hv, (Permutation_in y (Permutation_sym Hp)); left; reflexivity).
    set (w := if Z.eq_dec y u then v else u).
    assert (E1 : INR (fact (cnt u l)) * INR (fact (cnt v l)) = INR (fact (cnt y l)) * INR (fact (cnt w l))).
    { unfold w. destruct (Z.eq_dec y u) as [->|]; [reflexivity|]. destruct Hy as [->| ->]; [congruence|ring]. }
    assert (Hw : y <> w) by (unfold w; destruct (Z.eq_dec y u); congruence).
    assert (Hc : exists k, cnt y l = S k).
    { rewrite (cnt_perm y _ _ Hp). unfold cnt. cbn. rewrite Z.eqb_refl. cbn. eauto. }
    destruct Hc as [k Hk].
    rewrite (rsum_positions 0%Z (fun z => z =? y)%Z _ (INR (fact k) * INR (fact (cnt w l)) / INR (fact n)) l).
    + fold (cnt y l). rewrite E1, Hk, Hl. change (fact (S k)) with (S k * fact k)%nat. change (fact (S n)) with (S n * fact n)%nat. rewrite !mult_INR.
      field. split; [apply INR_fact_neq_0|apply not_0_INR; lia].
    + intros s Hs. fold (prob (pbind (shuffle n (del s l)) (fun r => Ret (nth s l 0%Z :: r))) (y :: x)). rewrite prob_cons.
      destruct (Z.eqb_spec (nth s l 0%Z) y) as [E|E]; [|reflexivity].
      rewrite IH; [|rewrite del_length by exact Hs; lia|intros z Hz; apply Hv, (del_incl s), Hz|].
      * assert (Q : forall z, cnt z l = (cnt z (del s l) + if (y =? z)%Z then 1 else 0)%nat).
        { intros z. unfold cnt. rewrite (del_filter 0%Z _ s l Hs), E. reflexivity. }
        pose proof (Q y) as Q1. pose proof (Q w) as Q2. rewrite Z.eqb_refl in Q1. destruct (Z.eqb_spec y w); [congruence|].
        assert (E2 : INR (fact (cnt u (del s l))) * INR (fact (cnt v (del s l))) = INR (fact (cnt y (del s l))) * INR (fact (cnt w (del s l)))).
        { unfold w. destruct (Z.eq_dec y u) as [->|]; [reflexivity|]. destruct Hy as [->| ->]; [congruence|ring]. }
        rewrite E2. replace (cnt y (del s l)) with k by lia. replace (cnt w (del s l)) with (cnt w l) by lia. reflexivity.
      * apply (Permutation_cons_inv (a := y)). eapply perm_trans; [|exact Hp]. rewrite <- E. symmetry. apply del_perm, Hs.
Qed.

Lemma shuffle_good u v l : u <> v -> (forall z, In z l -> z = u \/ z = v) ->
  good (shuffle (length l) l) (Permutation l) /\ flat (shuffle (length l) l) (Permutation l).
Proof.
  intros Huv Hv. split; [split|].
  - apply shuffle_out; reflexivity.
  - intros x Hx. rewrite (shuffle_prob u v Huv _ l x eq_refl Hv Hx).
    apply Rmult_lt_0_compat; [apply Rmult_lt_0_compat|apply Rinv_0_lt_compat]; apply INR_fact_lt_0.
  - eexists. intros x Hx. apply (shuffle_prob u v Huv _ l x eq_refl Hv Hx).
Qed.
