(** * Runs of the Metropolis sampler with the exchange rule *)
From Coq Require Import List ZArith Bool Lia Permutation.
From Verif Require Import Base BaseFacts Hilbert_Model HilbertOps_Model HilbertOps_Spec Metro_Model Metro_Spec Metro_Proofs
  Rules_Model Rules_Spec Rules_Proofs.
Import ListNotations.
Open Scope nat_scope.

Lemma Forall2_refl_list {A} (E : A -> A -> Prop) l : (forall x, E x x) -> Forall2 E l l.
Proof. intros H. induction l; constructor; auto. Qed.

Lemma Forall2_trans_list {A} (E : A -> A -> Prop) : (forall x y z, E x y -> E y z -> E x z) ->
  forall l1 l2 l3, Forall2 E l1 l2 -> Forall2 E l2 l3 -> Forall2 E l1 l3.
Proof.
  intros H l1 l2 l3 H12. revert l3. induction H12 as [|x y l1 l2 Hxy H12 IH]; intros l3 H23.
  - inversion H23. constructor.
  - inversion H23 as [|? z ? l3' Hyz H23']; subst. constructor; [eapply H; eassumption|apply IH, H23'].
Qed.

Section Rel.
  Context {Cfg Par R Key RS : Type}.
  Variable M : metro Cfg Par R Key RS.
  Variable E : Cfg -> Cfg -> Prop.
  Hypothesis Erefl : forall x, E x x.
  Hypothesis Etrans : forall x y z, E x y -> E y z -> E x z.
  Hypothesis Hsh : shapes_ok M.
  Variable ok : Cfg -> Prop.
  Hypothesis Hok : forall p rs k x, length x = m_chains M -> Forall ok x ->
    Forall ok (fst (m_trans M p rs k x)) /\ Forall2 E x (fst (m_trans M p rs k x)).

  Lemma where_rel b : forall x y, length b = length x -> Forall2 E x y -> Forall2 E x (where_ b y x).
  Proof.
    induction b as [|c b IH]; intros x y Hl H.
    - destruct x; [constructor|discriminate].
    - inversion H as [|u v x' y' Huv H']; subst; [discriminate|]. cbn in Hl.
      unfold where_ in *. cbn. constructor; [destruct c; auto|]. apply IH; [lia|exact H'].
  Qed.

  Lemma sweep_rel p rs s : length (l_cfg s) = m_chains M -> l_lp s = map (m_logp M p) (l_cfg s) ->
    Forall ok (l_cfg s) ->
    Forall ok (l_cfg (sweep M p rs s)) /\ Forall2 E (l_cfg s) (l_cfg (sweep M p rs s)).
  Proof.
    intros Hl Hlp Hv. unfold sweep. destruct (m_split3 M (l_key s)) as [[k k1] k2].
    destruct (Hok p rs k1 (l_cfg s) Hl Hv) as [H1 H2].
    destruct (m_trans M p rs k1 (l_cfg s)) as [y corr] eqn:Et. cbn [fst] in *. cbn [l_cfg].
    split; [apply where_Forall; assumption|]. apply where_rel; [|exact H2].
    rewrite Hl. apply accept_length.
    - apply (sh_unif M Hsh).
    - rewrite map_length. generalize (sh_trans M Hsh p rs k1 (l_cfg s) Hl). rewrite Et. auto.
    - rewrite Hlp, map_length. exact Hl.
    - intros c Hc. apply (sh_corr M Hsh p rs k1 (l_cfg s) c Hl). rewrite Et. exact Hc.
  Qed.

  Lemma sweeps_rel p rs n : forall s, length (l_cfg s) = m_chains M -> l_lp s = map (m_logp M p) (l_cfg s) ->
    Forall ok (l_cfg s) ->
    Forall ok (l_cfg (sweeps M p rs n s)) /\ Forall2 E (l_cfg s) (l_cfg (sweeps M p rs n s)).
  Proof.
    induction n as [|n IH]; intros s Hl Hlp Hv; cbn [sweeps].
    - split; [exact Hv|apply Forall2_refl_list, Erefl].
    - destruct (sweep_rel p rs s Hl Hlp Hv) as [H1 H2].
      destruct (sweep_ref M Hsh p rs s Hl Hlp) as (_ & Hc & Hlp1 & _).
      destruct (IH (sweep M p rs s)) as [H3 H4]; [rewrite Hc, map_length, seq_length; reflexivity|exact Hlp1|exact H1|].
      split; [exact H3|]. eapply Forall2_trans_list; eassumption.
  Qed.

  Lemma next_rel p s : length (s_cfg s) = m_chains M -> Forall ok (s_cfg s) ->
    let s' := fst (sample_next M p s) in
    length (s_cfg s') = m_chains M /\ Forall ok (s_cfg s') /\ Forall2 E (s_cfg s) (s_cfg s').
  Proof.
    intros Hl Hv. cbn zeta. unfold sample_next. cbn [fst s_cfg].
    destruct (sweeps_rel p (s_rule s) (m_sweeps M) (loop_start M p s) Hl eq_refl Hv) as [H1 H2].
    destruct (sweeps_ref M Hsh p (s_rule s) (m_sweeps M) (loop_start M p s) Hl eq_refl) as (H3 & _).
    split; [|split; assumption]. rewrite H3.
    apply (moves_length M p (s_rule s) (m_sweeps M) _ (s_cfg s) Hl).
  Qed.

  Lemma chain_rel p n : forall s, length (s_cfg s) = m_chains M -> Forall ok (s_cfg s) ->
    Forall (Forall2 E (s_cfg s)) (fst (sample_chain M p n s)) /\
    let s' := snd (sample_chain M p n s) in
    length (s_cfg s') = m_chains M /\ Forall ok (s_cfg s') /\ Forall2 E (s_cfg s) (s_cfg s').
  Proof.
    induction n as [|n IH]; intros s Hl Hv; cbn [sample_chain].
    - cbn. repeat split; auto. apply Forall2_refl_list, Erefl.
    - destruct (next_rel p s Hl Hv) as (H1 & H2 & H3).
      assert (Hx : snd (sample_next M p s) = s_cfg (fst (sample_next M p s))) by reflexivity.
      destruct (sample_next M p s) as [s1 x]. cbn [fst snd] in *.
      destruct (IH s1 H1 H2) as (H4 & H5 & H6 & H7).
      destruct (sample_chain M p n s1) as [xs s2]. cbn [fst snd] in *.
      repeat split; auto.
      + constructor; [rewrite Hx; exact H3|]. eapply Forall_impl; [|exact H4].
        intros y Hy. eapply Forall2_trans_list; eassumption.
      + eapply Forall2_trans_list; eassumption.
  Qed.

  (** Any sequence of calls, when a reset keeps the chains. *)
  Lemma ops_rel os : m_reset_chains M = false ->
    forall s, length (s_cfg s) = m_chains M -> Forall ok (s_cfg s) ->
    Forall2 E (s_cfg s) (s_cfg (do_ops M s os)).
  Proof.
    intros Hrc. unfold do_ops. induction os as [|o os IH]; intros s Hl Hv; cbn [fold_left].
    - apply Forall2_refl_list, Erefl.
    - assert (H : length (s_cfg (do_op M s o)) = m_chains M /\ Forall ok (s_cfg (do_op M s o)) /\
                  Forall2 E (s_cfg s) (s_cfg (do_op M s o))).
      { destruct o as [p|p|p n]; cbn [do_op].
        - unfold reset. rewrite Hrc. destruct (m_split2 M (s_rng s)) as [a b]. cbn.
          repeat split; auto. apply Forall2_refl_list, Erefl.
        - apply next_rel; assumption.
        - apply (chain_rel p n s Hl Hv). }
      destruct H as (H1 & H2 & H3). eapply Forall2_trans_list; [exact Etrans|exact H3|]. apply IH; assumption.
  Qed.
End Rel.

(** The sampler [M] uses ExchangeRule with these clusters: every proposal is made
    with some drawn cluster indices, without correction. *)
Definition uses_exchange {Par R Key RS} (M : metro cfg Par R Key RS) (clusters : list (Z * Z)) : Prop :=
  forall p rs k x, exists ids,
    Forall (fun c => c < length clusters) ids /\ length ids = length x /\
    m_trans M p rs k x = (exchange_transition clusters ids x, None).

Lemma exchange_batch n clusters ids : on_sites n clusters -> Forall (fun c => c < length clusters) ids ->
  forall xs, length ids = length xs -> Forall (fun x => length x = n) xs ->
  Forall (fun x => length x = n) (exchange_transition clusters ids xs) /\
  Forall2 (@Permutation Z) xs (exchange_transition clusters ids xs).
Proof.
  intros Hon. induction 1 as [|c ids Hc Hids IH]; intros xs Hl Hx.
  - destruct xs; [|discriminate]. split; constructor.
  - destruct xs as [|x xs]; [discriminate|]. injection Hl as Hl. inversion Hx as [|? ? Hx1 Hx2]; subst.
    destruct (IH xs Hl Hx2) as [H1 H2]. unfold exchange_transition in *. cbn.
    assert (Hin : In (nth c clusters (0,0)%Z) clusters) by (apply nth_In, Hc).
    unfold on_sites in Hon. rewrite Forall_forall in Hon. destruct (Hon _ Hin) as [B1 B2].
    destruct (exchange_perm _ x B1 B2) as [P _].
    split; constructor; auto. rewrite <- (Permutation_length P). reflexivity.
Qed.

Section Run.
  Context {Par R Key RS : Type}.
  Variable M : metro cfg Par R Key RS.
  Variable clusters : list (Z * Z).
  Variable n : nat.
  Hypothesis Hsh : shapes_ok M.
  Hypothesis Hx : uses_exchange M clusters.
  Hypothesis Hon : on_sites n clusters.

  Lemma exchange_ok p rs k x : length x = m_chains M -> Forall (fun x => length x = n) x ->
    Forall (fun x => length x = n) (fst (m_trans M p rs k x)) /\
    Forall2 (@Permutation Z) x (fst (m_trans M p rs k x)).
  Proof.
    intros _ Hv. destruct (Hx p rs k x) as (ids & H1 & H2 & ->). cbn [fst].
    apply (exchange_batch n); assumption.
  Qed.

  Lemma exchange_chain p k s : length (s_cfg s) = m_chains M -> Forall (fun x => length x = n) (s_cfg s) ->
    Forall (Forall2 (@Permutation Z) (s_cfg s)) (fst (sample_chain M p k s)).
  Proof.
    intros Hl Hv. apply (chain_rel M (@Permutation Z) (@Permutation_refl Z) (@Permutation_trans Z) Hsh
      (fun x => length x = n) exchange_ok p k s Hl Hv).
  Qed.

  Lemma exchange_ops os s : m_reset_chains M = false ->
    length (s_cfg s) = m_chains M -> Forall (fun x => length x = n) (s_cfg s) ->
    Forall2 (@Permutation Z) (s_cfg s) (s_cfg (do_ops M s os)).
  Proof.
    intros Hr Hl Hv. apply (ops_rel M (@Permutation Z) (@Permutation_refl Z) (@Permutation_trans Z) Hsh
      (fun x => length x = n) exchange_ok os Hr s Hl Hv).
  Qed.
End Run.

Lemma zsum_perm l l' : Permutation l l' -> zsum l = zsum l'.
Proof. unfold zsum. induction 1; cbn in *; lia. Qed.

Lemma Forall2_impl_perm x y : Forall2 (@Permutation Z) x y ->
  Forall2 (fun x y => Permutation x y /\ zsum x = zsum y) x y.
Proof. induction 1; constructor; auto. split; [assumption|apply zsum_perm; assumption]. Qed.
