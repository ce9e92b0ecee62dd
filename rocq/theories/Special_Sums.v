(** * Copies and sums of Ising and Bose-Hubbard Hamiltonians *)
From Coq Require Import ZArith List Bool Lia Ring.
From Verif Require Import Base BaseFacts Scalar LocalOp_Spec LocalOp_Model LocalOp_Facts
  LocalOp_Build Special_Model Special_Spec Special_Proofs Special_Bose.
Import ListNotations.

Section Sums.
Variable S : scalars.
Hypothesis L : scalar_laws S.
Notation K := (K S).
Notation "0" := (k0 S).
Infix "+" := (kadd S).
Infix "*" := (kmul S).
Notation "- x" := (kopp S x).
Add Ring Kring : (k_ring S L).

Lemma graph_nodes_last n edges : edges_ok n edges -> last_site_used n edges -> graph_nodes edges = n.
Proof.
  intros HE (Hn & e & Hin & Hl). unfold graph_nodes. destruct edges as [|e0 l]; [destruct Hin|].
  set (es := e0 :: l) in *. set (m := map (fun e => Nat.max (fst e) (snd e)) es).
  unfold edges_ok in HE. rewrite Forall_forall in HE.
  assert (H1 : (list_max m <= n - 1)%nat).
  { apply list_max_le. apply Forall_forall. intros k Hk. apply in_map_iff in Hk. destruct Hk as (f & <- & Hf).
    specialize (HE f Hf). lia. }
  assert (H2 : (Nat.max (fst e) (snd e) <= list_max m)%nat).
  { pose proof (proj1 (list_max_le m (list_max m)) (le_n _)) as H. rewrite Forall_forall in H.
    apply H. apply in_map_iff. exists e. auto. }
  lia.
Qed.

Lemma scaled_add c c' m hs act x y :
  (exists d, square S m d) ->
  term_element S hs (scaled S (c + c') m) act x y =
  term_element S hs (scaled S c m) act x y + term_element S hs (scaled S c' m) act x y.
Proof.
  intros _. unfold term_element. destruct (same_elsewhere act x y); [|ring].
  assert (E : forall c i j, entry S (scaled S c m) i j = c * entry S m i j).
  { intros k i j. unfold entry, scaled.
    assert (E1 : nth i (map (map (kmul S k)) m) [] = map (kmul S k) (nth i m [])).
    { change (@nil K) with (map (kmul S k) []) at 1. apply map_nth. }
    rewrite E1. assert (E2 : forall r, nth j (map (kmul S k) r) 0 = k * nth j r 0).
    { intros r. revert j. induction r as [|a r IH]; intros [|j]; cbn; auto; ring. }
    apply E2. }
  rewrite !E. ring.
Qed.

Lemma ising_add_ok a b : is_n S a = is_n S b -> is_edges S a = is_edges S b ->
  edges_ok (is_n S a) (is_edges S a) -> last_site_used (is_n S a) (is_edges S a) ->
  exists c, ising_add S a b = Ok c /\ is_n S c = is_n S a /\ is_edges S c = is_edges S a /\
    forall x y,
    element S (spins (is_n S a)) 0 (ising_terms S (is_n S c) (is_edges S c) (is_h S c) (is_J S c)) x y =
    element S (spins (is_n S a)) 0 (ising_terms S (is_n S a) (is_edges S a) (is_h S a) (is_J S a)) x y +
    element S (spins (is_n S a)) 0 (ising_terms S (is_n S b) (is_edges S b) (is_h S b) (is_J S b)) x y.
Proof.
  intros En Ee HE HL. unfold ising_add, ising_copy, mk_ising. rewrite (graph_nodes_last _ _ HE HL), Nat.eqb_refl.
  cbn [bind is_n is_edges is_h is_J]. rewrite <- En, Nat.eqb_refl. eexists. split; [reflexivity|].
  cbn [is_n is_edges is_h is_J]. split; auto. split; auto. intros x y. rewrite <- Ee.
  unfold element, ising_terms. rewrite !map_app, !map_map, !(sum_app S L). cbn [fst snd].
  rewrite (sum_ext S (fun i => term_element S (spins (is_n S a)) (scaled S (- (is_h S a + is_h S b)) (pauli_x S)) [i] x y)
    (fun i => term_element S (spins (is_n S a)) (scaled S (- is_h S a) (pauli_x S)) [i] x y +
              term_element S (spins (is_n S a)) (scaled S (- is_h S b) (pauli_x S)) [i] x y)).
  2:{ intros i _. rewrite <- scaled_add by (exists 2%nat; apply sq2). do 2 f_equal. ring. }
  rewrite (sum_ext S (fun e => term_element S (spins (is_n S a)) (scaled S (is_J S a + is_J S b) (pauli_zz S)) [fst e; snd e] x y)
    (fun e => term_element S (spins (is_n S a)) (scaled S (is_J S a) (pauli_zz S)) [fst e; snd e] x y +
              term_element S (spins (is_n S a)) (scaled S (is_J S b) (pauli_zz S)) [fst e; snd e] x y)).
  2:{ intros i _. apply scaled_add. exists 4%nat. split; [reflexivity|]. repeat constructor. }
  rewrite !(sum_add S L). destruct (zlist_eqb x y); ring.
Qed.

Lemma bh_add_ok rt a b : bh_n S a = bh_n S b -> bh_nmax S a = bh_nmax S b -> bh_edges S a = bh_edges S b ->
  edges_ok (bh_n S a) (bh_edges S a) -> last_site_used (bh_n S a) (bh_edges S a) ->
  exists c, bh_add S a b = Ok c /\
    bh_n S c = bh_n S a /\ bh_nmax S c = bh_nmax S a /\ bh_edges S c = bh_edges S a /\
    bh_U S c = bh_U S a + bh_U S b /\
    forall x y,
    bh_element S rt (bh_n S c) (bh_edges S c) (bh_Uh S c) (bh_V S c) (bh_J S c) (bh_mu S c) x y =
    bh_element S rt (bh_n S a) (bh_edges S a) (bh_Uh S a) (bh_V S a) (bh_J S a) (bh_mu S a) x y +
    bh_element S rt (bh_n S b) (bh_edges S b) (bh_Uh S b) (bh_V S b) (bh_J S b) (bh_mu S b) x y.
Proof.
  intros En Em Ee HE HL. unfold bh_add, bh_copy, mk_bose. rewrite (graph_nodes_last _ _ HE HL), Nat.eqb_refl.
  cbn [bind bh_n bh_nmax]. rewrite <- En, <- Em, Nat.eqb_refl, Z.eqb_refl. cbn [andb].
  eexists. split; [reflexivity|]. cbn [bh_n bh_nmax bh_edges bh_U bh_Uh bh_V bh_J bh_mu].
  repeat (split; [reflexivity|]). intros x y. rewrite <- Ee. unfold bh_element. cbv zeta.
  rewrite (sum_ext S (fun i => ksub S ((bh_Uh S a + bh_Uh S b) * (kz S (nth i x 0%Z) * ksub S (kz S (nth i x 0%Z)) (k1 S))) ((bh_mu S a + bh_mu S b) * kz S (nth i x 0%Z)))
    (fun i => ksub S (bh_Uh S a * (kz S (nth i x 0%Z) * ksub S (kz S (nth i x 0%Z)) (k1 S))) (bh_mu S a * kz S (nth i x 0%Z)) +
              ksub S (bh_Uh S b * (kz S (nth i x 0%Z) * ksub S (kz S (nth i x 0%Z)) (k1 S))) (bh_mu S b * kz S (nth i x 0%Z)))) by (intros; ring).
  rewrite (sum_ext S (fun e => (bh_V S a + bh_V S b) * (kz S (nth (fst e) x 0%Z) * kz S (nth (snd e) x 0%Z)))
    (fun e => bh_V S a * (kz S (nth (fst e) x 0%Z) * kz S (nth (snd e) x 0%Z)) + bh_V S b * (kz S (nth (fst e) x 0%Z) * kz S (nth (snd e) x 0%Z)))) by (intros; ring).
  rewrite (sum_ext S (fun e => - ((bh_J S a + bh_J S b) * (hop S rt (fst e) (snd e) x y + hop S rt (snd e) (fst e) x y)))
    (fun e => - (bh_J S a * (hop S rt (fst e) (snd e) x y + hop S rt (snd e) (fst e) x y)) + - (bh_J S b * (hop S rt (fst e) (snd e) x y + hop S rt (snd e) (fst e) x y)))) by (intros; ring).
  rewrite !(sum_add S L). destruct (zlist_eqb x y); ring.
Qed.
End Sums.
