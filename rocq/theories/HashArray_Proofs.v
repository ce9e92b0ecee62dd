(** Proofs behind C30. *)
From Coq Require Import List Arith Bool ZArith Lia.
From Verif Require Import Base HashArray_Model.
Import ListNotations.
Open Scope nat_scope.

Lemma bc_rev_refl s : bc_rev s s = true.
Proof. induction s as [|a s IH]; cbn [bc_rev]; [reflexivity|]. now rewrite Nat.eqb_refl, IH. Qed.

Lemma all_eq_same s : forall f a b, length s < f -> has_shape s a -> has_shape s b ->
  (all_eq f s s a b = true <-> a = b).
Proof.
  induction s as [|n s IH]; intros f a b Hf Ha Hb.
  - destruct f; [lia|]. destruct a, b; cbn in Ha, Hb; try contradiction. cbn.
    rewrite Z.eqb_eq. split; congruence.
  - destruct f; [lia|]. destruct a as [|la], b as [|lb]; cbn [has_shape] in Ha, Hb; try contradiction.
    destruct Ha as [La Fa], Hb as [Lb Fb].
    cbn [all_eq tl]. rewrite Nat.ltb_irrefl. rewrite La, Lb, Nat.eqb_refl.
    assert (Hl : length la = length lb) by congruence. clear La Lb.
    cbn in Hf. transitivity (la = lb); [|split; congruence].
    revert lb Fb Hl. induction la as [|x la IHl]; intros [|y lb] Fb Hl; try discriminate.
    + cbn; tauto.
    + destruct Fa as [Hx Fa], Fb as [Hy Fb]. cbn [combine forallb fst snd].
      rewrite andb_true_iff, IH by (auto; lia). injection Hl as Hl.
      rewrite IHl by auto. split; [intros [-> ->]; auto|now intros [= -> ->]].
Qed.

Lemma harr_eq_same a b :
  shp a = shp b -> has_shape (shp a) (val a) -> has_shape (shp b) (val b) ->
  (harr_eq a b = true <-> val a = val b).
Proof.
  intros E Ha Hb. unfold harr_eq, broadcastable. rewrite <- E in *.
  rewrite bc_rev_refl. cbn [andb]. apply all_eq_same; auto. lia.
Qed.

Lemma harr_hash_same {H} (hb : list Z -> H) a b :
  dt a = dt b -> shp a = shp b -> has_shape (shp a) (val a) -> has_shape (shp b) (val b) ->
  harr_eq a b = true -> harr_hash hb a = harr_hash hb b.
Proof.
  intros D E Ha Hb X. apply harr_eq_same in X; auto.
  unfold harr_hash, tobytes. now rewrite D, X.
Qed.
