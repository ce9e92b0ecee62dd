From Coq Require Import List ZArith Bool Lia Arith.
From Verif Require Import Base Driver_Model Driver_Spec.
Import ListNotations.
Open Scope Z_scope.

Lemma ladder_S start step k : ladder start step (S k) = start :: ladder (start + step) step k.
Proof.
  unfold ladder. cbn [seq map]. rewrite <- seq_shift, map_map. f_equal; [lia|].
  apply map_ext. intros j. lia.
Qed.
Lemma ladder_length start step k : length (ladder start step k) = k.
Proof. unfold ladder. rewrite map_length, seq_length. reflexivity. Qed.

Lemma range_len_covers n step : 0 < step -> covers n step (range_len n step).
Proof.
  intros Hs. unfold covers, range_len. destruct (Z.ltb_spec 0 step); [|lia].
  assert (Hd := Z.div_mod (n + step - 1) step ltac:(lia)).
  assert (Hm := Z.mod_pos_bound (n + step - 1) step Hs).
  set (q := (n + step - 1) / step) in *. split.
  - destruct (Z.le_gt_cases 0 q); [rewrite Z2Nat.id by lia; nia|].
    assert (n <= 0) by nia. nia.
  - intros j Hj. assert (q <= Z.of_nat j) by nia. lia.
Qed.

Section P.
  Variables W G D : Type.
  Variable fb : W -> G * W.
  Variable up : G -> W -> W.
  Variable est : W -> D * W.
  Variable cbs : list (Z -> D -> W -> res (bool * D * W)).
  Variable lgs : list (Z -> D -> W -> W).
  Variable fls : list (W -> W).
  Variable others : nat -> bool.
  Notation event := (event G D).
  Notation replays := (@replays W G D fb up est cbs lgs fls).
  Notation body := (run_body W G D est cbs lgs others).

  Lemma replays_app w t w1 t' w2 : replays w t w1 -> replays w1 t' w2 -> replays w (t ++ t') w2.
  Proof. induction 1; intros; cbn [app]; try (econstructor; eauto; fail); auto. Qed.

  (** events that are neither gradients nor updates, yields or flushes *)
  Definition inert (t : list event) : Prop :=
    gradients t = [] /\ updates t = [] /\ yields t = [] /\ flushed t = [].
  Lemma inert_app t t' : inert t -> inert t' -> inert (t ++ t').
  Proof.
    intros (A & B & C & E) (A' & B' & C' & E'). unfold inert, gradients, updates, yields, flushed in *.
    rewrite !flat_map_app, A, B, C, E, A', B', C', E'. auto.
  Qed.

  Lemma callbacks_spec l : forall i step d stop s r s',
    (forall j, nth_error l j = nth_error cbs (i + j)) ->
    call_callbacks W G D i l step d stop s = (r, s') ->
    exists t, trace s' = trace s ++ t /\ count s' = count s /\ inert t /\ (forall j, logged j t = []) /\
      Forall (eq step) (vetoed t) /\ replays (world s) t (world s') /\
      match r with
      | Ok (stop', _) =>
          (forall j, map fst (asked j t) = if (i <=? j)%nat && (j <? i + length l)%nat then [step] else []) /\
          (stop' = true <-> stop = true \/ vetoed t <> [])
      | Err _ => True
      end.
  Proof.
    induction l as [|cb l IH]; intros i step d stop s r s' Hn E; cbn [call_callbacks] in E.
    - injection E as <- <-. exists []. rewrite app_nil_r. repeat split; try constructor; auto.
      + intros j. change (map fst (asked j (@nil event))) with (@nil Z). cbn [length]. destruct (Nat.leb_spec i j), (Nat.ltb_spec j (i + 0)); cbn; try reflexivity; lia.
      + intros [H|H]; [exact H|exfalso; apply H; reflexivity].
    - destruct (cb step d (world s)) as [[[ok d'] w]|e] eqn:Ec.
      + assert (Hn' : forall j, nth_error l j = nth_error cbs (S i + j)).
        { intros j. specialize (Hn (S j)). cbn in Hn. rewrite Hn. f_equal. lia. }
        destruct (IH _ _ _ _ _ _ _ Hn' E) as (t & Ht & Hc & Hi & Hl & Hv & Hr & Hm).
        cbn [emit trace count world] in Ht, Hc, Hr.
        exists (Callback i step d d' ok :: t).
        rewrite Ht, Hc, <- app_assoc. split; [reflexivity|]. split; [reflexivity|].
        split; [exact Hi|]. split; [intros j; cbn; apply Hl|].
        split; [destruct ok; cbn; [exact Hv|constructor; [reflexivity|exact Hv]]|].
        split.
        { econstructor; [|exact Ec|exact Hr]. specialize (Hn O). cbn in Hn. rewrite Nat.add_0_r in Hn. auto. }
        destruct r as [[stop' dd]|]; [|exact I]. destruct Hm as (Ha & Hs). split.
        * intros j. change (map fst (asked j (Callback i step d d' ok :: t)))
            with (map fst ((if (i =? j)%nat then [(step, ok)] else []) ++ asked j t)).
          rewrite map_app, Ha. cbn [length].
          destruct (Nat.eqb_spec i j), (Nat.leb_spec i j), (Nat.leb_spec (S i) j), (Nat.ltb_spec j (i + S (length l))),
            (Nat.ltb_spec j (S i + length l)); cbn; try reflexivity; lia.
        * rewrite Hs. destruct ok; cbn.
          -- reflexivity.
          -- split; [intros _; right; discriminate|intros _; left; reflexivity].
      + injection E as <- <-. exists []. rewrite app_nil_r. repeat split; try constructor; auto.
  Qed.

  Lemma loggers_spec l : forall i d s,
    (forall j, nth_error l j = nth_error lgs (i + j)) ->
    exists t, trace (call_loggers W G D i l d s) = trace s ++ t /\ count (call_loggers W G D i l d s) = count s /\
      inert t /\ (forall j, asked j t = []) /\ vetoed t = [] /\
      replays (world s) t (world (call_loggers W G D i l d s)) /\
      (forall j, logged j t = if (i <=? j)%nat && (j <? i + length l)%nat then [count s] else []).
  Proof.
    induction l as [|lg l IH]; intros i d s Hn; cbn [call_loggers].
    - exists []. rewrite app_nil_r. repeat split; try constructor; auto.
      intros j. change (logged j (@nil event)) with (@nil Z). cbn [length]. destruct (Nat.leb_spec i j), (Nat.ltb_spec j (i + 0)); cbn; try reflexivity; lia.
    - assert (Hn' : forall j, nth_error l j = nth_error lgs (S i + j)).
      { intros j. specialize (Hn (S j)). cbn in Hn. rewrite Hn. f_equal. lia. }
      destruct (IH (S i) d (emit W G D s (lg (count s) d (world s)) (Log i (count s) d)) Hn')
        as (t & Ht & Hc & Hi & Ha & Hv & Hr & Hl).
      cbn [emit trace count world] in Ht, Hc, Hr, Hl.
      exists (Log i (count s) d :: t). rewrite Ht, Hc, <- app_assoc.
      split; [reflexivity|]. split; [reflexivity|]. split; [exact Hi|]. split; [intros j; cbn; apply Ha|].
      split; [exact Hv|]. split.
      { econstructor; [|exact Hr]. specialize (Hn O). cbn in Hn. rewrite Nat.add_0_r in Hn. auto. }
      intros j. change (logged j (Log i (count s) d :: t)) with ((if (i =? j)%nat then [count s] else []) ++ logged j t).
      rewrite Hl. cbn [length].
      destruct (Nat.eqb_spec i j), (Nat.leb_spec i j), (Nat.leb_spec (S i) j), (Nat.ltb_spec j (i + S (length l))),
        (Nat.ltb_spec j (S i + length l)); cbn; try reflexivity; lia.
  Qed.

  Lemma body_spec k s o s' : body k (count s) s = (o, s') ->
    exists t, trace s' = trace s ++ t /\ count s' = count s /\ inert t /\
      Forall (eq (count s)) (vetoed t) /\ replays (world s) t (world s') /\
      match o with
      | Raised _ => True
      | _ =>
        (forall j, logged j t = if (j <? length lgs)%nat then [count s] else []) /\
        (forall j, map fst (asked j t) = if (j <? length cbs)%nat then [count s] else []) /\
        (o = Stop <-> cbs <> [] /\ (vetoed t <> [] \/ others k = true))
      end.
  Proof.
    unfold run_body. destruct (est (world s)) as [d w] eqn:Ee.
    set (s1 := emit W G D s w (Estimate d)).
    destruct (call_callbacks W G D 0 cbs (count s) d false s1) as [r s2] eqn:Ec.
    destruct (callbacks_spec cbs O _ _ _ _ _ _ (fun j => eq_refl) Ec) as (t & Ht & Hc & Hi & Hl & Hv & Hr & Hm).
    assert (R0 : replays (world s) [Estimate d] (world s1)) by (econstructor; [exact Ee|constructor]).
    destruct r as [[stop d']|e].
    - destruct (loggers_spec lgs O d' s2 (fun j => eq_refl)) as (t' & Ht' & Hc' & Hi' & Ha' & Hv' & Hr' & Hl').
      set (s3 := call_loggers W G D 0 lgs d' s2) in *.
      destruct Hm as (Ha & Hs). intros E.
      assert (E' : s3 = s') by (destruct ((0 <? length cbs)%nat && (stop || others k)); injection E; auto).
      subst s'. exists ([Estimate d] ++ t ++ t').
      split; [rewrite Ht', Ht; cbn [s1 emit trace]; rewrite <- !app_assoc; reflexivity|].
      split; [rewrite Hc', Hc; reflexivity|].
      split; [apply inert_app; [repeat split|apply inert_app; assumption]|].
      assert (V : vetoed ([Estimate d] ++ t ++ t') = vetoed t).
      { unfold vetoed in *. rewrite !flat_map_app, Hv'. cbn. rewrite app_nil_r. reflexivity. }
      rewrite V. split; [exact Hv|].
      split; [exact (replays_app _ _ _ _ _ R0 (replays_app _ _ _ _ _ Hr Hr'))|].
      assert (L : forall j, logged j ([Estimate d] ++ t ++ t') = if (j <? length lgs)%nat then [count s] else []).
      { intros j. specialize (Hl j). specialize (Hl' j). unfold logged in *. rewrite !flat_map_app, Hl, Hl'. cbn.
        rewrite Hc. reflexivity. }
      assert (A : forall j, map fst (asked j ([Estimate d] ++ t ++ t')) = if (j <? length cbs)%nat then [count s] else []).
      { intros j. specialize (Ha j). specialize (Ha' j). unfold asked in *. rewrite !flat_map_app, Ha'. cbn.
        rewrite app_nil_r. exact Ha. }
      assert (Hcb : (0 <? length cbs)%nat = true <-> cbs <> []).
      { destruct cbs; cbn; split; congruence. }
      assert (Hst : stop = true <-> vetoed t <> []).
      { rewrite Hs. split; [intros [|]; [discriminate|assumption]|auto]. }
      destruct ((0 <? length cbs)%nat && (stop || others k)) eqn:Eb; injection E as <-; (split; [exact L|]; split; [exact A|]).
      + apply andb_true_iff in Eb. destruct Eb as [Eb1 Eb2]. apply orb_true_iff in Eb2. split; [intros _|auto].
        split; [apply Hcb, Eb1|]. rewrite <- Hst. exact Eb2.
      + split; [discriminate|]. intros [H1 H2]. rewrite <- Hst, <- orb_true_iff in H2. apply Hcb in H1.
        rewrite H1, H2 in Eb. discriminate.
    - intros E. injection E as <- <-. exists ([Estimate d] ++ t).
      split; [rewrite Ht; cbn [s1 emit trace]; rewrite <- !app_assoc; reflexivity|].
      split; [rewrite Hc; reflexivity|]. split; [apply inert_app; [repeat split|assumption]|].
      split; [exact Hv|]. split; [|exact I]. exact (replays_app _ _ _ _ _ R0 Hr).
  Qed.

  (** steps after the first of a block *)
  Lemma inner_later bd k m : forall i s o s', inner W G D fb up bd k (S i) m s = (o, s') ->
    o = Continue /\ exists t, trace s' = trace s ++ t /\ count s' = count s + Z.of_nat m /\
      gradients t = updates t /\ length (updates t) = m /\ yields t = [] /\ flushed t = [] /\ vetoed t = [] /\
      (forall j, logged j t = []) /\ (forall j, asked j t = []) /\ replays (world s) t (world s').
  Proof.
    induction m as [|m IH]; intros i s o s' E; cbn [inner] in E.
    - injection E as <- <-. split; [reflexivity|]. exists []. rewrite app_nil_r. cbn. repeat split; try constructor; auto. lia.
    - destruct (fb (world s)) as [g w] eqn:Ef. cbn [Nat.eqb] in E.
      destruct (IH _ _ _ _ E) as (Ho & t & Ht & Hc & Hg & Hu & Hy & Hf & Hv & Hl & Ha & Hr).
      split; [exact Ho|]. cbn [emit trace count world] in Ht, Hc, Hr.
      exists (Gradient g :: Update g :: t). rewrite Ht, Hc, <- !app_assoc.
      split; [reflexivity|]. split; [lia|].
      split; [change (g :: gradients t = g :: updates t); congruence|].
      split; [change (S (length (updates t)) = S m); congruence|].
      repeat (split; [solve [auto]|]).
      econstructor; [exact Ef|]. constructor. exact Hr.
  Qed.

  Lemma inner_first k m s o s' : inner W G D fb up body k 0 (S m) s = (o, s') ->
    exists t, trace s' = trace s ++ t /\ replays (world s) t (world s') /\ flushed t = [] /\
      count s' = count s + Z.of_nat (length (updates t)) /\ Forall (eq (count s)) (vetoed t) /\
      yields t = [count s] /\
      match o with
      | Continue => gradients t = updates t /\ length (updates t) = S m /\ vetoed t = [] /\ (cbs <> [] -> others k = false)
      | Stop => updates t = [] /\ length (gradients t) = 1%nat /\ cbs <> [] /\ (vetoed t <> [] \/ others k = true)
      | Raised _ => updates t = [] /\ length (gradients t) = 1%nat
      end /\
      match o with
      | Raised _ => True
      | _ => (forall j, logged j t = if (j <? length lgs)%nat then [count s] else []) /\
             (forall j, map fst (asked j t) = if (j <? length cbs)%nat then [count s] else [])
      end.
  Proof.
    cbn [inner]. destruct (fb (world s)) as [g w] eqn:Ef. cbn [Nat.eqb emit count world trace].
    set (s0 := emit W G D (emit W G D s w (Gradient g)) w (Yield (count s))).
    assert (R0 : replays (world s) [Gradient g; Yield (count s)] (world s0)).
    { econstructor; [exact Ef|]. constructor. constructor. }
    destruct (body k (count s) s0) as [o1 s1] eqn:Eb. change (count s) with (count s0) in Eb.
    destruct (body_spec _ _ _ _ Eb) as (t & Ht & Hc & (Hg & Hu & Hy & Hf) & Hv & Hr & Hm).
    cbn [s0 emit trace count world] in Ht, Hc, Hv.
    set (t1 := [Gradient g; Yield (count s)] ++ t).
    assert (T1 : trace s1 = trace s ++ t1) by (rewrite Ht; unfold t1; rewrite <- !app_assoc; reflexivity).
    assert (R1 : replays (world s) t1 (world s1)) by exact (replays_app _ _ _ _ _ R0 Hr).
    assert (G1 : gradients t1 = [g]) by (unfold gradients, t1 in *; rewrite flat_map_app, Hg; reflexivity).
    assert (U1 : updates t1 = []) by (unfold updates, t1 in *; rewrite flat_map_app, Hu; reflexivity).
    assert (Y1 : yields t1 = [count s]) by (unfold yields, t1 in *; rewrite flat_map_app, Hy; reflexivity).
    assert (F1 : flushed t1 = []) by (unfold flushed, t1 in *; rewrite flat_map_app, Hf; reflexivity).
    assert (V1 : vetoed t1 = vetoed t) by reflexivity.
    destruct o1 as [| |e].
    - destruct Hm as (Hl & Ha & Hs).
      intros E. apply inner_later in E.
      destruct E as (-> & t2 & Ht2 & Hc2 & Hg2 & Hu2 & Hy2 & Hf2 & Hv2 & Hl2 & Ha2 & Hr2).
      cbn [emit trace count world] in Ht2, Hc2, Hr2.
      assert (Hns : ~ (cbs <> [] /\ (vetoed t <> [] \/ others k = true))).
      { intros H. apply Hs in H. discriminate. }
      assert (Hvn : vetoed t = []).
      { destruct cbs as [|cb cbs'] eqn:Ecb.
        - assert (Hc0 : forall j, asked j t = []).
          { intros j. specialize (Ha j). cbn in Ha. destruct (asked j t); [reflexivity|discriminate]. }
          destruct (vetoed t) as [|x l] eqn:Ev; [reflexivity|exfalso].
          assert (Hin : In x (vetoed t)) by (rewrite Ev; left; reflexivity).
          apply in_flat_map in Hin. destruct Hin as (ev & Hin & Hx). destruct ev; try contradiction.
          assert (Hb : In (step, ok) (asked i t)).
          { apply in_flat_map. exists (Callback i step d d' ok). split; [exact Hin|]. cbn. rewrite Nat.eqb_refl. left. reflexivity. }
          rewrite Hc0 in Hb. destruct Hb.
        - destruct (vetoed t); [reflexivity|]. exfalso. apply Hns. split; [discriminate|left; discriminate]. }
      exists (t1 ++ [Update g] ++ t2).
      split; [rewrite Ht2, T1, <- !app_assoc; reflexivity|].
      split.
      { eapply replays_app; [exact R1|]. cbn [app]. constructor. exact Hr2. }
      split; [unfold flushed in *; rewrite !flat_map_app, F1, Hf2; reflexivity|].
      assert (U : updates (t1 ++ [Update g] ++ t2) = g :: updates t2).
      { unfold updates in *. rewrite !flat_map_app, U1. reflexivity. }
      rewrite U. split; [rewrite Hc2, Hc; cbn [length]; rewrite Hu2; lia|].
      assert (V : vetoed (t1 ++ [Update g] ++ t2) = []).
      { unfold vetoed in *. rewrite !flat_map_app, V1, Hv2, Hvn. reflexivity. }
      rewrite V. split; [constructor|].
      split; [unfold yields in *; rewrite !flat_map_app, Y1, Hy2; reflexivity|].
      split.
      + split; [unfold gradients in *; rewrite !flat_map_app, G1, Hg2; reflexivity|].
        split; [cbn [length]; congruence|]. split; [reflexivity|].
        intros Hcb. destruct (others k) eqn:Eo; [|reflexivity]. exfalso. apply Hns. auto.
      + split; intros j.
        * specialize (Hl j). specialize (Hl2 j). unfold logged in *. unfold t1. rewrite !flat_map_app, Hl, Hl2. cbn.
          rewrite app_nil_r. reflexivity.
        * specialize (Ha j). specialize (Ha2 j). unfold asked in *. unfold t1. rewrite !flat_map_app, Ha2. cbn.
          rewrite app_nil_r. exact Ha.
    - destruct Hm as (Hl & Ha & Hs). destruct (proj1 Hs eq_refl) as (Hcb & Hve).
      intros E. injection E as <- <-. exists t1. rewrite U1, G1, Y1. cbn [length].
      repeat (split; [solve [auto | rewrite Hc; lia | rewrite V1; auto]|]). exact Ha.
    - intros E. injection E as <- <-. exists t1. rewrite U1, G1, Y1. cbn [length].
      repeat (split; [solve [auto | rewrite Hc; lia | rewrite V1; auto]|]). exact I.
  Qed.

  Lemma outer_spec step m : 0 < step -> forall k s o s', outer W G D fb up body k m step s = (o, s') ->
    exists t b, trace s' = trace s ++ t /\ replays (world s) t (world s') /\ flushed t = [] /\
      count s' = count s + Z.of_nat (length (updates t)) /\
      yields t = ladder (count s) step b /\ (b <= m)%nat /\
      match o with
      | Continue => b = m /\ gradients t = updates t /\ length (updates t) = (b * Z.to_nat step)%nat /\ vetoed t = [] /\
          (cbs <> [] -> forall j, (j < b)%nat -> others (k + j)%nat = false)
      | Stop => exists j, b = S j /\ updates t = firstn (j * Z.to_nat step) (gradients t) /\
          length (gradients t) = S (j * Z.to_nat step) /\ cbs <> [] /\
          Forall (eq (count s + Z.of_nat j * step)) (vetoed t) /\ (vetoed t <> [] \/ others (k + j)%nat = true) /\
          (forall i, (i < j)%nat -> others (k + i)%nat = false)
      | Raised _ => exists j, b = S j /\ updates t = firstn (j * Z.to_nat step) (gradients t) /\
          length (gradients t) = S (j * Z.to_nat step) /\ Forall (eq (count s + Z.of_nat j * step)) (vetoed t)
      end /\
      match o with
      | Raised _ => True
      | _ => (forall j, logged j t = if (j <? length lgs)%nat then yields t else []) /\
             (forall j, map fst (asked j t) = if (j <? length cbs)%nat then yields t else [])
      end.
  Proof.
    intros Hs. assert (Hn : exists n0, Z.to_nat step = S n0) by (exists (pred (Z.to_nat step)); lia).
    destruct Hn as (n0 & Hn). induction m as [|m IH]; intros k s o s' E; cbn [outer] in E.
    - injection E as <- <-. exists [], O. rewrite app_nil_r. cbn [updates flat_map length].
      split; [reflexivity|]. split; [constructor|]. split; [reflexivity|]. split; [lia|]. split; [reflexivity|].
      split; [lia|]. split.
      + repeat (split; [reflexivity|]). intros _ j Hj. lia.
      + split; intros j; destruct (_ <? _)%nat; reflexivity.
    - rewrite Hn in E. destruct (inner W G D fb up body k 0 (S n0) s) as [o1 s1] eqn:Ei.
      destruct (inner_first _ _ _ _ _ Ei) as (t1 & Ht1 & Hr1 & Hf1 & Hc1 & Hv1 & Hy1 & Hm1 & Hla1).
      destruct o1 as [| |e].
      + destruct Hm1 as (Hg1 & Hu1 & Hvn1 & Ho1). destruct Hla1 as (Hl1 & Ha1).
        destruct (IH _ _ _ _ E) as (t2 & b & Ht2 & Hr2 & Hf2 & Hc2 & Hy2 & Hb & Hm2 & Hla2).
        assert (Hc1' : count s1 = count s + step) by (rewrite Hc1, Hu1; lia).
        exists (t1 ++ t2), (S b).
        split; [rewrite Ht2, Ht1, app_assoc; reflexivity|].
        split; [eapply replays_app; eauto|].
        split; [unfold flushed in *; rewrite flat_map_app, Hf1, Hf2; reflexivity|].
        assert (U : updates (t1 ++ t2) = updates t1 ++ updates t2) by apply flat_map_app.
        assert (Gr : gradients (t1 ++ t2) = gradients t1 ++ gradients t2) by apply flat_map_app.
        assert (Y : yields (t1 ++ t2) = yields t1 ++ yields t2) by apply flat_map_app.
        assert (V : vetoed (t1 ++ t2) = vetoed t2) by (unfold vetoed in *; rewrite flat_map_app, Hvn1; reflexivity).
        split; [rewrite Hc2, Hc1, U, app_length; lia|].
        split; [rewrite Y, Hy1, Hy2, ladder_S, Hc1'; reflexivity|].
        split; [lia|].
        assert (FN : forall j, firstn (S j * Z.to_nat step) (gradients t1 ++ gradients t2)
                 = gradients t1 ++ firstn (j * Z.to_nat step) (gradients t2)).
        { intros j. rewrite firstn_app, Hg1, Hu1, Hn.
          rewrite firstn_all2 by (rewrite Hu1; lia). f_equal. f_equal. lia. }
        split.
        * destruct o as [| |e].
          -- destruct Hm2 as (-> & Hg2 & Hu2 & Hv2 & Ho2). split; [reflexivity|].
             split; [rewrite U, Gr, Hg1, Hg2; reflexivity|].
             split; [rewrite U, app_length, Hu1, Hu2, Hn; lia|]. split; [rewrite V; exact Hv2|].
             intros Hcb [|j] Hj; [rewrite Nat.add_0_r; apply Ho1, Hcb|].
             replace (k + S j)%nat with (S k + j)%nat by lia. apply Ho2; [exact Hcb|lia].
          -- destruct Hm2 as (j & -> & Hu2 & Hg2 & Hcb & Hv2 & Hx2 & Ho2). exists (S j). split; [reflexivity|].
             rewrite U, Gr, FN, <- Hg1, Hu2, V. split; [reflexivity|].
             split; [rewrite app_length, Hg2, Hg1, Hu1, Hn; lia|]. split; [exact Hcb|].
             split; [eapply Forall_impl; [|exact Hv2]; intros a Ha; cbn beta in *; rewrite <- Ha, Hc1'; lia|].
             split; [replace (k + S j)%nat with (S k + j)%nat by lia; exact Hx2|].
             intros [|i] Hi; [rewrite Nat.add_0_r; apply Ho1, Hcb|].
             replace (k + S i)%nat with (S k + i)%nat by lia. apply Ho2. lia.
          -- destruct Hm2 as (j & -> & Hu2 & Hg2 & Hv2). exists (S j). split; [reflexivity|].
             rewrite U, Gr, FN, <- Hg1, Hu2, V. split; [reflexivity|].
             split; [rewrite app_length, Hg2, Hg1, Hu1, Hn; lia|].
             eapply Forall_impl; [|exact Hv2]; intros a Ha; cbn beta in *; rewrite <- Ha, Hc1'; lia.
        * destruct o; [| |exact I]; destruct Hla2 as (Hl2 & Ha2);
            (split; intros j; [specialize (Hl1 j); specialize (Hl2 j); unfold logged in *|
                               specialize (Ha1 j); specialize (Ha2 j); unfold asked in *];
             rewrite flat_map_app, ?map_app, ?Hl1, ?Hl2, ?Ha1, ?Ha2, Y, Hy1; destruct (_ <? _)%nat; reflexivity).
      + injection E as <- <-. destruct Hm1 as (Hu1 & Hg1 & Hcb & Hx). destruct Hla1 as (Hl1 & Ha1).
        exists t1, 1%nat. rewrite Hu1, Hy1.
        split; [exact Ht1|]. split; [exact Hr1|]. split; [exact Hf1|]. split; [rewrite Hc1, Hu1; reflexivity|].
        split; [rewrite ladder_S; reflexivity|]. split; [lia|].
        split; [|split; [exact Hl1|exact Ha1]].
        exists O. cbn [Nat.mul firstn]. rewrite Nat.add_0_r.
        split; [reflexivity|]. split; [reflexivity|]. split; [exact Hg1|]. split; [exact Hcb|].
        split; [rewrite Z.mul_0_l, Z.add_0_r; exact Hv1|]. split; [exact Hx|]. intros i Hi. lia.
      + injection E as <- <-. destruct Hm1 as (Hu1 & Hg1).
        exists t1, 1%nat. rewrite Hu1, Hy1.
        split; [exact Ht1|]. split; [exact Hr1|]. split; [exact Hf1|]. split; [rewrite Hc1, Hu1; reflexivity|].
        split; [rewrite ladder_S; reflexivity|]. split; [lia|]. split; [|exact I].
        exists O. cbn [Nat.mul firstn]. rewrite Z.mul_0_l, Z.add_0_r. auto.
  Qed.

  Lemma flushes_spec l : forall i s,
    (forall j, nth_error l j = nth_error fls (i + j)) ->
    exists t, trace (call_flushes W G D i l s) = trace s ++ t /\ count (call_flushes W G D i l s) = count s /\
      gradients t = [] /\ updates t = [] /\ yields t = [] /\ vetoed t = [] /\
      (forall j, asked j t = []) /\ (forall j, logged j t = []) /\
      replays (world s) t (world (call_flushes W G D i l s)) /\ flushed t = seq i (length l) /\
      t = map Flush (seq i (length l)).
  Proof.
    induction l as [|f l IH]; intros i s Hn; cbn [call_flushes].
    - exists []. rewrite app_nil_r. repeat split; try constructor; auto.
    - assert (Hn' : forall j, nth_error l j = nth_error fls (S i + j)).
      { intros j. specialize (Hn (S j)). cbn in Hn. rewrite Hn. f_equal. lia. }
      destruct (IH (S i) (emit W G D s (f (world s)) (Flush i)) Hn')
        as (t & Ht & Hc & Hg & Hu & Hy & Hv & Ha & Hl & Hr & Hf & Heq).
      cbn [emit trace count world] in Ht, Hc, Hr.
      exists (Flush i :: t). rewrite Ht, Hc, <- app_assoc.
      split; [reflexivity|]. split; [reflexivity|]. split; [exact Hg|]. split; [exact Hu|]. split; [exact Hy|].
      split; [exact Hv|]. split; [intros j; cbn; apply Ha|]. split; [intros j; cbn; apply Hl|].
      split.
      { econstructor; [|exact Hr]. specialize (Hn O). cbn in Hn. rewrite Nat.add_0_r in Hn. auto. }
      split; [change (i :: flushed t = i :: seq (S i) (length l)); congruence|].
      cbn [length seq map]. congruence.
  Qed.

  Lemma run_main n step s s' : 0 < step ->
    run W G D fb up est cbs lgs fls others n step s = (None, s') ->
    exists t b k, trace s' = trace s ++ t /\ replays (world s) t (world s') /\
      covers n step b /\ yields t = ladder (count s) step k /\
      (forall i, (i < length lgs)%nat -> logged i t = yields t) /\
      (forall i, (i < length cbs)%nat -> map fst (asked i t) = yields t) /\
      (exists t0, t = t0 ++ map Flush (seq 0 (length fls)) /\ flushed t0 = []) /\
      count s' = count s + Z.of_nat (length (updates t)) /\
      ((k = b /\ length (updates t) = (b * Z.to_nat step)%nat /\ updates t = gradients t /\ vetoed t = [] /\
        (cbs <> [] -> forall i, (i < b)%nat -> others i = false))
       \/
       (exists j, k = S j /\ (k <= b)%nat /\ cbs <> [] /\ length (gradients t) = S (j * Z.to_nat step) /\
         updates t = firstn (j * Z.to_nat step) (gradients t) /\
         (vetoed t <> [] \/ others j = true) /\
         Forall (eq (count s + Z.of_nat j * step)) (vetoed t) /\ (forall i, (i < j)%nat -> others i = false))).
  Proof.
    intros Hs. unfold run, iter. destruct (Z.eqb_spec step 0); [lia|].
    destruct (outer W G D fb up body 0 (range_len n step) step s) as [o s1] eqn:Eo.
    destruct (outer_spec _ _ Hs _ _ _ _ Eo) as (t & b & Ht & Hr & Hf & Hc & Hy & Hb & Hm & Hla).
    assert (Hcov := range_len_covers n step Hs).
    destruct (flushes_spec fls O s1 (fun j => eq_refl)) as (t' & Ht' & Hc' & Hg' & Hu' & Hy' & Hv' & Ha' & Hl' & Hr' & Hf' & Heq).
    assert (U : updates (t ++ t') = updates t) by (unfold updates in *; rewrite flat_map_app, Hu', app_nil_r; reflexivity).
    assert (Gr : gradients (t ++ t') = gradients t) by (unfold gradients in *; rewrite flat_map_app, Hg', app_nil_r; reflexivity).
    assert (Y : yields (t ++ t') = yields t) by (unfold yields in *; rewrite flat_map_app, Hy', app_nil_r; reflexivity).
    assert (V : vetoed (t ++ t') = vetoed t) by (unfold vetoed in *; rewrite flat_map_app, Hv', app_nil_r; reflexivity).
    assert (L : forall i, logged i (t ++ t') = logged i t).
    { intros i. specialize (Hl' i). unfold logged in *; rewrite flat_map_app, Hl', app_nil_r; reflexivity. }
    assert (A : forall i, asked i (t ++ t') = asked i t).
    { intros i. specialize (Ha' i). unfold asked in *; rewrite flat_map_app, Ha', app_nil_r; reflexivity. }
    intros E. destruct o as [| |e]; [| |discriminate]; injection E as <-; destruct Hla as (Hl & Ha);
      exists (t ++ t'), (range_len n step), b;
      (split; [rewrite Ht', Ht, app_assoc; reflexivity|]); (split; [eapply replays_app; eauto|]);
      (split; [exact Hcov|]); (split; [rewrite Y; exact Hy|]);
      (split; [intros i Hi; rewrite L, Y, Hl; destruct (Nat.ltb_spec i (length lgs)); [reflexivity|lia]|]);
      (split; [intros i Hi; rewrite A, Y, Ha; destruct (Nat.ltb_spec i (length cbs)); [reflexivity|lia]|]);
      (split; [exists t; rewrite Heq; auto|]); (split; [rewrite U, Hc', Hc; reflexivity|]).
    - left. destruct Hm as (-> & Hg & Hu & Hvn & Ho). rewrite U, Gr, V. auto.
    - right. destruct Hm as (j & -> & Hu & Hg & Hcb & Hv & Hx & Ho). exists j. rewrite U, Gr, V.
      split; [reflexivity|]. split; [exact Hb|]. split; [exact Hcb|]. split; [exact Hg|]. split; [exact Hu|].
      split; [exact Hx|]. split; [exact Hv|exact Ho].
  Qed.

  Lemma run_raised n step s s' e : 0 < step ->
    run W G D fb up est cbs lgs fls others n step s = (Some e, s') ->
    exists t j, trace s' = trace s ++ t /\ replays (world s) t (world s') /\ flushed t = [] /\
      count s' = count s + Z.of_nat (length (updates t)) /\
      length (gradients t) = S (j * Z.to_nat step) /\ updates t = firstn (j * Z.to_nat step) (gradients t).
  Proof.
    intros Hs. unfold run, iter. destruct (Z.eqb_spec step 0); [lia|].
    destruct (outer W G D fb up body 0 (range_len n step) step s) as [o s1] eqn:Eo.
    destruct (outer_spec _ _ Hs _ _ _ _ Eo) as (t & b & Ht & Hr & Hf & Hc & Hy & Hb & Hm & Hla).
    destruct o as [| |e']; try discriminate. intros E. injection E as -> ->.
    destruct Hm as (j & -> & Hu & Hg & Hv). exists t, j. auto 10.
  Qed.

  (** ** the log data *)
  Fixpoint final (cur : option D) (t : list event) : option D :=
    match t with
    | [] => cur
    | Yield _ :: t => final None t
    | Estimate d :: t => final (Some d) t
    | Callback _ _ _ d' _ :: t => final (Some d') t
    | _ :: t => final cur t
    end.
  Lemma threaded_app t : forall cur t', threaded cur t -> threaded (final cur t) t' -> threaded cur (t ++ t').
  Proof.
    induction t as [|e t IH]; intros cur t' H H'; [exact H'|].
    destruct e; cbn [app threaded final] in *; try (apply IH; assumption); destruct H as [H1 H2];
      (split; [exact H1|apply IH; assumption]).
  Qed.
  Lemma callbacks_threaded l : forall i step d stop s r s',
    call_callbacks W G D i l step d stop s = (r, s') ->
    exists t, trace s' = trace s ++ t /\ threaded (Some d) t /\
      match r with Ok (_, d') => final (Some d) t = Some d' | Err _ => True end.
  Proof.
    induction l as [|cb l IH]; intros i step d stop s r s' E; cbn [call_callbacks] in E.
    - injection E as <- <-. exists []. rewrite app_nil_r. repeat split.
    - destruct (cb step d (world s)) as [[[ok d'] w]|e] eqn:Ec.
      + destruct (IH _ _ _ _ _ _ _ E) as (t & Ht & Hd & Hf). exists (Callback i step d d' ok :: t).
        rewrite Ht. cbn [emit trace]. rewrite <- app_assoc. split; [reflexivity|]. split; [split; [reflexivity|exact Hd]|].
        exact Hf.
      + injection E as <- <-. exists []. rewrite app_nil_r. repeat split.
  Qed.
  Lemma loggers_threaded l : forall i d s,
    exists t, trace (call_loggers W G D i l d s) = trace s ++ t /\ threaded (Some d) t.
  Proof.
    induction l as [|lg l IH]; intros i d s; cbn [call_loggers].
    - exists []. rewrite app_nil_r. split; [reflexivity|exact I].
    - destruct (IH (S i) d (emit W G D s (lg (count s) d (world s)) (Log i (count s) d))) as (t & Ht & Hd).
      exists (Log i (count s) d :: t). rewrite Ht. cbn [emit trace]. rewrite <- app_assoc.
      split; [reflexivity|]. split; [reflexivity|exact Hd].
  Qed.
  Lemma body_threaded k step s o s' : body k step s = (o, s') ->
    exists t, trace s' = trace s ++ t /\ threaded None t.
  Proof.
    unfold run_body. destruct (est (world s)) as [d w].
    set (s1 := emit W G D s w (Estimate d)).
    destruct (call_callbacks W G D 0 cbs step d false s1) as [r s2] eqn:Ec.
    destruct (callbacks_threaded _ _ _ _ _ _ _ _ Ec) as (t & Ht & Hd & Hf).
    destruct r as [[stop d']|e].
    - destruct (loggers_threaded lgs O d' s2) as (t' & Ht' & Hd').
      intros E. assert (E' : call_loggers W G D 0 lgs d' s2 = s')
        by (destruct ((0 <? length cbs)%nat && (stop || others k)); injection E; auto).
      subst s'. exists (Estimate d :: t ++ t'). rewrite Ht', Ht. cbn [s1 emit trace]. rewrite <- !app_assoc.
      split; [reflexivity|]. split; [reflexivity|]. apply threaded_app; [exact Hd|]. rewrite Hf. exact Hd'.
    - intros E. injection E as <- <-. exists (Estimate d :: t). rewrite Ht. cbn [s1 emit trace]. rewrite <- !app_assoc.
      split; [reflexivity|]. split; [reflexivity|exact Hd].
  Qed.
  Definition closed (t : list event) : Prop := forall cur, threaded cur t.
  Lemma closed_app t t' : closed t -> closed t' -> closed (t ++ t').
  Proof. intros H H' cur. apply threaded_app; [apply H|apply H']. Qed.
  Lemma inner_threaded k m : forall i s o s', inner W G D fb up body k i m s = (o, s') ->
    exists t, trace s' = trace s ++ t /\ closed t.
  Proof.
    induction m as [|m IH]; intros i s o s' E; cbn [inner] in E.
    - injection E as <- <-. exists []. rewrite app_nil_r. split; [reflexivity|intros cur; exact I].
    - destruct (fb (world s)) as [g w].
      assert (H : forall s1, (exists t, trace s1 = trace s ++ t /\ closed t) ->
        inner W G D fb up body k (S i) m
          (emit W G D (DState (count s1 + 1) (world s1) (trace s1)) (up g (world s1)) (Update g)) = (o, s') ->
        exists t, trace s' = trace s ++ t /\ closed t).
      { intros s1 (t & Ht & Hd) E1. destruct (IH _ _ _ _ E1) as (t2 & Ht2 & Hd2). cbn [emit trace] in Ht2.
        exists (t ++ Update g :: t2). rewrite Ht2, Ht, <- !app_assoc. split; [reflexivity|].
        apply closed_app; [exact Hd|]. intros cur. cbn [threaded]. apply Hd2. }
      destruct (i =? 0)%nat.
      + destruct (body k _ _) as [o1 s1] eqn:Eb. destruct (body_threaded _ _ _ _ _ Eb) as (t & Ht & Hd).
        cbn [emit trace] in Ht.
        assert (H1 : exists t, trace s1 = trace s ++ t /\ closed t).
        { exists (Gradient g :: Yield (count s) :: t). rewrite Ht, <- !app_assoc. split; [reflexivity|].
          intros cur. cbn [threaded]. exact Hd. }
        destruct o1; [apply (H s1); assumption|injection E as <- <-; exact H1|injection E as <- <-; exact H1].
      + apply (H (emit W G D s w (Gradient g))); [|exact E].
        exists [Gradient g]. split; [reflexivity|]. intros cur. exact I.
  Qed.
  Lemma outer_threaded step m : forall k s o s', outer W G D fb up body k m step s = (o, s') ->
    exists t, trace s' = trace s ++ t /\ closed t.
  Proof.
    induction m as [|m IH]; intros k s o s' E; cbn [outer] in E.
    - injection E as <- <-. exists []. rewrite app_nil_r. split; [reflexivity|intros cur; exact I].
    - destruct (inner W G D fb up body k 0 (Z.to_nat step) s) as [o1 s1] eqn:Ei.
      destruct (inner_threaded _ _ _ _ _ _ Ei) as (t & Ht & Hd).
      destruct o1; [|injection E as <- <-; eauto|injection E as <- <-; eauto].
      destruct (IH _ _ _ _ E) as (t2 & Ht2 & Hd2). exists (t ++ t2). rewrite Ht2, Ht, app_assoc.
      split; [reflexivity|]. apply closed_app; assumption.
  Qed.
  Lemma flushes_threaded l : forall i s,
    exists t, trace (call_flushes W G D i l s) = trace s ++ t /\ closed t.
  Proof.
    induction l as [|f l IH]; intros i s; cbn [call_flushes].
    - exists []. rewrite app_nil_r. split; [reflexivity|intros cur; exact I].
    - destruct (IH (S i) (emit W G D s (f (world s)) (Flush i))) as (t & Ht & Hd).
      exists (Flush i :: t). rewrite Ht. cbn [emit trace]. rewrite <- app_assoc.
      split; [reflexivity|]. intros cur. cbn [threaded]. apply Hd.
  Qed.
  Lemma run_threaded n step s r s' :
    run W G D fb up est cbs lgs fls others n step s = (r, s') ->
    exists t, trace s' = trace s ++ t /\ threaded None t.
  Proof.
    unfold run, iter. destruct (step =? 0).
    - intros E. injection E as <- <-. exists []. rewrite app_nil_r. split; [reflexivity|exact I].
    - destruct (outer W G D fb up body 0 (range_len n step) step s) as [o s1] eqn:Eo.
      destruct (outer_threaded _ _ _ _ _ _ Eo) as (t & Ht & Hd).
      destruct (flushes_threaded fls O s1) as (t' & Ht' & Hd').
      intros E. destruct o; injection E as <- <-; [| |exists t; split; [exact Ht|apply Hd]];
        (exists (t ++ t'); rewrite Ht', Ht, app_assoc; split; [reflexivity|apply closed_app; assumption]).
  Qed.

  (** ** steps that are not positive *)
  Lemma run_zero n s : run W G D fb up est cbs lgs fls others n 0 s = (Some ValueError, s).
  Proof. reflexivity. Qed.
  Lemma outer_negative step m : step < 0 -> forall k s, outer W G D fb up body k m step s = (Continue, s).
  Proof.
    intros Hs. induction m as [|m IH]; intros k s; [reflexivity|]. cbn [outer].
    replace (Z.to_nat step) with O by lia. cbn [inner]. apply IH.
  Qed.
  Lemma run_negative n step s : step < 0 ->
    exists s', run W G D fb up est cbs lgs fls others n step s = (None, s') /\ count s' = count s /\
      trace s' = trace s ++ map Flush (seq 0 (length fls)) /\
      replays (world s) (map Flush (seq 0 (length fls))) (world s').
  Proof.
    intros Hs. unfold run, iter. destruct (Z.eqb_spec step 0); [lia|]. rewrite (outer_negative step _ Hs).
    destruct (flushes_spec fls O s (fun j => eq_refl)) as (t & Ht & Hc & _ & _ & _ & _ & _ & _ & Hr & _ & ->).
    eexists. split; [reflexivity|]. auto.
  Qed.

  (** ** advance *)
  Definition one_step (s : dstate W G D) : dstate W G D :=
    let (g, w) := fb (world s) in
    DState (count s + 1) (up g w) (trace s ++ [Gradient g; Yield (count s); Update g]).
  Fixpoint steps (m : nat) (s : dstate W G D) : dstate W G D :=
    match m with O => s | S m => steps m (one_step s) end.
  Lemma outer_steps m : forall k s,
    outer W G D fb up (fun _ _ s => (Continue, s)) k m 1 s = (Continue, steps m s).
  Proof.
    induction m as [|m IH]; intros k s; [reflexivity|]. cbn [outer steps]. change (Z.to_nat 1) with 1%nat. cbn [inner].
    unfold one_step. destruct (fb (world s)) as [g w]. cbn [Nat.eqb emit count world trace].
    rewrite IH. do 2 f_equal. unfold emit. cbn [count world trace]. rewrite <- !app_assoc. reflexivity.
  Qed.
  Lemma advance_steps n s : advance W G D fb up n s = (Continue, steps (Z.to_nat n) s).
  Proof.
    unfold advance, iter. change (1 =? 0) with false. cbv iota. rewrite outer_steps. do 2 f_equal.
    unfold range_len. change (0 <? 1) with true. cbv iota. rewrite Z.div_1_r. f_equal. lia.
  Qed.
  Lemma steps_add a : forall b s, steps (a + b) s = steps b (steps a s).
  Proof. induction a as [|a IH]; intros b s; [reflexivity|]. cbn [Nat.add steps]. apply IH. Qed.
  Lemma advance_add a b s s1 : 0 <= a -> 0 <= b -> advance W G D fb up a s = (Continue, s1) ->
    advance W G D fb up b s1 = advance W G D fb up (a + b) s.
  Proof.
    intros Ha Hb. rewrite !advance_steps. intros E. injection E as <-.
    rewrite Z2Nat.inj_add, steps_add by lia. reflexivity.
  Qed.
  Lemma advance_main n s : 0 <= n ->
    exists s' t, advance W G D fb up n s = (Continue, s') /\ trace s' = trace s ++ t /\
      count s' = count s + n /\ updates t = gradients t /\ Z.of_nat (length (updates t)) = n /\
      replays (world s) t (world s').
  Proof.
    intros Hn. rewrite advance_steps. remember (Z.to_nat n) as m eqn:Em.
    assert (n = Z.of_nat m) by lia. subst n. clear Em Hn.
    assert (H : exists t, trace (steps m s) = trace s ++ t /\ count (steps m s) = count s + Z.of_nat m /\
      updates t = gradients t /\ length (updates t) = m /\ replays (world s) t (world (steps m s))).
    { revert s. induction m as [|m IH]; intros s; cbn [steps].
      - exists []. rewrite app_nil_r. repeat split; try constructor; auto. lia.
      - destruct (IH (one_step s)) as (t & Ht & Hc & Hu & Hl & Hr). unfold one_step in Ht, Hc, Hr.
        destruct (fb (world s)) as [g w] eqn:Ef. cbn [trace count world] in Ht, Hc, Hr.
        exists (Gradient g :: Yield (count s) :: Update g :: t).
        unfold one_step. rewrite Ef. rewrite Ht, Hc, <- app_assoc.
        split; [reflexivity|]. split; [lia|].
        split; [change (g :: updates t = g :: gradients t); congruence|].
        split; [change (S (length (updates t)) = S m); congruence|].
        econstructor; [exact Ef|]. constructor. constructor. exact Hr. }
    destruct H as (t & Ht & Hc & Hu & Hl & Hr). exists (steps m s), t. repeat (split; [solve [auto | lia]|]). exact Hr.
  Qed.
End P.


(** Two ranks with the same results of mpi_any stop together. *)
Section Ranks.
  Variables WA GA DA WB GB DB : Type.
  Variable fbA : WA -> GA * WA.
  Variable upA : GA -> WA -> WA.
  Variable estA : WA -> DA * WA.
  Variable cbsA : list (Z -> DA -> WA -> res (bool * DA * WA)).
  Variable lgsA : list (Z -> DA -> WA -> WA).
  Variable flsA : list (WA -> WA).
  Variable fbB : WB -> GB * WB.
  Variable upB : GB -> WB -> WB.
  Variable estB : WB -> DB * WB.
  Variable cbsB : list (Z -> DB -> WB -> res (bool * DB * WB)).
  Variable lgsB : list (Z -> DB -> WB -> WB).
  Variable flsB : list (WB -> WB).
  Variables othersA othersB : nat -> bool.

  Lemma covers_unique n step a b : covers n step a -> covers n step b -> a = b.
  Proof. intros [A1 A2] [B1 B2]. apply A2 in B1. apply B2 in A1. lia. Qed.

  Lemma ranks_agree n step sA sB sA' sB' tA tB : 0 < step -> cbsA <> [] -> cbsB <> [] ->
    run WA GA DA fbA upA estA cbsA lgsA flsA othersA n step sA = (None, sA') ->
    run WB GB DB fbB upB estB cbsB lgsB flsB othersB n step sB = (None, sB') ->
    trace sA' = trace sA ++ tA -> trace sB' = trace sB ++ tB ->
    (forall k, (k < length (yields tA))%nat -> (k < length (yields tB))%nat ->
       (any_veto tA (count sA) step othersA k <-> any_veto tB (count sB) step othersB k)) ->
    length (yields tA) = length (yields tB) /\ length (updates tA) = length (updates tB).
  Proof.
    intros Hs HcA HcB EA EB TA TB Hany.
    destruct (run_main _ _ _ _ _ _ _ _ _ _ _ _ _ _ Hs EA) as (tA' & bA & kA & TA' & _ & CA & YA & _ & _ & _ & _ & DA').
    destruct (run_main _ _ _ _ _ _ _ _ _ _ _ _ _ _ Hs EB) as (tB' & bB & kB & TB' & _ & CB & YB & _ & _ & _ & _ & DB').
    assert (tA' = tA) by (rewrite TA in TA'; apply app_inv_head in TA'; auto). subst tA'.
    assert (tB' = tB) by (rewrite TB in TB'; apply app_inv_head in TB'; auto). subst tB'.
    pose proof (covers_unique _ _ _ _ CA CB). subst bB. rename bA into b. clear CA CB.
    rewrite YA, YB, !ladder_length in *.
    (* the first veto *)
    assert (FA : forall k, (k < kA)%nat -> any_veto tA (count sA) step othersA k -> (S k = kA /\ kA <= b)%nat).
    { intros k Hk [Hi|Ho].
      - destruct DA' as [(-> & _ & _ & Hv & _)|(j & -> & Hb & _ & _ & _ & _ & Hf & _)]; [rewrite Hv in Hi; destruct Hi|].
        rewrite Forall_forall in Hf. apply Hf in Hi. nia.
      - destruct DA' as [(-> & _ & _ & _ & Hv)|(j & -> & Hb & _ & _ & _ & _ & _ & Hf)]; [rewrite Hv in Ho by auto; discriminate|].
        destruct (Nat.eq_dec k j); [lia|]. rewrite Hf in Ho by lia. discriminate. }
    assert (FB : forall k, (k < kB)%nat -> any_veto tB (count sB) step othersB k -> (S k = kB /\ kB <= b)%nat).
    { intros k Hk [Hi|Ho].
      - destruct DB' as [(-> & _ & _ & Hv & _)|(j & -> & Hb & _ & _ & _ & _ & Hf & _)]; [rewrite Hv in Hi; destruct Hi|].
        rewrite Forall_forall in Hf. apply Hf in Hi. nia.
      - destruct DB' as [(-> & _ & _ & _ & Hv)|(j & -> & Hb & _ & _ & _ & _ & _ & Hf)]; [rewrite Hv in Ho by auto; discriminate|].
        destruct (Nat.eq_dec k j); [lia|]. rewrite Hf in Ho by lia. discriminate. }
    assert (LA : (kA = b /\ length (updates tA) = (b * Z.to_nat step)%nat /\ forall k, (k < kA)%nat -> ~ any_veto tA (count sA) step othersA k)
      \/ (exists j, kA = S j /\ kA <= b /\ length (updates tA) = j * Z.to_nat step /\ any_veto tA (count sA) step othersA j)%nat).
    { destruct DA' as [(-> & Hu & _ & Hv & Ho)|(j & -> & Hb & _ & Hg & Hu & Hx & Hf & _)].
      - left. split; [reflexivity|]. split; [exact Hu|]. intros k Hk [Hi|Hi]; [rewrite Hv in Hi; destruct Hi|].
        rewrite Ho in Hi by auto. discriminate.
      - right. exists j. split; [reflexivity|]. split; [exact Hb|]. split; [rewrite Hu, firstn_length; lia|].
        destruct Hx as [Hx|Hx]; [left|right; exact Hx]. destruct (vetoed tA) as [|x l]; [congruence|].
        inversion Hf; subst. left. reflexivity. }
    assert (LB : (kB = b /\ length (updates tB) = (b * Z.to_nat step)%nat /\ forall k, (k < kB)%nat -> ~ any_veto tB (count sB) step othersB k)
      \/ (exists j, kB = S j /\ kB <= b /\ length (updates tB) = j * Z.to_nat step /\ any_veto tB (count sB) step othersB j)%nat).
    { destruct DB' as [(-> & Hu & _ & Hv & Ho)|(j & -> & Hb & _ & Hg & Hu & Hx & Hf & _)].
      - left. split; [reflexivity|]. split; [exact Hu|]. intros k Hk [Hi|Hi]; [rewrite Hv in Hi; destruct Hi|].
        rewrite Ho in Hi by auto. discriminate.
      - right. exists j. split; [reflexivity|]. split; [exact Hb|]. split; [rewrite Hu, firstn_length; lia|].
        destruct Hx as [Hx|Hx]; [left|right; exact Hx]. destruct (vetoed tB) as [|x l]; [congruence|].
        inversion Hf; subst. left. reflexivity. }
    clear DA' DB' EA EB YA YB TA TB TA' TB'.
    destruct LA as [(HA & UA & VA)|(jA & HA & BA & UA & VA)], LB as [(HB & UB & VB)|(jB & HB & BB & UB & VB)].
    - split; congruence.
    - exfalso. assert (jB < kA)%nat by lia. assert (jB < kB)%nat by lia.
      apply (VA jB); [assumption|]. apply Hany; assumption.
    - exfalso. assert (jA < kA)%nat by lia. assert (jA < kB)%nat by lia.
      apply (VB jA); [assumption|]. apply Hany; assumption.
    - assert (jA = jB).
      { destruct (Nat.lt_trichotomy jA jB) as [H|[H|H]]; [|exact H|]; exfalso.
        - assert (jA < kA)%nat by lia. assert (jA < kB)%nat by lia. destruct (FB jA); [assumption|apply Hany; assumption|lia].
        - assert (jB < kA)%nat by lia. assert (jB < kB)%nat by lia. destruct (FA jB); [assumption|apply Hany; assumption|lia]. }
      subst jB. split; congruence.
  Qed.
End Ranks.

Lemma run_divides (W G D : Type) fb up est cbs lgs fls others n step (s s' : dstate W G D) t :
  0 < step -> 0 <= n -> (step | n) ->
  run W G D fb up est cbs lgs fls others n step s = (None, s') ->
  trace s' = trace s ++ t -> vetoed t = [] -> (forall k, others k = false) ->
  Z.of_nat (length (updates t)) = n /\ count s' = count s + n.
Proof.
  intros Hs Hn (q & ->) E T V O.
  destruct (run_main _ _ _ _ _ _ _ _ _ _ _ _ _ _ Hs E) as (t' & b & k & T' & _ & (C1 & C2) & _ & _ & _ & _ & Hc & Dj).
  assert (t' = t) by (rewrite T in T'; apply app_inv_head in T'; auto). subst t'.
  destruct Dj as [(-> & Hu & _)|(j & _ & _ & _ & _ & _ & Hx & _)].
  - assert (b = Z.to_nat q).
    { assert (0 <= q) by nia. assert (b <= Z.to_nat q)%nat by (apply C2; rewrite Z2Nat.id by lia; lia). nia. }
    subst b. rewrite Hc, Hu. rewrite Nat2Z.inj_mul, !Z2Nat.id by nia. lia.
  - destruct Hx as [Hx|Hx]; [congruence|rewrite O in Hx; discriminate].
Qed.

Lemma advance_final (W G D : Type) fb up (s : dstate W G D) n : 0 <= n ->
  exists s' t, advance W G D fb up n s = (Continue, s') /\ trace s' = trace s ++ t /\
    count s' = count s + n /\ updates t = gradients t /\ Z.of_nat (length (updates t)) = n /\
    replays fb up (fun w => (tt, w)) [] [] [] (world s) (map (fun e => match e with
      | Gradient g => Gradient g | Update g => Update g | Yield z => Yield z
      | Estimate _ => Estimate tt | Callback i z _ _ b => Callback i z tt tt b
      | Log i z _ => Log i z tt | Flush i => Flush i end) t) (world s').
Proof.
  intros Hn. rewrite advance_steps. remember (Z.to_nat n) as m eqn:Em.
  assert (n = Z.of_nat m) by lia. subst n. clear Em Hn. exists (steps W G D fb up m s).
  revert s. induction m as [|m IH]; intros s; cbn [steps].
  - exists []. rewrite app_nil_r. split; [reflexivity|]. split; [reflexivity|]. split; [lia|].
    split; [reflexivity|]. split; [reflexivity|]. constructor.
  - destruct (IH (one_step W G D fb up s)) as (t & _ & Ht & Hc & Hu & Hl & Hr). unfold one_step in Ht, Hc, Hr.
    destruct (fb (world s)) as [g w] eqn:Ef. cbn [trace count world] in Ht, Hc, Hr.
    exists (Gradient g :: Yield (count s) :: Update g :: t).
    unfold one_step. rewrite Ef. rewrite Ht, Hc, <- app_assoc.
    split; [reflexivity|]. split; [reflexivity|]. split; [lia|].
    split; [change (g :: updates t = g :: gradients t); congruence|].
    split; [change (Z.of_nat (S (length (updates t))) = Z.of_nat (S m)); lia|].
    cbn [map]. econstructor; [exact Ef|]. constructor. constructor. exact Hr.
Qed.

Lemma steps_refuted : exists s' : dstate nat nat nat,
  run nat nat nat (fun w => (w, w)) (fun _ w => S w) (fun w => (w, w)) [] [] [] (fun _ => false) 3 2
      (DState 0 0%nat []) = (None, s') /\ length (updates (trace s')) = 4%nat /\ count s' = 4.
Proof. eexists. split; [vm_compute; reflexivity|]. split; vm_compute; reflexivity. Qed.
