From Coq Require Import List Arith Lia.
From Verif Require Import Base Struct_Model Struct_Spec.
Import ListNotations.
Open Scope nat_scope.

Section P.
  Context {D M V : Type}.
  Variable meth : nat -> D -> M -> method V.
  Variable pre_init : D * M -> D * M.
  Notation obj := (obj D M V).
  Notation recompute := (recompute meth).
  Notation access := (access D M V meth).

  (** Unfolded versions of the inner loops *)
  Fixpoint rrun (n : nat) (d : D) (m : M) (p : method V) : option (res V) :=
    match p with
    | Ret v => Some (Ok v) | Raise e => Some (Err e)
    | Access j k => match recompute n d m j with None => None | Some (Err e) => Some (Err e) | Some (Ok v) => rrun n d m (k v) end
    end.
  Fixpoint arun (n : nat) (o : obj) (p : method V) : option (res V * obj) :=
    match p with
    | Ret v => Some (Ok v, o) | Raise e => Some (Err e, o)
    | Access j k => match access n o j with None => None | Some (Err e, o) => Some (Err e, o) | Some (Ok v, o) => arun n o (k v) end
    end.
  Lemma recompute_S n d m i : recompute (S n) d m i = rrun n d m (meth i d m).
  Proof.
    cbn [Struct_Spec.recompute]. induction (meth i d m) as [v|e|j k IH]; cbn [rrun]; [reflexivity|reflexivity|].
    destruct (recompute n d m j) as [[v|e]|]; [apply IH|reflexivity|reflexivity].
  Qed.
  Lemma access_S n o i : access (S n) o i =
    match cache o i with
    | Some v => Some (Ok v, o)
    | None => match arun n o (meth i (data o) (meta o)) with
              | Some (Ok v, o) => Some (Ok v, set_cache D M V o i v) | r => r end
    end.
  Proof.
    cbn [Struct_Model.access]. destruct (cache o i) as [v|]; [reflexivity|].
    match goal with |- match ?a with _ => _ end = match ?b with _ => _ end => assert (E : a = b); [|rewrite E; reflexivity] end.
    set (p := meth i (data o) (meta o)). clearbody p. revert o. induction p as [v|e|j k IH]; intros o; cbn [arun]; [reflexivity|reflexivity|].
    destruct (access n o j) as [[[v|e] o']|]; [apply IH|reflexivity|reflexivity].
  Qed.

  Lemma rrun_mono n : (forall d m i r, recompute n d m i = Some r -> recompute (S n) d m i = Some r) ->
    forall d m p r, rrun n d m p = Some r -> rrun (S n) d m p = Some r.
  Proof.
    intros H d m p. induction p as [v|e|j k IH]; intros r; cbn [rrun]; auto.
    destruct (recompute n d m j) as [[v|e]|] eqn:E; try discriminate; rewrite (H _ _ _ _ E); [apply IH|auto].
  Qed.
  Lemma recompute_mono1 n : forall d m i r, recompute n d m i = Some r -> recompute (S n) d m i = Some r.
  Proof.
    induction n as [|n IH]; intros d m i r; [discriminate|]. rewrite !recompute_S. apply rrun_mono. exact IH.
  Qed.
  Lemma recompute_mono n n' d m i r : n <= n' -> recompute n d m i = Some r -> recompute n' d m i = Some r.
  Proof. induction 1 as [|n' _ IH]; [auto|]. intros H. apply recompute_mono1, IH, H. Qed.
  Lemma rrun_more n n' d m p r : n <= n' -> rrun n d m p = Some r -> rrun n' d m p = Some r.
  Proof. induction 1 as [|n' _ IH]; [auto|]. intros H. apply rrun_mono; [apply recompute_mono1|]. apply IH, H. Qed.
  Lemma current_unique (o : obj) i r r' : current meth o i r -> current meth o i r' -> r = r'.
  Proof.
    intros (n & H) (n' & H'). apply (recompute_mono n (max n n')) in H; [|lia]. apply (recompute_mono n' (max n n')) in H'; [|lia]. congruence.
  Qed.

  Definition valid (o : obj) : Prop := forall i v, cache o i = Some v -> current meth o i (Ok v).
  Definition keeps (o o' : obj) : Prop := data o' = data o /\ meta o' = meta o.

  (** an access gives the current value and keeps the caches valid *)
  Definition good (n : nat) : Prop := forall o i r o', valid o -> access n o i = Some (r, o') -> current meth o i r /\ valid o' /\ keeps o o'.
  Lemma arun_good n : good n -> forall p o r o', valid o -> arun n o p = Some (r, o') ->
    (exists k, rrun k (data o) (meta o) p = Some r) /\ valid o' /\ keeps o o'.
  Proof.
    intros Hg. induction p as [v|e|j k IH]; intros o r o' Hv; cbn [arun].
    - intros E. injection E as <- <-. split; [exists 0; reflexivity|]. split; [exact Hv|split; reflexivity].
    - intros E. injection E as <- <-. split; [exists 0; reflexivity|]. split; [exact Hv|split; reflexivity].
    - destruct (access n o j) as [[[v|e] o1]|] eqn:Ea; [..|discriminate].
      + destruct (Hg _ _ _ _ Hv Ea) as ((a & Hc) & Hv1 & (K1 & K2)). intros E.
        destruct (IH v _ _ _ Hv1 E) as ((b & Hb) & Hv2 & (K3 & K4)). rewrite K1, K2 in Hb. split.
        * exists (max a b). cbn [rrun]. rewrite (recompute_mono a (max a b) _ _ _ _ (Nat.le_max_l _ _) Hc).
          apply (rrun_more b); [lia|exact Hb].
        * split; [exact Hv2|split; congruence].
      + destruct (Hg _ _ _ _ Hv Ea) as ((a & Hc) & Hv1 & (K1 & K2)). intros E. injection E as <- <-. split.
        * exists a. cbn [rrun]. rewrite Hc. reflexivity.
        * split; [exact Hv1|split; congruence].
  Qed.
  Lemma access_good n : good n.
  Proof.
    induction n as [|n IH]; intros o i r o' Hv; [discriminate|]. rewrite access_S. destruct (cache o i) as [v|] eqn:Ec.
    - intros E. injection E as <- <-. split; [apply Hv, Ec|]. split; [exact Hv|split; reflexivity].
    - destruct (arun n o (meth i (data o) (meta o))) as [[[v|e] o1]|] eqn:Ea; [..|discriminate].
      + intros E. injection E as <- <-. destruct (arun_good n IH _ _ _ _ Hv Ea) as ((k & Hk) & Hv1 & (K1 & K2)).
        assert (Hc : current meth o i (Ok v)) by (exists (S k); rewrite recompute_S; exact Hk).
        split; [exact Hc|]. split; [|split; [exact K1|exact K2]].
        intros j w. unfold set_cache. cbn [cache]. destruct (Nat.eqb_spec i j) as [<-|].
        * intros Ew. injection Ew as <-. unfold current. cbn [data meta]. rewrite K1, K2. exact Hc.
        * intros Ew. exact (Hv1 j w Ew).
      + intros E. injection E as <- <-. destruct (arun_good n IH _ _ _ _ Hv Ea) as ((k & Hk) & Hv1 & K).
        split; [exists (S k); rewrite recompute_S; exact Hk|]. auto.
  Qed.
  (** with enough fuel, an access returns *)
  Lemma access_total n : forall o i r, valid o -> recompute n (data o) (meta o) i = Some r -> exists o', access n o i = Some (r, o').
  Proof.
    induction n as [|n IH]; intros o i r Hv H; [discriminate|]. rewrite access_S. destruct (cache o i) as [v|] eqn:Ec.
    - rewrite (current_unique o i r (Ok v)); [eauto|exists (S n); exact H|apply Hv, Ec].
    - rewrite recompute_S in H.
      assert (G : forall p o1 r, valid o1 -> keeps o o1 -> rrun n (data o) (meta o) p = Some r -> exists o', arun n o1 p = Some (r, o')).
      { induction p as [v|e|j k IHp]; intros o1 r1 Hv1 (K1 & K2); cbn [rrun arun].
        - intros E. injection E as <-. eauto.
        - intros E. injection E as <-. eauto.
        - destruct (recompute n (data o) (meta o) j) as [rj|] eqn:Ej; [|discriminate].
          destruct (IH o1 j rj Hv1) as (o2 & E2); [rewrite K1, K2; exact Ej|].
          destruct (access_good n _ _ _ _ Hv1 E2) as (_ & Hv2 & (K3 & K4)).
          rewrite E2. destruct rj as [v|e]; [|intros E; injection E as <-; eauto].
          apply IHp; [exact Hv2|split; congruence]. }
      destruct (G _ o r Hv (conj eq_refl eq_refl) H) as (o' & E). rewrite E. destruct r; eauto.
  Qed.

  Notation step := (step D M V meth pre_init).
  Lemma new_valid d m : valid (new D M V pre_init d m).
  Proof. unfold new. destruct (pre_init (d, m)). intros i v. discriminate. Qed.
  Lemma replace_valid (o : obj) f : valid (replace D M V pre_init o f).
  Proof. unfold replace. destruct (f (data o, meta o)). apply new_valid. Qed.
  Lemma Forall_upd {X} (P : X -> Prop) l i x : Forall P l -> P x -> Forall P (upd l i x).
  Proof.
    intros H Hx. revert i. induction H as [|y l Hy Hl IH]; intros [|i]; cbn; constructor; auto.
  Qed.
  Lemma step_valid heap o : is_tree o = false -> Forall valid heap -> Forall valid (step heap o).
  Proof.
    intros Ht Hh. destruct o as [d m|p fuel i|p f|p d|p g]; cbn [Struct_Model.step]; try discriminate.
    - apply Forall_app. split; [exact Hh|]. constructor; [apply new_valid|constructor].
    - destruct (nth_error heap p) as [x|] eqn:E; [|exact Hh]. destruct (access fuel x i) as [[r x']|] eqn:Ea; [|exact Hh].
      apply Forall_upd; [exact Hh|]. rewrite Forall_forall in Hh. exact (proj1 (proj2 (access_good _ _ _ _ _ (Hh _ (nth_error_In _ _ E)) Ea))).
    - destruct (nth_error heap p) as [x|]; [|exact Hh]. apply Forall_app. split; [exact Hh|]. constructor; [apply replace_valid|constructor].
    - destruct (nth_error heap p) as [x|]; [|exact Hh]. apply Forall_app. split; [exact Hh|]. constructor; [apply replace_valid|constructor].
  Qed.
  Lemma run_valid ops : forallb (fun o => negb (is_tree o)) ops = true -> forall heap, Forall valid heap -> Forall valid (fold_left step ops heap).
  Proof.
    induction ops as [|o ops IH]; cbn [forallb fold_left]; intros H heap Hh; [exact Hh|].
    apply andb_prop in H. destruct H as [H1 H2]. apply IH; [exact H2|]. apply step_valid; [destruct (is_tree o); [discriminate|reflexivity]|exact Hh].
  Qed.

  Lemma history_main ops p o fuel i r o' :
    forallb (fun o => negb (is_tree o)) ops = true -> nth_error (fold_left step ops []) p = Some o ->
    access fuel o i = Some (r, o') ->
    current meth o i r /\ (forall r', current meth o i r' -> r' = r) /\ data o' = data o /\ meta o' = meta o.
  Proof.
    intros Ho Hp Ha. assert (Hv : valid o).
    { assert (H := run_valid ops Ho [] (Forall_nil _)). rewrite Forall_forall in H. exact (H _ (nth_error_In _ _ Hp)). }
    destruct (access_good _ _ _ _ _ Hv Ha) as (Hc & _ & K1 & K2). split; [exact Hc|]. split; [|auto].
    intros r' Hr'. exact (current_unique o i r' r Hr' Hc).
  Qed.
  Lemma returns_main ops p o i r :
    forallb (fun o => negb (is_tree o)) ops = true -> nth_error (fold_left step ops []) p = Some o ->
    current meth o i r -> exists fuel o', access fuel o i = Some (r, o').
  Proof.
    intros Ho Hp (n & Hn). assert (Hv : valid o).
    { assert (H := run_valid ops Ho [] (Forall_nil _)). rewrite Forall_forall in H. exact (H _ (nth_error_In _ _ Hp)). }
    exists n. exact (access_total n o i r Hv Hn).
  Qed.
  (** Objects already created keep their fields, whatever happens (also tree_map). *)
  Lemma frozen_main ops : forall heap p o, nth_error heap p = Some o ->
    exists o', nth_error (fold_left step ops heap) p = Some o' /\ data o' = data o /\ meta o' = meta o.
  Proof.
    assert (A : forall n o i r o', access n o i = Some (r, o') -> keeps o o').
    { induction n as [|n IH]; intros o i r o'; [discriminate|]. rewrite access_S. destruct (cache o i); [intros E; injection E as <- <-; split; reflexivity|].
      assert (R : forall p o r o', arun n o p = Some (r, o') -> keeps o o').
      { induction p as [v|e|j k IHp]; intros o1 r1 o1'; cbn [arun]; try (intros E; injection E as <- <-; split; reflexivity).
        destruct (access n o1 j) as [[[v|e] o2]|] eqn:Ea; [..|discriminate].
        - intros E. destruct (IH _ _ _ _ Ea), (IHp _ _ _ _ E). split; congruence.
        - intros E. injection E as <- <-. exact (IH _ _ _ _ Ea). }
      destruct (arun n o _) as [[[v|e] o1]|] eqn:Ea; [..|discriminate]; intros E; injection E as <- <-; exact (R _ _ _ _ Ea). }
    assert (U : forall (l : list obj) q x p o, nth_error l p = Some o -> (forall y, nth_error l q = Some y -> keeps y x) ->
       exists o', nth_error (upd l q x) p = Some o' /\ keeps o o').
    { induction l as [|y l IH]; intros [|q] x [|p] o Hp Hx; cbn in *; try discriminate.
      - injection Hp as <-. exists x. auto.
      - exists o. split; [exact Hp|split; reflexivity].
      - injection Hp as <-. exists y. split; [reflexivity|split; reflexivity].
      - exact (IH q x p o Hp Hx). }
    assert (S : forall a heap p o, nth_error heap p = Some o -> exists o', nth_error (step heap a) p = Some o' /\ keeps o o').
    { intros a heap p o Hp.
      assert (Ap : forall t, exists o', nth_error (heap ++ t) p = Some o' /\ keeps o o').
      { intros t. exists o. rewrite nth_error_app1 by (apply nth_error_Some; congruence). split; [exact Hp|split; reflexivity]. }
      assert (Id : exists o', nth_error heap p = Some o' /\ keeps o o') by (exists o; split; [exact Hp|split; reflexivity]).
      destruct a as [d m|q fuel i|q f|q d|q g]; cbn [Struct_Model.step]; auto;
        destruct (nth_error heap q) as [x|] eqn:E; auto.
      destruct (access fuel x i) as [[r x']|] eqn:Ea; auto. apply U; [exact Hp|].
      intros y Hy. rewrite E in Hy. injection Hy as <-. exact (A _ _ _ _ _ Ea). }
    induction ops as [|a ops IH]; intros heap p o Hp; cbn [fold_left]; [exists o; auto|].
    destruct (S a heap p o Hp) as (o1 & H1 & K1 & K2). destruct (IH _ _ _ H1) as (o2 & H2 & K3 & K4).
    exists o2. split; [exact H2|split; congruence].
  Qed.

  (** tree_map on an object without cached values is as good as a new object. *)
  Lemma tree_main (o : obj) g fuel i r o' : (forall j, cache o j = None) ->
    access fuel (tree_map D M V o g) i = Some (r, o') -> current meth (tree_map D M V o g) i r.
  Proof.
    intros Hc Ha. apply (access_good fuel _ _ _ _) in Ha; [exact (proj1 Ha)|]. intros j v Hj. cbn [tree_map cache] in Hj. rewrite Hc in Hj. discriminate.
  Qed.
End P.
