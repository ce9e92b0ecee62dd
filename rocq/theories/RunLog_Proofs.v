(** * Proofs for C120 *)
From Coq Require Import String List Bool Arith Lia.
From Verif Require Import Base RunLog_Model RunLog_Spec.
Import ListNotations.
Open Scope nat_scope.

Section P.
Context {N V : Type}.
Notation T := (tree V).
Notation A := (acc N V).

Inductive fits : form -> A -> Prop :=
| f_none f : fits f ANone
| f_hist h : fits FLeaf (AHist h)
| f_seq b l n f : length l = n -> (forall i a, nth_error l i = Some a -> fits (f i) a) ->
    fits (FSeq n f) (ASeq b l)
| f_dict d f : (forall k, fits (f k) (get k d)) -> fits (FDict f) (ADict d).

Definition one (s : N) (o : option V) : list (N * V) := match o with Some v => [(s, v)] | None => [] end.

Definition good (s : N) (f : form) (t : T) : Prop :=
  forall a, fits f a -> exists a', accum s a t = Ok a' /\ fits f a' /\
    forall p, history_at p a' = history_at p a ++ one s (value_at p t).

Lemma hist_none p : history_at p (ANone : A) = [].
Proof. destruct p as [|[k|i] p]; reflexivity. Qed.
Lemma hist_key k p (d : list (string * A)) : history_at (Key k :: p) (ADict d) = history_at p (get k d).
Proof.
  cbn [history_at]. unfold lookup. induction d as [|[k' a] d IH]; [cbn; now rewrite hist_none|].
  cbn. destruct (String.eqb k' k); [reflexivity|exact IH].
Qed.
Lemma get_put k k' (a : A) d : get k (put k' a d) = if String.eqb k' k then a else get k d.
Proof.
  induction d as [|[q b] d IH]; cbn; [reflexivity|].
  destruct (String.eqb q k') eqn:E; cbn.
  - apply String.eqb_eq in E. subst. destruct (String.eqb k' k); reflexivity.
  - destruct (String.eqb q k) eqn:E2; [|exact IH].
    apply String.eqb_eq in E2. subst. rewrite String.eqb_sym, E. reflexivity.
Qed.

Definition zip (s : N) := fix zip (os : list A) (ts : list T) {struct ts} : res (list A) :=
  match os, ts with
  | o :: os', t' :: ts' => let? x := accum s o t' in let? r := zip os' ts' in Ok (x :: r)
  | _, _ => Ok []
  end.
Definition loop (s : N) := fix loop (d : list (string * A)) (kts : list (string * T)) {struct kts} : res A :=
  match kts with
  | [] => Ok (ADict d)
  | (k, t') :: r => let? x := accum s (get k d) t' in loop (put k x d) r
  end.

Lemma zip_ok s ts : forall os f, length os = length ts ->
  (forall i t, nth_error ts i = Some t -> good s (f i) t) ->
  (forall i a, nth_error os i = Some a -> fits (f i) a) ->
  exists r, zip s os ts = Ok r /\ length r = length ts /\
    forall i o t, nth_error os i = Some o -> nth_error ts i = Some t ->
      exists a', nth_error r i = Some a' /\ fits (f i) a' /\
        forall p, history_at p a' = history_at p o ++ one s (value_at p t).
Proof.
  induction ts as [|t ts IH]; intros [|o os] f L H1 H2; try discriminate L.
  - exists []. split; [reflexivity|]. split; [reflexivity|]. intros [|i] o t E; discriminate E.
  - destruct (H1 0 t eq_refl o (H2 0 o eq_refl)) as (x & Ex & Fx & Hx).
    destruct (IH os (fun i => f (S i))) as (r & Er & Lr & Hr);
      [cbn in L; lia|exact (fun i => H1 (S i))|exact (fun i => H2 (S i))|].
    exists (x :: r). split; [cbn; rewrite Ex; cbn; fold (zip s); rewrite Er; reflexivity|].
    split; [cbn; lia|]. intros [|i] o' t' E1 E2.
    + cbn in E1, E2. injection E1 as <-. injection E2 as <-. exists x. auto.
    + cbn in E1, E2. exact (Hr i o' t' E1 E2).
Qed.

Lemma loop_ok s f kts : forall d, NoDup (map fst kts) ->
  (forall k t, In (k, t) kts -> good s (f k) t) -> (forall k, fits (f k) (get k d)) ->
  exists d', loop s d kts = Ok (ADict d') /\ (forall k, fits (f k) (get k d')) /\
    forall k p, history_at p (get k d') =
      history_at p (get k d) ++ one s (match lookup k kts with Some t => value_at p t | None => None end).
Proof.
  induction kts as [|[q t] kts IH]; intros d Nd H1 H2.
  - exists d. split; [reflexivity|]. split; [exact H2|]. intros k p. cbn. now rewrite app_nil_r.
  - cbn in Nd. inversion_clear Nd as [|? ? Nq Nd'].
    destruct (H1 q t (or_introl eq_refl) _ (H2 q)) as (x & Ex & Fx & Hx).
    destruct (IH (put q x d)) as (d' & Ed & Fd & Hd); [exact Nd'|intros; apply H1; right; assumption| |].
    { intros k. rewrite get_put. destruct (String.eqb q k) eqn:E; [|apply H2].
      apply String.eqb_eq in E. subst. exact Fx. }
    exists d'. split; [cbn; rewrite Ex; exact Ed|]. split; [exact Fd|].
    intros k p. rewrite Hd, get_put. unfold lookup. cbn [find fst].
    destruct (String.eqb q k) eqn:E; [|reflexivity]. apply String.eqb_eq in E. subst q.
    assert (find (fun p0 : string * T => String.eqb (fst p0) k) kts = None) as ->.
    { destruct (find _ kts) as [[q u]|] eqn:F; [|reflexivity]. exfalso.
      apply find_some in F as [Hi F]. cbn in F. apply String.eqb_eq in F. subst q.
      apply Nq. apply in_map_iff. exists (k, u). auto. }
    cbn. rewrite app_nil_r. apply Hx.
Qed.

Lemma nth_repeat_none i n (a : A) : nth_error (repeat ANone n) i = Some a -> a = ANone.
Proof. intros H. apply nth_error_In in H. now apply repeat_spec in H. Qed.

Lemma accum_good s f t : has_form f t -> good s f t.
Proof.
  induction 1 as [f|v|b l n f L H IH|l f Nd H IH]; intros a Fa.
  - exists a. split; [reflexivity|]. split; [exact Fa|]. intros p.
    destruct p as [|[k|i] p]; cbn; now rewrite app_nil_r.
  - inversion Fa as [|h| |]; subst; eexists; (split; [reflexivity|]); (split; [constructor|]);
      intros [|[k|i] p]; reflexivity.
  - assert (exists os, length os = length l /\ (forall i a, nth_error os i = Some a -> fits (f i) a) /\
        (accum s a (TSeq b l) = let? r := zip s os l in Ok (ASeq b r)) /\
        (forall i p, history_at (Idx i :: p) a = match nth_error os i with Some o => history_at p o | None => [] end) /\
        history_at [] a = [] /\ (forall k p, history_at (Key k :: p) a = [])) as (os & L1 & H1 & E1 & H2 & H3 & H4).
    { inversion Fa as [| |b' l' n' f' L' H' E1 E2|]; subst.
      - exists (repeat ANone (length l)). split; [apply repeat_length|].
        split; [intros i a Ha; apply nth_repeat_none in Ha as ->; constructor|].
        split; [reflexivity|]. split; [|split; reflexivity].
        intros i p. cbn. destruct (nth_error (repeat ANone (length l)) i) eqn:E; [|reflexivity].
        apply nth_repeat_none in E as ->. now rewrite hist_none.
      - exists l'. split; [auto|]. split; [assumption|]. split; [reflexivity|]. repeat split. }
    destruct (zip_ok s l os f L1 IH H1) as (r & Er & Lr & Hr).
    exists (ASeq b r). split; [rewrite E1, Er; reflexivity|]. split.
    + constructor; [lia|]. intros i x Hx.
      assert (i < length l) as Hi by (rewrite <- Lr; apply nth_error_Some; congruence).
      destruct (nth_error os i) as [o|] eqn:Eo; [|apply nth_error_None in Eo; lia].
      destruct (nth_error l i) as [t|] eqn:Et; [|apply nth_error_None in Et; lia].
      destruct (Hr i o t Eo Et) as (a' & Ea & Fx & _). congruence.
    + intros [|[k|i] p]; [now rewrite H3|now rewrite H4|]. rewrite H2. cbn.
      destruct (nth_error l i) as [t|] eqn:Et.
      * assert (i < length l) as Hi by (apply nth_error_Some; congruence).
        destruct (nth_error os i) as [o|] eqn:Eo; [|apply nth_error_None in Eo; lia].
        destruct (Hr i o t Eo Et) as (a' & -> & _ & Hp). apply Hp.
      * apply nth_error_None in Et.
        rewrite (proj2 (nth_error_None r i)), (proj2 (nth_error_None os i)) by lia. reflexivity.
  - assert (exists d, (forall k, fits (f k) (get k d)) /\ accum s a (TDict l) = loop s d l /\
        (forall k p, history_at (Key k :: p) a = history_at p (get k d)) /\
        history_at [] a = [] /\ (forall i p, history_at (Idx i :: p) a = [])) as (d & H1 & E1 & H2 & H3 & H4).
    { inversion Fa as [| | |d f' H' E1 E2]; subst.
      - exists []. split; [intros k; constructor|]. split; [reflexivity|].
        split; [intros k p; cbn; now rewrite hist_none|]. split; reflexivity.
      - exists d. split; [assumption|]. split; [reflexivity|]. split; [intros; apply hist_key|]. split; reflexivity. }
    destruct (loop_ok s f l d Nd IH H1) as (d' & Ed & Fd & Hd).
    exists (ADict d'). split; [rewrite E1; exact Ed|]. split; [constructor; exact Fd|].
    intros [|[k|i] p]; [now rewrite H3| |now rewrite H4]. rewrite hist_key, H2, Hd. reflexivity.
Qed.

Lemma run_from_ok f (log : list (N * T)) : (forall s t, In (s, t) log -> has_form f t) ->
  forall a, fits f a -> exists a', run_from a log = Ok a' /\ fits f a' /\
    forall p, history_at p a' = history_at p a ++ logged p log.
Proof.
  induction log as [|[s t] log IH]; intros H a Fa.
  - exists a. split; [reflexivity|]. split; [exact Fa|]. intros p. cbn. now rewrite app_nil_r.
  - destruct (accum_good s f t (H s t (or_introl eq_refl)) a Fa) as (a1 & E1 & F1 & P1).
    destruct (IH (fun s t Hi => H s t (or_intror Hi)) a1 F1) as (a2 & E2 & F2 & P2).
    exists a2. split; [cbn; rewrite E1; exact E2|]. split; [exact F2|].
    intros p. rewrite P2, P1, <- app_assoc. reflexivity.
Qed.

Lemma run_ok f (log : list (N * T)) : (forall s t, In (s, t) log -> has_form f t) ->
  exists a, run log = Ok a /\ forall p, history_at p a = logged p log.
Proof.
  intros H. destruct (run_from_ok f log H ANone (f_none f)) as (a & E & _ & P).
  exists a. split; [exact E|]. intros p. rewrite P, hist_none. reflexivity.
Qed.

Lemma item_ok (a : A) k b : item a k = Ok b -> forall p, history_at p b = history_at (Key k :: p) a.
Proof.
  destruct a as [|h|t l|d]; try discriminate. cbn. unfold lookup. destruct (find _ d) as [[q x]|]; [|discriminate].
  intros E p. injection E as <-. reflexivity.
Qed.

Lemma item_present (a : A) k p : history_at (Key k :: p) a <> [] -> exists b, item a k = Ok b.
Proof.
  destruct a as [|h|t l|d]; cbn; try congruence. unfold lookup.
  destruct (find _ d) as [[q x]|]; cbn; [eauto|congruence].
Qed.

Lemma mixed (s : N) :
  (forall d v, accum s (ADict d) (TLeaf v : T) = Err AttributeError) /\
  (forall b l v, raises (accum s (ASeq b l) (TLeaf v : T))) /\
  (forall h k (t : T) l, accum s (AHist h) (TDict ((k, t) :: l)) = Err TypeError) /\
  (forall b os k (t : T) l, accum s (ASeq b os) (TDict ((k, t) :: l)) = Err AttributeError).
Proof.
  repeat split. intros [|] l v; [now exists AttributeError|now exists TypeError].
Qed.
End P.
