From Coq Require Import String Ascii List Bool Arith Lia DecimalString Decimal DecimalNat FinFun.
From Verif Require Import Base TBLog_Model TBLog_Spec.
Import ListNotations.
Open Scope string_scope.
Open Scope list_scope.

(** ** strings *)
Lemma app_str_assoc a b c : ((a ++ b) ++ c = a ++ (b ++ c))%string.
Proof. induction a as [|x a IH]; cbn; [reflexivity|]. now rewrite IH. Qed.
Lemma app_str_nil a : (a ++ "" = a)%string.
Proof. induction a as [|x a IH]; cbn; [reflexivity|]. now rewrite IH. Qed.
Fixpoint enc (p : list string) : string := match p with [] => "" | c :: p => ("/" ++ c ++ enc p)%string end.
Lemma drop_enc p : drop1 (enc p) = tag p.
Proof.
  destruct p as [|c p]; [reflexivity|]. cbn [enc append drop1]. unfold tag. revert c.
  induction p as [|d p IH]; intros c; cbn [String.concat enc]; [apply app_str_nil|].
  f_equal. cbn [append]. f_equal. apply IH.
Qed.
Lemma no_slash_nil : no_slash "".
Proof. intros []. Qed.
Lemma no_slash_cons x s : no_slash (String x s) -> x <> "/"%char /\ no_slash s.
Proof. intros H. split; [intros ->; apply H; now left|]. intros I. apply H. now right. Qed.
Definition starts (s : string) : Prop := s = "" \/ exists r, s = String "/"%char r.
Lemma enc_starts p : starts (enc p).
Proof. destruct p; [now left|]. right. eexists. reflexivity. Qed.
Lemma split_unique a : forall b r s, no_slash a -> no_slash b -> starts r -> starts s ->
  (a ++ r = b ++ s)%string -> a = b /\ r = s.
Proof.
  induction a as [|x a IH]; intros [|y b] r s Ha Hb Hr Hs E; cbn [append] in E.
  - now split.
  - apply no_slash_cons in Hb. destruct Hb as [Hy _]. exfalso. subst r.
    destruct Hr as [H|[t H]]; [discriminate H|]. injection H as -> _. now apply Hy.
  - apply no_slash_cons in Ha. destruct Ha as [Hx _]. exfalso. subst s.
    destruct Hs as [H|[t H]]; [discriminate H|]. injection H as -> _. now apply Hx.
  - injection E as -> E. apply no_slash_cons in Ha, Hb. destruct Ha as [_ Ha], Hb as [_ Hb].
    destruct (IH b r s Ha Hb Hr Hs E) as [-> ->]. now split.
Qed.
Lemma enc_inj p : forall q, Forall no_slash p -> Forall no_slash q -> enc p = enc q -> p = q.
Proof.
  induction p as [|c p IH]; intros [|d q] Hp Hq E; cbn [enc] in E; try discriminate E; [reflexivity|].
  apply Forall_cons_iff in Hp, Hq. destruct Hp as [Hc Hp], Hq as [Hd Hq]. cbn [append] in E. injection E as E.
  destruct (split_unique c d (enc p) (enc q) Hc Hd (enc_starts p) (enc_starts q) E) as [-> E2]. f_equal. now apply IH.
Qed.
Lemma tag_inj p q : Forall no_slash p -> Forall no_slash q -> p <> [] -> q <> [] -> tag p = tag q -> p = q.
Proof.
  intros Hp Hq Np Nq E. apply enc_inj; [exact Hp|exact Hq|]. rewrite <- !drop_enc in E.
  destruct p; [congruence|]. destruct q; [congruence|]. cbn [enc append drop1] in *. now rewrite E.
Qed.

(** numerals *)
Lemma uint_no_slash u : no_slash (NilEmpty.string_of_uint u).
Proof.
  induction u; cbn [NilEmpty.string_of_uint]; try exact no_slash_nil;
    intros H; cbn in H; destruct H as [H|H]; try discriminate H; exact (IHu H).
Qed.
Lemma show_no_slash i : no_slash (show i).
Proof. apply uint_no_slash. Qed.
Lemma show_inj i j : show i = show j -> i = j.
Proof.
  unfold show. intros E. apply (f_equal NilEmpty.uint_of_string) in E. rewrite !NilEmpty.usu in E.
  injection E as E. apply (f_equal Nat.of_uint) in E. now rewrite !Unsigned.of_to in E.
Qed.

Section P.
  Variable V : Type.
  Notation tree := (tree V).
  Notation rec := (list string * (bool * V))%type.

  (** induction over nested trees *)
  Section Ind.
    Variable P : tree -> Prop.
    Hypothesis H1 : P TNone.
    Hypothesis H2 : forall l, Forall P l -> P (TList l).
    Hypothesis H3 : forall l, Forall P l -> P (TTuple l).
    Hypothesis H4 : forall l, Forall (fun kt => P (snd kt)) l -> P (TDict l).
    Hypothesis H5 : forall t, P t -> P (Compound t).
    Hypothesis H6 : forall t, P t -> P (HasDict t).
    Hypothesis H7 : forall a b, P (Cplx a b).
    Hypothesis H8 : forall b v, P (Leaf b v).
    Fixpoint tree_ind2 (t : tree) : P t :=
      match t with
      | TNone => H1
      | TList l => H2 l ((fix go l : Forall P l := match l with [] => Forall_nil _ | x :: l => Forall_cons _ (tree_ind2 x) (go l) end) l)
      | TTuple l => H3 l ((fix go l : Forall P l := match l with [] => Forall_nil _ | x :: l => Forall_cons _ (tree_ind2 x) (go l) end) l)
      | TDict l => H4 l ((fix go l : Forall (fun kt => P (snd kt)) l :=
           match l with [] => Forall_nil _ | x :: l => Forall_cons x (tree_ind2 (snd x)) (go l) end) l)
      | Compound t => H5 t (tree_ind2 t)
      | HasDict t => H6 t (tree_ind2 t)
      | Cplx a b => H7 a b
      | Leaf b v => H8 b v
      end.
  End Ind.

  Definition under (k : string) (l : list rec) : list rec := map (fun r => (k :: fst r, snd r)) l.
  Fixpoint paths (t : tree) : list rec :=
    let items := fix items (i : nat) (l : list tree) : list rec :=
      match l with [] => [] | v :: l => under (show i) (paths v) ++ items (S i) l end in
    match t with
    | TNone => []
    | TList l => items O l
    | TTuple l => items O l
    | TDict l => (fix entries (l : list (string * tree)) : list rec :=
        match l with [] => [] | (k, v) :: l => under k (paths v) ++ entries l end) l
    | Compound t => paths t
    | HasDict t => paths t
    | Cplx a b => [(["re"], (true, a)); (["im"], (true, b))]
    | Leaf b v => [([], (b, v))]
    end.
  Fixpoint items (i : nat) (l : list tree) : list rec :=
    match l with [] => [] | v :: l => under (show i) (paths v) ++ items (S i) l end.
  Fixpoint entries (l : list (string * tree)) : list rec :=
    match l with [] => [] | (k, v) :: l => under k (paths v) ++ entries l end.
  Definition named (root : string) (l : list rec) : list (string * (bool * V)) :=
    map (fun r => ((root ++ enc (fst r))%string, snd r)) l.
  Lemma named_under root k l : named root (under k l) = named (root ++ "/" ++ k)%string l.
  Proof.
    unfold named, under. rewrite map_map. apply map_ext. intros [p x]. cbn [fst snd]. f_equal.
    cbn [enc]. now rewrite !app_str_assoc.
  Qed.
  Lemma named_app root a b : named root (a ++ b) = named root a ++ named root b.
  Proof. apply map_app. Qed.

  Lemma tree_log_is t : forall root data, tree_log V t root data = data ++ named root (paths t).
  Proof.
    assert (L : forall l, Forall (fun t => forall root data, tree_log V t root data = data ++ named root (paths t)) l ->
      forall root i data,
      (fix items (i : nat) (l : list tree) (data : list (string * (bool * V))) {struct l} :=
        match l with [] => data | v :: l => items (S i) l (tree_log V v (root ++ "/" ++ show i)%string data) end) i l data
      = data ++ named root (items i l)).
    { intros l F root. induction F as [|v l Hv F IH]; intros i data; cbn [items]; [cbn [named map]; now rewrite app_nil_r|].
      rewrite IH, Hv, named_app, named_under. now rewrite app_assoc. }
    induction t using tree_ind2; intros root data; cbn [tree_log].
    - cbn [paths named map]. now rewrite app_nil_r.
    - exact (L l H root O data).
    - exact (L l H root O data).
    - change (paths (TDict l)) with (entries l). revert data.
      induction H as [|[k v] l Hv F IH]; intros data; cbn [entries]; [cbn [named map]; now rewrite app_nil_r|].
      cbn [snd] in Hv. rewrite IH, Hv, named_app, named_under. now rewrite app_assoc.
    - apply IHt.
    - apply IHt.
    - cbn [paths named map enc fst snd]. rewrite app_str_nil, <- app_assoc. reflexivity.
    - cbn [paths named map enc fst snd]. now rewrite app_str_nil.
  Qed.

  Lemma in_under k l p x : In (p, x) (under k l) <-> exists q, p = k :: q /\ In (q, x) l.
  Proof.
    unfold under. rewrite in_map_iff. split.
    - intros [[q y] [E I]]. cbn [fst snd] in E. injection E as <- <-. eauto.
    - intros [q [-> I]]. exists (q, x). now split.
  Qed.
  Lemma in_items l : forall i p x, In (p, x) (items i l) <->
    exists j t q, nth_error l j = Some t /\ p = show (i + j) :: q /\ In (q, x) (paths t).
  Proof.
    induction l as [|v l IH]; intros i p x; cbn [items].
    - split; [intros []|]. intros [j [t [q [E _]]]]. now destruct j.
    - rewrite in_app_iff, in_under, IH. split.
      + intros [[q [-> I]] | [j [t [q [E [-> I]]]]]].
        * exists O, v, q. now rewrite Nat.add_0_r.
        * exists (S j), t, q. now rewrite Nat.add_succ_r.
      + intros [[|j] [t [q [E [-> I]]]]]; cbn [nth_error] in E.
        * injection E as ->. left. exists q. now rewrite Nat.add_0_r.
        * right. exists j, t, q. now rewrite Nat.add_succ_r.
  Qed.
  Lemma in_entries l : forall p x, In (p, x) (entries l) <->
    exists k t q, In (k, t) l /\ p = k :: q /\ In (q, x) (paths t).
  Proof.
    induction l as [|[k v] l IH]; intros p x; cbn [entries].
    - split; [intros []|]. now intros [k [t [q [[] _]]]].
    - rewrite in_app_iff, in_under, IH. split.
      + intros [[q [-> I]] | [k' [t [q [E [-> I]]]]]].
        * exists k, v, q. split; [now left|]. now split.
        * exists k', t, q. split; [now right|]. now split.
      + intros [k' [t [q [[E|E] [-> I]]]]].
        * injection E as -> ->. left. eauto.
        * right. exists k', t, q. now repeat split.
  Qed.
  Lemma in_paths t : forall p b v, In (p, (b, v)) (paths t) <-> at_path V t p b v.
  Proof.
    induction t using tree_ind2; intros p b' v'.
    - cbn [paths]. split; [intros []|]. intros A; inversion A.
    - change (paths (TList l)) with (items O l). rewrite in_items. rewrite Forall_forall in H. split.
      + intros [j [t [q [E [-> I]]]]]. cbn [Nat.add]. apply AtList with t; [exact E|]. apply H; [|exact I]. now apply nth_error_In in E.
      + intros A. inversion A; subst. match goal with N : nth_error l ?i = Some ?t, Q : at_path _ ?t ?p _ _ |- _ =>
          exists i, t, p; repeat split; [exact N|]; apply H; [now apply nth_error_In in N|exact Q] end.
    - change (paths (TTuple l)) with (items O l). rewrite in_items. rewrite Forall_forall in H. split.
      + intros [j [t [q [E [-> I]]]]]. cbn [Nat.add]. apply AtTuple with t; [exact E|]. apply H; [|exact I]. now apply nth_error_In in E.
      + intros A. inversion A; subst. match goal with N : nth_error l ?i = Some ?t, Q : at_path _ ?t ?p _ _ |- _ =>
          exists i, t, p; repeat split; [exact N|]; apply H; [now apply nth_error_In in N|exact Q] end.
    - change (paths (TDict l)) with (entries l). rewrite in_entries. rewrite Forall_forall in H. split.
      + intros [k [t [q [E [-> I]]]]]. apply AtDict with t; [exact E|]. now apply (H (k, t) E).
      + intros A. inversion A; subst. match goal with N : In (?k, ?t) l, Q : at_path _ ?t ?p _ _ |- _ =>
          exists k, t, p; repeat split; [exact N|]; now apply (H (k, t) N) end.
    - cbn [paths]. rewrite IHt. split; [apply AtCompound|]. intros A; now inversion A.
    - cbn [paths]. rewrite IHt. split; [apply AtHasDict|]. intros A; now inversion A.
    - cbn [paths In]. split.
      + intros [E|[E|[]]]; injection E as <- <- <-; constructor.
      + intros A. inversion A; subst; [left|right; left]; reflexivity.
    - cbn [paths In]. split.
      + intros [E|[]]. injection E as <- <- <-. constructor.
      + intros A. inversion A; subst. now left.
  Qed.

  (** ** distinct names *)
  Definition slashless (l : list rec) : Prop := Forall (fun r => Forall no_slash (fst r)) l.
  Lemma at_slashless t p b v : good V t -> at_path V t p b v -> Forall no_slash p.
  Proof.
    intros G A. induction A.
    - constructor.
    - constructor; [|constructor]. intros H; cbn in H; repeat (destruct H as [H|H]; [discriminate H|]); destruct H.
    - constructor; [|constructor]. intros H; cbn in H; repeat (destruct H as [H|H]; [discriminate H|]); destruct H.
    - inversion G as [|l' GL| | | | | |]; subst. constructor; [apply show_no_slash|]. apply IHA. apply GL. now apply nth_error_In in H.
    - inversion G as [| |l' GL| | | | |]; subst. constructor; [apply show_no_slash|]. apply IHA. apply GL. now apply nth_error_In in H.
    - inversion G as [| | |l' ND GL| | | |]; subst. destruct (GL k t H) as [S G2]. constructor; [exact S|]. now apply IHA.
    - inversion G; subst. now apply IHA.
    - inversion G; subst. now apply IHA.
  Qed.
  Lemma nodup_under k l : NoDup (map fst l) -> NoDup (map fst (under k l)).
  Proof.
    intros H. unfold under. rewrite map_map. cbn [fst]. rewrite <- (map_map fst (cons k)).
    apply Injective_map_NoDup; [|exact H]. intros a b E. now injection E.
  Qed.
  Lemma nodup_app {A} (a b : list A) : NoDup a -> NoDup b -> (forall x, In x a -> In x b -> False) -> NoDup (a ++ b).
  Proof.
    intros Ha Hb D. induction Ha as [|x a Hx Ha IH]; [exact Hb|]. cbn [app]. constructor.
    - rewrite in_app_iff. intros [I|I]; [now apply Hx|]. apply (D x); [now left|exact I].
    - apply IH. intros y I J. apply (D y); [now right|exact J].
  Qed.
  Lemma in_fst_under k l p : In p (map fst (under k l)) -> exists q, p = k :: q.
  Proof. unfold under. rewrite map_map. intros I. apply in_map_iff in I. destruct I as [r [<- _]]. cbn [fst]. eauto. Qed.
  Lemma in_fst_items l i p : In p (map fst (items i l)) -> exists j q, p = show (i + j) :: q.
  Proof. intros I. apply in_map_iff in I. destruct I as [[q x] [<- I]]. apply in_items in I. destruct I as [j [t [r [_ [-> _]]]]]. cbn [fst]. eauto. Qed.
  Lemma in_fst_entries l p : In p (map fst (entries l)) -> exists k q, In k (map fst l) /\ p = k :: q.
  Proof.
    intros I. apply in_map_iff in I. destruct I as [[q x] [<- I]]. apply in_entries in I. destruct I as [k [t [r [K [-> _]]]]].
    exists k, r. split; [|reflexivity]. change k with (fst (k, t)). now apply in_map.
  Qed.
  Lemma nodup_items l : Forall (fun t => NoDup (map fst (paths t))) l -> forall i, NoDup (map fst (items i l)).
  Proof.
    induction 1 as [|t l Ht F IH]; intros i; cbn [items]; [constructor|]. rewrite map_app. apply nodup_app.
    - now apply nodup_under.
    - apply IH.
    - intros p I J. apply in_fst_under in I. destruct I as [q ->]. apply in_fst_items in J. destruct J as [j [r J]].
      injection J as J _. apply show_inj in J. lia.
  Qed.
  Lemma nodup_paths t : good V t -> NoDup (map fst (paths t)).
  Proof.
    induction t using tree_ind2; intros G; inversion G; subst.
    - constructor.
    - apply (nodup_items l). rewrite Forall_forall in *. intros t I. apply H; [exact I|]. now apply H1.
    - apply (nodup_items l). rewrite Forall_forall in *. intros t I. apply H; [exact I|]. now apply H1.
    - change (NoDup (map fst (entries l))). clear G. induction H as [|[k t] l Ht F IH]; cbn [entries]; [constructor|].
      cbn [map fst] in H1. apply NoDup_cons_iff in H1. destruct H1 as [N1 N2]. rewrite map_app. apply nodup_app.
      + apply nodup_under. apply Ht. cbn [snd]. apply (H2 k t). now left.
      + apply IH; [exact N2|]. intros k' t' I. apply H2. now right.
      + intros p I J. apply in_fst_under in I. destruct I as [q ->]. apply in_fst_entries in J. destruct J as [k' [r [K J]]].
        injection J as -> _. now apply N1.
    - cbn [paths]. now apply IHt.
    - cbn [paths]. now apply IHt.
    - cbn. constructor; [intros [E|[]]; discriminate E|]. constructor; [intros []|constructor].
    - cbn. constructor; [intros []|constructor].
  Qed.

  (** ** the calls of the writer *)
  Definition scalars (step : nat) (l : list rec) : list (string * V * nat) :=
    flat_map (fun r : rec => if fst (snd r) then [(tag (fst r), snd (snd r), step)] else []) l.
  Lemma tb_call_is writer step t : tb_call V writer step t = writer ++ scalars step (paths t).
  Proof.
    unfold tb_call. rewrite tree_log_is. cbn [app]. f_equal. unfold named, scalars.
    induction (paths t) as [|[p [b v]] l IH]; cbn [map flat_map fst snd]; [reflexivity|]. refine (f_equal2 (@List.app _) _ IH). change ("" ++ enc p)%string with (enc p). now rewrite drop_enc.
  Qed.
  Lemma logged_main writer step t s v k : In (s, v, k) (tb_call V writer step t) <->
    In (s, v, k) writer \/ (k = step /\ exists p, tag p = s /\ at_path V t p true v).
  Proof.
    rewrite tb_call_is, in_app_iff. unfold scalars. rewrite in_flat_map. split.
    - intros [I|[[p [b w]] [I J]]]; [now left|]. right. cbn [fst snd] in J. destruct b; [|destruct J].
      destruct J as [E|[]]. injection E as <- <- <-. split; [reflexivity|]. exists p. split; [reflexivity|]. now apply in_paths.
    - intros [I|[-> [p [<- A]]]]; [now left|]. right. exists (p, (true, v)). split; [now apply in_paths|]. now left.
  Qed.
  Lemma once_main step t : good V t -> NoDup (map (fun c : string * V * nat => fst (fst c)) (tb_call V [] step t)).
  Proof.
    intros G. rewrite tb_call_is. cbn [app]. pose proof (nodup_paths t G) as N.
    assert (S : forall r, In r (paths t) -> Forall no_slash (fst r)).
    { intros [p [b v]] I. apply in_paths in I. cbn [fst]. now apply at_slashless with t b v. }
    assert (O : In [] (map fst (paths t)) -> length (paths t) = 1).
    { intros I. apply in_map_iff in I. destruct I as [[p [b v]] [E I]]. cbn [fst] in E. subst p. apply in_paths in I.
      clear - I. remember ([] : list string) as p eqn:E. induction I; try discriminate E; try reflexivity.
      - exact (IHI E). - exact (IHI E). }
    revert N S O. generalize (paths t). intros l N S O.
    assert (Q : forall r, In r l -> fst r = [] -> forall q, In q l -> q = r).
    { intros r I E q J. assert (L : length l = 1). { apply O. rewrite <- E. now apply in_map. }
      destruct l as [|x [|y l]]; try discriminate L. destruct I as [<-|[]]. now destruct J as [<-|[]]. }
    clear O. induction l as [|[p [b v]] l IH]; cbn [scalars flat_map map fst snd]; [constructor|].
    cbn [map fst] in N. apply NoDup_cons_iff in N. destruct N as [N1 N2].
    assert (IH' : NoDup (map (fun c : string * V * nat => fst (fst c)) (scalars step l))).
    { apply IH; [exact N2|intros r I; apply S; now right|]. intros r I E q J. apply Q; [now right|exact E|now right]. }
    destruct b; [|exact IH']. cbn [app map fst]. constructor; [|exact IH'].
    intros I. apply in_map_iff in I. destruct I as [c [E I]]. unfold scalars in I. apply in_flat_map in I.
    destruct I as [[q [b w]] [I J]]. cbn [fst snd] in J. destruct b; [|destruct J]. destruct J as [<-|[]]. cbn [fst] in E.
    destruct p as [|c p].
    - pose proof (Q ([], (true, v)) (or_introl eq_refl) eq_refl (q, (true, w)) (or_intror I)) as X. injection X as -> ->.
      apply N1. apply in_map_iff. eexists. split; [|exact I]. reflexivity.
    - destruct q as [|d q].
      + pose proof (Q ([], (true, w)) (or_intror I) eq_refl (c :: p, (true, v)) (or_introl eq_refl)) as X. discriminate X.
      + apply N1. apply in_map_iff. exists (d :: q, (true, w)). split; [|exact I]. cbn [fst].
        apply tag_inj; try discriminate; [| |exact E].
        * exact (S (d :: q, (true, w)) (or_intror I)).
        * exact (S (c :: p, (true, v)) (or_introl eq_refl)).
  Qed.
  Lemma run_main calls : forall writer, tb_run V writer calls = writer ++ flat_map (fun c : nat * tree => tb_call V [] (fst c) (snd c)) calls.
  Proof.
    induction calls as [|[step t] calls IH]; intros writer; cbn [tb_run flat_map fst snd]; [now rewrite app_nil_r|].
    rewrite IH, app_assoc, !(tb_call_is _ step). reflexivity.
  Qed.
  Lemma history_main calls s v k : In (s, v, k) (tb_run V [] calls) <->
    exists t p, In (k, t) calls /\ tag p = s /\ at_path V t p true v.
  Proof.
    rewrite run_main, app_nil_l, in_flat_map. split.
    - intros [[step t] [I J]]. cbn [fst snd] in J. apply logged_main in J. destruct J as [[]|[-> [p [E A]]]]. exists t, p. now split.
    - intros [t [p [I [E A]]]]. exists (k, t). split; [exact I|]. cbn [fst snd]. apply logged_main. right. split; [reflexivity|]. exists p. now split.
  Qed.
End P.

Lemma slash_refuted : exists (t : tree nat) step, (forall l, t = TDict l -> NoDup (map fst l)) /\
  tb_call nat [] step t = [("a/b", 1, step); ("a/b", 2, step)].
Proof.
  exists (TDict [("a", TDict [("b", Leaf true 1)]); ("a/b", Leaf true 2)]), 0. split; [|reflexivity].
  intros l E. injection E as <-. cbn. constructor; [intros [E|[]]; discriminate E|]. constructor; [intros []|constructor].
Qed.
Lemma array_refuted : exists (t : tree nat) p v, at_path nat t p false v /\ forall step, tb_call nat [] step t = [].
Proof.
  exists (TDict [("Energy", Leaf false 3)]), ["Energy"], 3. split; [|reflexivity].
  apply AtDict with (Leaf false 3); [now left|]. constructor.
Qed.
