From Coq Require Import String List Arith ZArith QArith Bool Lia.
From Verif Require Import Base BaseFacts SROpts_Model SROpts_Spec.
Import ListNotations.
Open Scope string_scope.
Open Scope list_scope.
Open Scope nat_scope.

Lemma has_app k a b : has k (a ++ b) = has k a || has k b.
Proof. unfold has. apply existsb_app. Qed.
Lemma has_extra k extra : In k reserved -> for_tensor extra -> has k extra = false.
Proof.
  intros Hk. induction 1 as [|p l Hp Hl IH]; [reflexivity|]. cbn [has existsb]. rewrite <- IH. fold (has k l).
  destruct (String.eqb_spec (fst p) k); [|reflexivity]. subst. contradiction.
Qed.
Lemma get_app k a b : get k (a ++ b) = match get k a with Some v => Some v | None => get k b end.
Proof.
  unfold get. induction a as [|p a IH]; [reflexivity|]. cbn [app find]. destruct (fst p =? k)%string; [reflexivity|exact IH].
Qed.
Lemma get_none k a : has k a = false -> get k a = None.
Proof.
  unfold get. induction a as [|p a IH]; [reflexivity|]. cbn [has existsb find]. intros H. apply orb_false_iff in H.
  destruct H as [-> H]. now apply IH.
Qed.
Lemma get_some k a : has k a = true -> exists v, get k a = Some v.
Proof.
  unfold get. induction a as [|p a IH]; [discriminate|]. cbn [has existsb find]. destruct (fst p =? k)%string; [eauto|exact IH].
Qed.
Lemma pop_app k a b : pop k (a ++ b) = pop k a ++ pop k b.
Proof. unfold pop. apply filter_app. Qed.
Lemma pop_absent k a : has k a = false -> pop k a = a.
Proof.
  unfold pop. induction a as [|p a IH]; [reflexivity|]. cbn [has existsb filter]. intros H. apply orb_false_iff in H.
  destruct H as [-> H]. cbn. now rewrite IH.
Qed.
Lemma has_pop k k' a : has k (pop k' a) = has k a && negb (k =? k')%string.
Proof.
  unfold has, pop. induction a as [|p a IH]; [reflexivity|]. cbn [filter existsb].
  destruct (String.eqb_spec (fst p) k') as [E|E]; cbn [negb existsb]; rewrite IH.
  - subst k'. rewrite (String.eqb_sym k (fst p)). destruct (fst p =? k)%string; cbn; [now rewrite andb_false_r|reflexivity].
  - destruct (String.eqb_spec (fst p) k); cbn; [|reflexivity]. subst k. destruct (String.eqb_spec (fst p) k'); [contradiction|reflexivity].
Qed.
Lemma has_put k k' v a : has k (put k' v a) = (k =? k')%string || has k a.
Proof.
  unfold put. destruct (has k' a) eqn:H.
  - assert (E : has k (map (fun p => if (fst p =? k')%string then (k', v) else p) a) = has k a).
    { clear H. unfold has. induction a as [|p a IH]; [reflexivity|]. cbn [map existsb]. rewrite IH. f_equal.
      destruct (String.eqb_spec (fst p) k'); [subst; reflexivity|reflexivity]. }
    rewrite E. destruct (String.eqb_spec k k'); [subst; now rewrite H|reflexivity].
  - rewrite has_app. cbn. rewrite (String.eqb_sym k' k). destruct (k =? k')%string, (has k a); reflexivity.
Qed.
Lemma has_cons k k' v a : has k ((k', v) :: a) = (k' =? k)%string || has k a.
Proof. reflexivity. Qed.
Lemma has_given k k' v : has k (given k' v) = match v with Some _ => (k' =? k)%string | None => false end.
Proof. destruct v; cbn; [now rewrite orb_false_r|reflexivity]. Qed.
Lemma get_given k k' v : get k (given k' v) = if (k' =? k)%string then v else None.
Proof. destruct v; unfold get; cbn; destruct (k' =? k)%string; reflexivity. Qed.
Lemma pop_given k k' v : pop k (given k' v) = if (k' =? k)%string then [] else given k' v.
Proof. destruct v; unfold pop; cbn; destruct (k' =? k)%string; reflexivity. Qed.

Section NewApi.
  Variables (q s d : option val) (extra : kwargs) (r : val).
  Hypothesis X : for_tensor extra.
  Hypothesis Q : q <> Some VNone.
  Hypothesis Sv : s <> Some VNone.
  Lemma E_has k : In k reserved -> has k extra = false. Proof. intros H. now apply has_extra. Qed.
  Lemma E_get k : In k reserved -> get k extra = None. Proof. intros H. apply get_none, has_extra; assumption. Qed.
  Lemma E_pop k : In k reserved -> pop k extra = extra. Proof. intros H. apply pop_absent, has_extra; assumption. Qed.
  Ltac res := cbn; tauto.
  Lemma make_keywords : exists o, make_SR [] (("solver_restart", r) :: given "qgt" q ++ given "solver" s ++ given "diag_shift" d ++ extra) = Ok o
    /\ configured q s d extra r o.
  Proof.
    unfold make_SR. cbn [length Nat.leb andb nth]. eexists. split; [reflexivity|].
    change (("solver_restart", r) :: ?l) with (given "solver_restart" (Some r) ++ l).
    rewrite !get_app, !get_given, !pop_app, !pop_given. cbn [String.eqb Ascii.eqb Bool.eqb app].
    repeat (rewrite ?pop_app, ?pop_given; cbn [String.eqb Ascii.eqb Bool.eqb app]).
    rewrite !E_get, !E_pop by res.
    unfold configured. cbn [sr_solver sr_qgt sr_kwargs sr_restart].
    split; [destruct s as [[]|]; congruence|]. split.
    - destruct q as [[]|]; try reflexivity; try (exfalso; apply Q; reflexivity); destruct s as [[]|]; try reflexivity; exfalso; apply Sv; reflexivity.
    - split; [|reflexivity]. destruct d; reflexivity.
  Qed.

  Lemma build_keywords : exists o, build_SR [] r (given "qgt" q ++ given "solver" s ++ given "diag_shift" d ++ extra) = Ok o
    /\ configured q s d extra r o.
  Proof.
    unfold build_SR. rewrite !has_app, !has_given, E_has by res.
    assert (O : existsb (fun k => has k (given "qgt" q ++ given "solver" s ++ given "diag_shift" d ++ extra))
      (["iterative"; "method"] ++ legacy_solver_kwargs) = false).
    { cbn [existsb app legacy_solver_kwargs]. rewrite !has_app, !has_given. rewrite !E_has by res.
      destruct q, s, d; reflexivity. }
    rewrite O. replace (match q with Some _ => ("qgt" =? "matrix")%string | None => false end || (match s with Some _ => ("solver" =? "matrix")%string | None => false end || (match d with Some _ => ("diag_shift" =? "matrix")%string | None => false end || false))) with false by (destruct q, s, d; reflexivity).
    cbn [orb]. apply make_keywords.
  Qed.
End NewApi.

(** given by position *)
Lemma build_positional1 q s d extra r : for_tensor extra -> q <> VNone -> is_num q = false -> s <> Some VNone ->
  build_SR [q] r (given "solver" s ++ given "diag_shift" d ++ extra) = build_SR [] r (given "qgt" (Some q) ++ given "solver" s ++ given "diag_shift" d ++ extra).
Proof.
  intros X Q N Sv. unfold build_SR. change (given "qgt" (Some q) ++ ?l) with (("qgt", q) :: l). rewrite has_cons. cbn [String.eqb Ascii.eqb Bool.eqb orb].
  set (kw := given "solver" s ++ given "diag_shift" d ++ extra).
  assert (Hk : forall k, In k reserved -> k <> "solver" -> k <> "diag_shift" -> has k kw = false).
  { intros k Hk N1 N2. unfold kw. rewrite !has_app, !has_given, (has_extra k extra Hk X).
    rewrite (proj2 (String.eqb_neq "solver" k) (not_eq_sym N1)), (proj2 (String.eqb_neq "diag_shift" k) (not_eq_sym N2)).
    destruct s, d; reflexivity. }
  assert (R : forall k, In k (["iterative"; "method"] ++ legacy_solver_kwargs) -> In k reserved /\ k <> "solver" /\ k <> "diag_shift" /\ k <> "qgt").
  { intros k H. cbn in H. cbn [In reserved]. repeat (destruct H as [<- | H]; [repeat split; [cbn; tauto|discriminate..]|]). destruct H. }
  assert (O : existsb (fun k => has k kw) (["iterative"; "method"] ++ legacy_solver_kwargs) = false).
  { apply not_true_is_false. intros H. apply existsb_exists in H. destruct H as (k & Hin & H). destruct (R k Hin) as (A & B & C & _). rewrite (Hk k A B C) in H. discriminate. }
  assert (O' : existsb (fun k => has k (("qgt", q) :: kw)) (["iterative"; "method"] ++ legacy_solver_kwargs) = false).
  { apply not_true_is_false. intros H. apply existsb_exists in H. destruct H as (k & Hin & H). destruct (R k Hin) as (A & B & C & D).
    rewrite has_cons, (Hk k A B C), orb_false_r in H. apply String.eqb_eq in H. congruence. }
  rewrite O, O', N. cbn [orb]. rewrite (Hk "matrix") by (cbn; first [tauto|discriminate]).
  unfold make_SR. cbn [length Nat.leb andb nth]. rewrite has_cons, (Hk "qgt") by (cbn; first [tauto|discriminate]). cbn [String.eqb Ascii.eqb Bool.eqb orb andb].
  unfold get. cbn [find fst snd String.eqb Ascii.eqb Bool.eqb]. unfold pop. cbn [filter fst negb String.eqb Ascii.eqb Bool.eqb]. reflexivity.
Qed.
Lemma build_positional2 q s d extra r : for_tensor extra -> q <> VNone -> is_num q = false -> s <> VNone -> is_str s = false ->
  build_SR [q; s] r (given "diag_shift" d ++ extra) = build_SR [q] r (given "solver" (Some s) ++ given "diag_shift" d ++ extra).
Proof.
  intros X Q N Sv St. unfold build_SR. change (given "solver" (Some s) ++ ?l) with (("solver", s) :: l). rewrite has_cons. cbn [String.eqb Ascii.eqb Bool.eqb orb].
  set (kw := given "diag_shift" d ++ extra).
  assert (Hk : forall k, In k reserved -> k <> "diag_shift" -> has k kw = false).
  { intros k Hk N2. unfold kw. rewrite !has_app, !has_given, (has_extra k extra Hk X).
    rewrite (proj2 (String.eqb_neq "diag_shift" k) (not_eq_sym N2)). destruct d; reflexivity. }
  assert (R : forall k, In k (["iterative"; "method"] ++ legacy_solver_kwargs) -> In k reserved /\ k <> "solver" /\ k <> "diag_shift" /\ k <> "qgt").
  { intros k H. cbn in H. cbn [In reserved]. repeat (destruct H as [<- | H]; [repeat split; [cbn; tauto|discriminate..]|]). destruct H. }
  assert (O : existsb (fun k => has k kw) (["iterative"; "method"] ++ legacy_solver_kwargs) = false).
  { apply not_true_is_false. intros H. apply existsb_exists in H. destruct H as (k & Hin & H). destruct (R k Hin) as (A & B & C & _). rewrite (Hk k A C) in H. discriminate. }
  assert (O' : existsb (fun k => has k (("solver", s) :: kw)) (["iterative"; "method"] ++ legacy_solver_kwargs) = false).
  { apply not_true_is_false. intros H. apply existsb_exists in H. destruct H as (k & Hin & H). destruct (R k Hin) as (A & B & C & D).
    rewrite has_cons, (Hk k A C), orb_false_r in H. apply String.eqb_eq in H. congruence. }
  rewrite O, O', N, St. cbn [orb]. rewrite (Hk "matrix") by (cbn; first [tauto|discriminate]).
  unfold make_SR. cbn [length Nat.leb andb nth]. rewrite !has_cons, (Hk "qgt"), (Hk "solver") by (cbn; first [tauto|discriminate]). cbn [String.eqb Ascii.eqb Bool.eqb orb andb].
  unfold get. cbn [find fst snd String.eqb Ascii.eqb Bool.eqb]. unfold pop. cbn [filter fst negb String.eqb Ascii.eqb Bool.eqb]. reflexivity.
Qed.

(** ** old keywords *)
Lemma make_keeps k args kw o : k <> "qgt" -> k <> "solver" -> k <> "diag_shift" -> k <> "solver_restart" ->
  has k kw = true -> make_SR args kw = Ok o -> has k (sr_kwargs o) = true.
Proof.
  intros N1 N2 N3 N4 H. unfold make_SR.
  assert (E : forall (v : val), has k (("diag_shift", v) :: pop "qgt" (pop "solver" (pop "diag_shift" (pop "solver_restart" kw)))) = true).
  { intros v. rewrite has_cons, !has_pop, H. apply String.eqb_neq in N1, N2, N3, N4. rewrite N1, N2, N3, N4. cbn. apply orb_true_r. }
  destruct args as [|a [|b [|c args]]]; [| | |discriminate];
    repeat match goal with |- (if ?c then _ else _) = _ -> _ => destruct c; [discriminate|] end; intros [= <-]; apply E.
Qed.
Lemma not_accepted k q kw : has k kw = true -> ~ In k (accepted q) -> construct q kw = Err TypeError.
Proof.
  intros H N. unfold construct.
  assert (E : existsb (fun p => negb (existsb (fun k => (k =? fst p)%string) (accepted q))) kw = true).
  { apply existsb_exists. unfold has in H. apply existsb_exists in H. destruct H as (p & Hp & E). apply String.eqb_eq in E. exists p. split; [exact Hp|].
    apply negb_true_iff, not_true_is_false. intros H. apply existsb_exists in H. destruct H as (k' & Hk' & E'). apply String.eqb_eq in E'. congruence. }
  now rewrite E.
Qed.
Lemma sr_construct_fails k o v : builtin (sr_qgt o) -> has k (sr_kwargs o) = true ->
  ~ In k ["mode"; "holomorphic"; "rescale_shift"; "diag_shift"; "_in_solve"] -> sr_construct o v = Err TypeError.
Proof.
  intros B H N. unfold sr_construct. destruct (sr_qgt o) as [q|s|q|s| |b]; try reflexivity.
  assert (A : forall q, construct q (sr_kwargs o) = Err TypeError).
  { intros q'. apply (not_accepted k); [exact H|]. intros I. apply N. destruct q'; cbn in *; tauto. }
  destruct q as [| | |s|i]; try (rewrite A; reflexivity). exfalso. eapply B; reflexivity.
Qed.
Lemma build_keeps k args r kw o : is_legacy k -> has k kw = true -> build_SR args r kw = Ok o -> has k (sr_kwargs o) = true.
Proof.
  intros L H. assert (N : k <> "qgt" /\ k <> "solver" /\ k <> "diag_shift" /\ k <> "solver_restart" /\ k <> "iterative" /\ k <> "method").
  { unfold is_legacy in L. cbn in L. repeat (destruct L as [<- | L]; [repeat split; discriminate|]). destruct L. }
  destruct N as (N1 & N2 & N3 & N4 & N5 & N6).
  unfold build_SR. destruct (has "matrix" kw); [now apply make_keeps|].
  assert (O : existsb (fun k => has k kw) (["iterative"; "method"] ++ legacy_solver_kwargs) = true).
  { apply existsb_exists. exists k. split; [|exact H]. apply in_or_app. right. exact L. }
  rewrite O. cbn [orb].
  set (kw1 := match args with a :: _ => put "diag_shift" a kw | [] => kw end).
  set (kw2 := match args with _ :: b :: _ => put "method" b kw1 | _ => kw1 end).
  assert (H1 : has k kw1 = true) by (unfold kw1; destruct args; [exact H|rewrite has_put, H; apply orb_true_r]).
  assert (H2 : has k kw2 = true) by (unfold kw2; destruct args as [|a [|b args]]; try exact H1; rewrite has_put, H1; apply orb_true_r).
  assert (H3 : has k (pop "method" (pop "iterative" kw2)) = true).
  { rewrite !has_pop, H2. apply String.eqb_neq in N5, N6. now rewrite N5, N6. }
  destruct args as [|a [|b [|c args]]]; [| | |discriminate];
    (destruct (match get "method" (pop "iterative" kw2) with Some _ => _ | None => _ end) as [s|e]; cbn [bind]; [|discriminate];
     apply make_keeps; try assumption; rewrite has_cons, has_put, H3, !orb_true_r; reflexivity).
Qed.
Lemma legacy_main k args r kw o v : is_legacy k -> has k kw = true -> build_SR args r kw = Ok o -> builtin (sr_qgt o) ->
  sr_construct o v = Err TypeError.
Proof.
  intros L H E B. apply (sr_construct_fails k o v B (build_keeps k args r kw o L H E)).
  unfold is_legacy in L. cbn in L. repeat (destruct L as [<- | L]; [cbn; intuition discriminate|]). destruct L.
Qed.
Lemma unknown_main k args r kw o v : k <> "qgt" -> k <> "solver" -> k <> "solver_restart" -> k <> "iterative" -> k <> "method" ->
  ~ In k ["mode"; "holomorphic"; "rescale_shift"; "diag_shift"; "_in_solve"] ->
  has k kw = true -> build_SR args r kw = Ok o -> builtin (sr_qgt o) -> sr_construct o v = Err TypeError.
Proof.
  intros N1 N2 N4 N5 N6 NA H E B. apply (sr_construct_fails k o v B); [|exact NA].
  assert (N3 : k <> "diag_shift") by (intros ->; apply NA; cbn; tauto). revert E.
  unfold build_SR. destruct (has "matrix" kw); [now apply make_keeps|].
  destruct (_ || _ || _).
  - set (kw1 := match args with a :: _ => put "diag_shift" a kw | [] => kw end).
    set (kw2 := match args with _ :: b :: _ => put "method" b kw1 | _ => kw1 end).
    assert (H1 : has k kw1 = true) by (unfold kw1; destruct args; [exact H|rewrite has_put, H; apply orb_true_r]).
    assert (H2 : has k kw2 = true) by (unfold kw2; destruct args as [|a [|b args]]; try exact H1; rewrite has_put, H1; apply orb_true_r).
    assert (H3 : has k (pop "method" (pop "iterative" kw2)) = true).
    { rewrite !has_pop, H2. apply String.eqb_neq in N5, N6. now rewrite N5, N6. }
    destruct args as [|a [|b [|c args]]]; [| | |discriminate];
      (destruct (match get "method" (pop "iterative" kw2) with Some _ => _ | None => _ end) as [s|e]; cbn [bind]; [|discriminate];
       apply make_keeps; try assumption; rewrite has_cons, has_put, H3, !orb_true_r; reflexivity).
  - apply make_keeps; try assumption. rewrite has_cons, H. apply orb_true_r.
Qed.

(** ** automatic choice *)
Definition auto_run (s : solver_t) (c : cache) (calls : list (nat * vstate)) : cache :=
  fold_left (fun c p => fst (auto_call s c (fst p) (snd p))) calls c.
Lemma auto_same s id v0 calls : Forall (fun p => fst p = id) calls ->
  auto_run s (Some (id, default_qgt s v0)) calls = Some (id, default_qgt s v0).
Proof.
  induction 1 as [|[i v] l Hp Hl IH]; [reflexivity|]. cbn in Hp. subst i. unfold auto_run. cbn [fold_left fst snd]. cbn [auto_call]. rewrite Nat.eqb_refl.
  exact IH.
Qed.
Lemma auto_cached s c id v0 calls v : (forall q, c <> Some (id, q)) -> Forall (fun p => fst p = id) calls ->
  snd (auto_call s (auto_run s c ((id, v0) :: calls)) id v) = default_qgt s v0.
Proof.
  intros Hc F. assert (E : auto_run s c ((id, v0) :: calls) = Some (id, default_qgt s v0)).
  { unfold auto_run. cbn [fold_left fst snd]. rewrite <- (auto_same s id v0 calls F). unfold auto_run. f_equal.
    unfold auto_call. destruct c as [[id' q]|]; [|reflexivity]. destruct (Nat.eqb_spec id id'); [subst; exfalso; eapply Hc; reflexivity|reflexivity]. }
  rewrite E. cbn [auto_call]. now rewrite Nat.eqb_refl.
Qed.

Lemma usable s d o v : (forall t, s = Some t -> exists t', t = VSolver t') -> configured None s d [] (sr_restart o) o ->
  exists t, sr_solver o = VSolver t /\ sr_construct o v = Ok (default_qgt t v).
Proof.
  intros Hs (E1 & E2 & E3 & _). unfold sr_construct. rewrite E2, E3.
  assert (E : exists t, sr_solver o = VSolver t).
  { rewrite E1. destruct s as [t|]; [|eauto]. destruct (Hs t eq_refl) as [t' ->]. eauto. }
  destruct E as [t ->]. exists t. split; [reflexivity|].
  assert (C : forall q, (q = OnTheFly \/ q = JacDense \/ q = JacPyTree) -> forall w, construct q [("diag_shift", w)] = Ok tt).
  { intros q [-> | [-> | ->]] w; reflexivity. }
  rewrite C; [reflexivity|]. unfold default_qgt. destruct (is_dense_solver t); [tauto|]. destruct (_ && _); [destruct (vs_homogeneous v)|]; tauto.
Qed.
Lemma usable_given q s d extra o v : (q = OnTheFly \/ q = JacDense \/ q = JacPyTree) ->
  configured (Some (VQgt q)) s d extra (sr_restart o) o -> incl (map fst extra) (accepted q) -> ~ In "mode" (map fst extra) ->
  sr_construct o v = Ok q.
Proof.
  intros Hq (E1 & E2 & E3 & _) I M. unfold sr_construct. rewrite E2, E3.
  set (kw := _ :: extra).
  assert (A : existsb (fun p => negb (existsb (fun k => (k =? fst p)%string) (accepted q))) kw = false).
  { apply not_true_is_false. intros H. apply existsb_exists in H. destruct H as (p & Hp & H). apply negb_true_iff in H.
    apply not_true_iff_false in H. apply H. apply existsb_exists. exists (fst p). split; [|apply String.eqb_refl].
    destruct Hp as [<- | Hp]; [destruct Hq as [-> | [-> | ->]]; cbn; tauto|]. apply I, in_map, Hp. }
  assert (G : get "mode" kw = None).
  { apply get_none. unfold kw. rewrite has_cons. cbn [String.eqb Ascii.eqb Bool.eqb orb]. apply not_true_is_false. unfold has. intros H.
    apply existsb_exists in H. destruct H as (p & Hp & H). apply String.eqb_eq in H. apply M. rewrite <- H. now apply in_map. }
  unfold construct. rewrite A, G. destruct Hq as [-> | [-> | ->]]; reflexivity.
Qed.
Lemma legacy_method d m r : 
  build_SR [VNum d; VStr m] r [] =
    if (m =? "cg")%string then Ok (SRObj (VQgt (Auto Cg)) [("diag_shift", VNum d)] (VSolver Cg) r)
    else if (m =? "gmres")%string then Ok (SRObj (VQgt (Auto Gmres)) [("diag_shift", VNum d)] (VSolver Gmres) r)
    else Err ValueError.
Proof.
  destruct (String.eqb_spec m "cg") as [-> |N]; [reflexivity|]. destruct (String.eqb_spec m "gmres") as [-> |N']; [reflexivity|].
  apply String.eqb_neq in N, N'. unfold build_SR. cbn -[String.eqb]. cbn. rewrite N, N'. reflexivity.
Qed.

Lemma lazy_main : forall s d,
  sr_lazy s d [] = Ok (SRObj (VQgt OnTheFly) [("diag_shift", d)] (VSolver (PartialSolver s [])) (VBool false)) /\
  forall n v, exists o, sr_lazy s d [("maxiter", VNum n)] = Ok o /\ sr_construct o v = Err TypeError.
Proof.
  intros s d. split; [reflexivity|]. intros n v. eexists. split; [reflexivity|].
  apply (sr_construct_fails "maxiter"); [intros i H; discriminate H|reflexivity|cbn; intuition discriminate].
Qed.

(** ** The options of the solver reach the solver *)
Lemma get_put k k' v a : get k (put k' v a) = if (k =? k')%string then Some v else get k a.
Proof.
  unfold put. destruct (has k' a) eqn:H.
  - revert H. unfold get. induction a as [|p a IH]; [discriminate|]. cbn [has existsb map find].
    destruct (String.eqb_spec (fst p) k') as [E|E]; cbn [fst orb].
    + intros _. subst k'. destruct (String.eqb_spec (fst p) k) as [E|E].
      * subst k. rewrite String.eqb_refl. reflexivity.
      * rewrite (proj2 (String.eqb_neq k (fst p))) by congruence.
        clear IH. induction a as [|x a IHa]; [reflexivity|]. cbn [map find].
        destruct (String.eqb_spec (fst x) (fst p)) as [E'|E'].
        -- cbn [fst]. rewrite E', (proj2 (String.eqb_neq (fst p) k)) by exact E. exact IHa.
        -- destruct (fst x =? k)%string; [reflexivity|exact IHa].
    + intros H. destruct (String.eqb_spec (fst p) k) as [E'|E'].
      * subst k. rewrite (proj2 (String.eqb_neq (fst p) k')) by exact E. reflexivity.
      * apply IH, H.
  - rewrite get_app. unfold get at 2. cbn [find fst snd]. rewrite String.eqb_sym. destruct (String.eqb_spec k k').
    + subst. rewrite (get_none _ _ H). reflexivity.
    + destruct (get k a); reflexivity.
Qed.
Lemma get_pop k k' a : k <> k' -> get k (pop k' a) = get k a.
Proof.
  intros N. unfold get, pop. induction a as [|p a IH]; [reflexivity|]. cbn [filter find].
  destruct (String.eqb_spec (fst p) k') as [E|E]; cbn [negb].
  - rewrite IH, (proj2 (String.eqb_neq (fst p) k)) by congruence. reflexivity.
  - cbn [find]. destruct (fst p =? k)%string; [reflexivity|exact IH].
Qed.
Lemma get_has k a v : get k a = Some v -> has k a = true.
Proof. intros H. destruct (has k a) eqn:E; [reflexivity|]. rewrite (get_none _ _ E) in H. discriminate. Qed.

Lemma solver_options args r kw o : has "matrix" kw = false -> existsb (fun k => has k kw) legacy_solver_kwargs = true ->
  build_SR args r kw = Ok o ->
  exists s opts, sr_solver o = VSolver (PartialSolver s opts) /\ (s = Cg \/ s = Gmres) /\
    (forall k q, In (k, q) opts -> is_legacy k /\ has k kw = true) /\
    (forall k q, is_legacy k -> get k kw = Some (VNum q) -> In (k, q) opts).
Proof.
  intros HM HL. unfold build_SR. rewrite HM.
  assert (O : existsb (fun k => has k kw) (["iterative"; "method"] ++ legacy_solver_kwargs) = true)
    by (rewrite existsb_app, HL; apply orb_true_r).
  rewrite O. cbn [orb].
  set (kw1 := match args with a :: _ => put "diag_shift" a kw | [] => kw end).
  set (kw2 := match args with _ :: b :: _ => put "method" b kw1 | _ => kw1 end).
  set (kw3 := pop "method" (pop "iterative" kw2)).
  assert (G : forall k, is_legacy k -> get k kw3 = get k kw /\ has k kw3 = has k kw).
  { intros k L. assert (N : k <> "diag_shift" /\ k <> "iterative" /\ k <> "method").
    { unfold is_legacy in L. cbn in L. repeat (destruct L as [<- | L]; [repeat split; discriminate|]). destruct L. }
    destruct N as (N1 & N2 & N3). split.
    - unfold kw3. rewrite !get_pop by assumption. apply String.eqb_neq in N1, N3.
      unfold kw2, kw1. destruct args as [|a [|b args]]; rewrite ?get_put, ?N1, ?N3, ?get_put, ?N1; reflexivity.
    - unfold kw3. rewrite !has_pop. apply String.eqb_neq in N1, N2, N3. rewrite N2, N3, !andb_true_r.
      unfold kw2, kw1. destruct args as [|a [|b args]]; rewrite ?has_put, ?N1, ?N3, ?has_put, ?N1; reflexivity. }
  set (keys := filter (fun k => has k kw3) legacy_solver_kwargs).
  assert (NK : keys <> []).
  { apply existsb_exists in HL. destruct HL as (k & Ik & Hk). intros E.
    assert (I : In k keys) by (apply filter_In; split; [exact Ik|rewrite (proj2 (G k Ik)); exact Hk]). rewrite E in I. destruct I. }
  set (opts := map (fun k => (k, match get k kw3 with Some v => num_of v | None => 0%Q end)) keys).
  assert (A : forall k q, In (k, q) opts -> is_legacy k /\ has k kw = true).
  { intros k q I. apply in_map_iff in I. destruct I as (k' & E & I). injection E as -> _. apply filter_In in I. destruct I as [I H].
    split; [exact I|]. rewrite <- (proj2 (G k I)). exact H. }
  assert (B : forall k q, is_legacy k -> get k kw = Some (VNum q) -> In (k, q) opts).
  { intros k q L E. apply in_map_iff. exists k. rewrite (proj1 (G k L)), E. split; [reflexivity|]. apply filter_In.
    split; [exact L|]. rewrite (proj2 (G k L)). apply (get_has _ _ _ E). }
  assert (F : forall s, s = Cg \/ s = Gmres ->
    make_SR [] (("solver_restart", r) :: put "solver" (VSolver (match keys with [] => s | _ => PartialSolver s opts end)) kw3) = Ok o ->
    exists s opts, sr_solver o = VSolver (PartialSolver s opts) /\ (s = Cg \/ s = Gmres) /\
    (forall k q, In (k, q) opts -> is_legacy k /\ has k kw = true) /\
    (forall k q, is_legacy k -> get k kw = Some (VNum q) -> In (k, q) opts)).
  { intros s Hs E. exists s, opts. split; [|auto].
    assert (X : (match keys with [] => s | _ => PartialSolver s opts end) = PartialSolver s opts) by (destruct keys; [contradiction|reflexivity]).
    rewrite X in E. unfold make_SR in E. cbn [length Nat.leb andb nth] in E.
    assert (Y : get "solver" (("solver_restart", r) :: put "solver" (VSolver (PartialSolver s opts)) kw3) = Some (VSolver (PartialSolver s opts))).
    { unfold get. cbn [find fst]. change (("solver_restart" =? "solver")%string) with false. cbn iota.
      change (get "solver" (put "solver" (VSolver (PartialSolver s opts)) kw3) = Some (VSolver (PartialSolver s opts))).
      rewrite get_put, String.eqb_refl. reflexivity. }
    rewrite Y in E. injection E as <-. reflexivity. }
  destruct args as [|a [|b [|c args]]]; [| | |discriminate];
    (destruct (get "method" (pop "iterative" kw2)) as [[]|]; cbn [bind]; try discriminate;
     [destruct (_ =? "cg")%string; cbn [bind]; [apply F; auto|]; destruct (_ =? "gmres")%string; cbn [bind]; [apply F; auto|discriminate]
     |apply F; auto]).
Qed.
Lemma solver_options_main k0 args r kw o : has "matrix" kw = false -> is_legacy k0 -> has k0 kw = true ->
  build_SR args r kw = Ok o ->
  exists s opts, sr_solver o = VSolver (PartialSolver s opts) /\ (s = Cg \/ s = Gmres) /\
    (forall k q, In (k, q) opts -> is_legacy k /\ has k kw = true) /\
    (forall k q, is_legacy k -> get k kw = Some (VNum q) -> In (k, q) opts).
Proof.
  intros HM L H. apply solver_options; [exact HM|]. apply existsb_exists. exists k0. split; [exact L|exact H].
Qed.

Lemma direct_iff s : flat_solver s -> direct s <-> is_dense_solver s = true.
Proof.
  intros F. split.
  - intros D. destruct D as [| | | |s kw N D]; try reflexivity. destruct D; reflexivity || (exfalso; eapply N; reflexivity).
  - destruct s as [| | | | | |i|s kw]; try discriminate; try (constructor; fail).
    destruct s; cbn in *; try discriminate; try contradiction; intros _; (constructor; [discriminate|constructor]).
Qed.
Lemma chosen_main s v : flat_solver s -> chosen s v (default_qgt s v).
Proof.
  intros F. pose proof (direct_iff s F) as D. unfold chosen, default_qgt.
  destruct (is_dense_solver s); [left; split; [apply D; reflexivity|reflexivity]|]. right.
  assert (ND : ~ direct s) by (intros C; apply D in C; discriminate).
  destruct (Nat.ltb_spec 6 (vs_leaves v)) as [A|A]; cbn [andb].
  - destruct (N.ltb_spec 800 (vs_params v)) as [B|B].
    + destruct (vs_homogeneous v) eqn:E; [left|right; left]; auto 8.
    + right; right. auto.
  - right; right. auto.
Qed.
Lemma options_iff q k : options_of q k <-> In k (accepted q).
Proof. destruct q; cbn; intuition. Qed.
Lemma tensor_options q kw :
  (construct q kw = Err TypeError <-> exists p, In p kw /\ ~ options_of q (fst p)) /\
  (construct q kw = Err ValueError <-> (forall p, In p kw -> options_of q (fst p)) /\ is_set "mode" kw /\ is_set "holomorphic" kw) /\
  (construct q kw = Ok tt <-> (forall p, In p kw -> options_of q (fst p)) /\ ~ (is_set "mode" kw /\ is_set "holomorphic" kw)).
Proof.
  assert (X : forall p : string * val, existsb (fun k => k =? fst p)%string (accepted q) = true <-> options_of q (fst p)).
  { intros p. rewrite options_iff, existsb_exists. split.
    - intros (k & I & E). apply String.eqb_eq in E. congruence.
    - intros I. exists (fst p). split; [exact I|apply String.eqb_refl]. }
  unfold construct. destruct (existsb (fun p => negb (existsb (fun k => k =? fst p)%string (accepted q))) kw) eqn:E.
  - assert (B : exists p, In p kw /\ ~ options_of q (fst p)).
    { apply existsb_exists in E. destruct E as (p & I & H). apply negb_true_iff in H. exists p. split; [exact I|]. intros C. apply X in C. congruence. }
    assert (NB : ~ forall p, In p kw -> options_of q (fst p)) by (intros C; destruct B as (p & I & H); apply H, C, I).
    split; [|split]; split; try discriminate; tauto.
  - assert (A : forall p, In p kw -> options_of q (fst p)).
    { intros p I. apply X. destruct (existsb (fun k => k =? fst p)%string (accepted q)) eqn:E'; [reflexivity|]. exfalso.
      assert (T : existsb (fun p => negb (existsb (fun k => k =? fst p)%string (accepted q))) kw = true)
        by (apply existsb_exists; exists p; rewrite E'; split; [exact I|reflexivity]).
      congruence. }
    assert (NB : ~ exists p, In p kw /\ ~ options_of q (fst p)) by (intros (p & I & H); apply H, A, I).
    unfold is_set. destruct (get "mode" kw) as [m|], (get "holomorphic" kw) as [h|].
    + assert (Y : (m = VNone \/ h = VNone) /\ (match m, h with VNone, _ | _, VNone => Ok tt | _, _ => Err ValueError end = Ok tt) \/
        (m <> VNone /\ h <> VNone) /\ (match m, h with VNone, _ | _, VNone => Ok tt | _, _ => Err ValueError end = Err ValueError)).
      { destruct m, h; ((left; split; [auto|reflexivity]; fail) || (right; split; [split; discriminate|reflexivity])). }
      destruct Y as [[Y ->]|[Y ->]].
      * assert (N : ~ ((exists v, Some m = Some v /\ v <> VNone) /\ (exists v, Some h = Some v /\ v <> VNone))).
        { intros [(a & Ea & Na) (b & Eb & Nb)]. destruct Y; congruence. }
        split; [|split]; split; try discriminate; tauto.
      * assert (P : (exists v, Some m = Some v /\ v <> VNone) /\ (exists v, Some h = Some v /\ v <> VNone)) by (split; eexists; split; try reflexivity; tauto).
        split; [|split]; split; try discriminate; tauto.
    + assert (N : ~ exists v, None = Some v /\ v <> VNone) by (intros (v & H & _); discriminate).
      split; [|split]; split; try discriminate; tauto.
    + assert (N : ~ exists v, None = Some v /\ v <> VNone) by (intros (v & H & _); discriminate).
      split; [|split]; split; try discriminate; tauto.
    + assert (N : ~ exists v, None = Some v /\ v <> VNone) by (intros (v & H & _); discriminate).
      split; [|split]; split; try discriminate; tauto.
Qed.
