From Coq Require Import String List ZArith Bool Lia.
From Verif Require Import Base Driver_Model Driver_Spec LegRun_Model LegRun_Spec.
Import ListNotations.
Open Scope Z_scope.

Section Log.
  Variables D V : Type.
  Variable ser : list (Z * D) -> bool.
  Notation lst := (lst D V).
  Notation entry := (Z * D * V)%type.

  Lemma log_call_main c d v (x x' : lst) : log_call ser c d v x = (None, x') ->
    let l := jl x in let l' := jl x' in
    output l' = output l ++ [(c, d)] /\ write_every l' = write_every l /\ save_every l' = save_every l /\
    write_every l <> 0 /\ save_every l <> 0 /\
    ((f_log (dk x') = Full (output l') /\ nf_write l' = 1)
     \/ (f_log (dk x') = f_log (dk x) /\ nf_write l' = nf_write l + 1 /\ nf_write l mod write_every l <> 0)) /\
    ((f_wf (dk x') = Full v /\ nf_pars l' = 1)
     \/ (f_wf (dk x') = f_wf (dk x) /\ nf_pars l' = nf_pars l + 1 /\ nf_pars l mod save_every l <> 0)) /\
    exists new, seen x' = seen x ++ new /\
      Forall (fun b => (f_log b = f_log (dk x) \/ f_log b = Torn \/ f_log b = Full (output l'))
        /\ (f_wf b = f_wf (dk x) \/ f_wf b = Torn \/ f_wf b = Full v)) new.
  Proof.
    destruct x as [[we se out old nw np] [fl fw] sn]. unfold log_call. cbn [jl write_every save_every output old_step nf_write nf_pars dk seen].
    destruct (Z.eqb_spec we 0) as [|Hw]; [discriminate|].
    destruct ((nw mod we =? 0) || (c =? old - 1)) eqn:E1.
    - unfold flush_log. cbn [jl write_every save_every output old_step nf_write nf_pars dk seen write f_wf f_log].
      destruct (ser (out ++ [(c, d)])); [|discriminate]. cbn [and_then jl write_every save_every output old_step nf_write nf_pars dk seen write].
      destruct (Z.eqb_spec se 0) as [|Hs]; [discriminate|].
      destruct ((np mod se =? 0) || (c =? old - 1)) eqn:E2.
      + unfold flush_params. cbn [and_then jl write_every save_every output old_step nf_write nf_pars dk seen write f_wf f_log].
        intros E. injection E as <-. cbn [jl write_every save_every output old_step nf_write nf_pars dk seen f_wf f_log].
        repeat split; auto. rewrite <- !app_assoc. eexists. split; [reflexivity|]. cbn [app].
        repeat (apply Forall_cons; [cbn [f_log f_wf]; auto|]). apply Forall_nil.
      + cbn [and_then jl write_every save_every output old_step nf_write nf_pars dk seen write f_wf f_log].
        intros E. injection E as <-. cbn [jl write_every save_every output old_step nf_write nf_pars dk seen f_wf f_log].
        apply orb_false_iff in E2. destruct E2 as [E2 _]. apply Z.eqb_neq in E2.
        repeat split; auto. rewrite <- !app_assoc. eexists. split; [reflexivity|]. cbn [app].
        repeat (apply Forall_cons; [cbn [f_log f_wf]; auto|]). apply Forall_nil.
    - apply orb_false_iff in E1. destruct E1 as [E1 _]. apply Z.eqb_neq in E1.
      cbn [and_then jl write_every save_every output old_step nf_write nf_pars dk seen].
      destruct (Z.eqb_spec se 0) as [|Hs]; [discriminate|].
      destruct ((np mod se =? 0) || (c =? old - 1)) eqn:E2.
      + unfold flush_params. cbn [and_then jl write_every save_every output old_step nf_write nf_pars dk seen write f_wf f_log].
        intros E. injection E as <-. cbn [jl write_every save_every output old_step nf_write nf_pars dk seen f_wf f_log].
        repeat split; auto. rewrite <- !app_assoc. eexists. split; [reflexivity|]. cbn [app].
        repeat (apply Forall_cons; [cbn [f_log f_wf]; auto|]). apply Forall_nil.
      + cbn [and_then jl write_every save_every output old_step nf_write nf_pars dk seen].
        intros E. injection E as <-. cbn [jl write_every save_every output old_step nf_write nf_pars dk seen f_wf f_log].
        apply orb_false_iff in E2. destruct E2 as [E2 _]. apply Z.eqb_neq in E2.
        repeat split; auto. exists []. split; [symmetry; apply app_nil_r|constructor].
  Qed.

  (** what is on the disk lags behind by less than [every] entries *)
  Definition lag {X} (every nf : Z) (before : file X) (f : file X) (at_ : nat -> file X) (n : nat) : Prop :=
    match n with
    | O => f = before /\ nf = 0
    | _ => exists r, (r < n)%nat /\ Z.of_nat r < every /\ nf = Z.of_nat r + 1 /\ f = at_ (n - r)%nat
    end.
  Definition upto (start : list (Z * D)) (es : list entry) (k : nat) : file (list (Z * D)) := Full (start ++ map item_of (firstn k es)).
  Definition wf_upto (vs : list V) (k : nat) : file V := match nth_error vs (k - 1) with Some v => Full v | None => Torn end.

  Section Inv.
    Variable x0 : lst.
    Hypothesis H0 : nf_write (jl x0) = 0 /\ nf_pars (jl x0) = 0.
    Hypothesis He : 0 < write_every (jl x0) /\ 0 < save_every (jl x0).
    Definition inv (pre : list entry) (x : lst) : Prop :=
      output (jl x) = output (jl x0) ++ map item_of pre /\ write_every (jl x) = write_every (jl x0) /\ save_every (jl x) = save_every (jl x0) /\
      lag (write_every (jl x0)) (nf_write (jl x)) (f_log (dk x0)) (f_log (dk x)) (upto (output (jl x0)) pre) (length pre) /\
      lag (save_every (jl x0)) (nf_pars (jl x)) (f_wf (dk x0)) (f_wf (dk x)) (wf_upto (map saved pre)) (length pre) /\
      exists new, seen x = seen x0 ++ new /\
        Forall (fun b => found_log (f_log (dk x0)) (output (jl x0)) pre (f_log b) /\ found_wf (f_wf (dk x0)) (map saved pre) (f_wf b)) new.
    Lemma inv_start : inv [] x0.
    Proof.
      repeat split; try (cbn; tauto); try reflexivity.
      - cbn. rewrite app_nil_r. reflexivity.
      - exists []. split; [symmetry; apply app_nil_r|constructor].
    Qed.
    Lemma lag_found (pre : list entry) (x : lst) : @lag (list (Z * D)) (write_every (jl x0)) (nf_write (jl x)) (f_log (dk x0)) (f_log (dk (x : lst))) (upto (output (jl x0)) pre) (length pre) ->
      found_log (f_log (dk x0)) (output (jl x0)) pre (f_log (dk x)).
    Proof.
      unfold lag. destruct pre as [|e pre]; [intros [H _]; left; exact H|]. cbn [length]. intros (r & Hr & _ & _ & E). right. right.
      exists (S (length pre) - r)%nat. split; [cbn [length]; lia|exact E].
    Qed.
    Lemma wf_lag_found (pre : list entry) (x : lst) : @lag V (save_every (jl x0)) (nf_pars (jl x)) (f_wf (dk x0)) (f_wf (dk (x : lst))) (wf_upto (map saved pre)) (length pre) ->
      found_wf (f_wf (dk x0)) (map saved pre) (f_wf (dk x)).
    Proof.
      unfold lag. destruct pre as [|e pre]; [intros [H _]; left; exact H|]. cbn [length]. intros (r & Hr & _ & _ & E). right. right.
      unfold wf_upto in E. destruct (nth_error (map saved (e :: pre)) (S (length pre) - r - 1)) as [v|] eqn:N.
      - exists v. split; [apply (nth_error_In _ _ N)|exact E].
      - apply nth_error_None in N. rewrite map_length in N. cbn [length] in N. lia.
    Qed.
    Lemma found_log_more pre e f : found_log (f_log (dk x0)) (output (jl x0)) pre f -> found_log (f_log (dk x0)) (output (jl x0)) (pre ++ [e : entry]) f.
    Proof.
      intros [H|[H|(k & Hk & H)]]; [left; exact H|right; left; exact H|]. right. right. exists k. rewrite app_length. split; [cbn; lia|].
      rewrite firstn_app. replace (k - length pre)%nat with 0%nat by lia. cbn [firstn]. rewrite app_nil_r. exact H.
    Qed.
    Lemma found_wf_more vs v f : found_wf (f_wf (dk x0)) vs f -> found_wf (f_wf (dk x0)) (vs ++ [v]) f.
    Proof.
      intros [H|[H|(u & Hu & H)]]; [left; exact H|right; left; exact H|]. right. right. exists u. split; [apply in_or_app; left; exact Hu|exact H].
    Qed.
    Lemma mod_zero_lag n every (Hev : 0 < every) : (n mod every <> 0 -> 0 <= n <= every -> n < every)%Z.
    Proof. intros H B. destruct (Z.eq_dec n every) as [->|]; [rewrite Z.mod_same in H; lia|lia]. Qed.
    Lemma inv_call pre x c d v x' : inv pre x -> log_call ser c d v x = (None, x') -> inv (pre ++ [(c, d, v)]) x'.
    Proof.
      intros (O & EW & ES & LW & LP & new & Sn & FN) E.
      apply log_call_main in E. cbv zeta in E. destruct E as (O' & EW' & ES' & NW & NP & A & B & new' & Sn' & FN').
      rewrite EW in *. rewrite ES in *. rewrite O in O'.
      assert (OF : output (jl x') = output (jl x0) ++ map item_of (pre ++ [(c, d, v)])) by (rewrite O', map_app, app_assoc; reflexivity).
      assert (FF : Full (output (jl x')) = upto (output (jl x0)) (pre ++ [(c, d, v)]) (length (pre ++ [(c, d, v)]))).
      { unfold upto. rewrite firstn_all, OF. reflexivity. }
      split; [exact OF|]. split; [exact EW'|]. split; [exact ES'|]. split; [|split].
      - rewrite app_length. cbn [length]. replace (length pre + 1)%nat with (S (length pre)) by lia. cbn [lag].
        destruct A as [[A1 A2]|(A1 & A2 & A3)].
        + exists 0%nat. split; [lia|]. split; [lia|]. split; [rewrite A2; reflexivity|]. rewrite A1, FF, app_length. cbn [length]. f_equal. lia.
        + unfold lag in LW. destruct pre as [|e pre].
          * cbn [length] in LW. destruct LW as [_ Z0]. rewrite Z0 in A3. rewrite Z.mod_0_l in A3; [contradiction|lia].
          * cbn [length] in LW |- *. destruct LW as (r & Hr & Hr2 & Hn & Hf). exists (S r). split; [lia|].
            pose proof (mod_zero_lag (nf_write (jl x)) _ (proj1 He) A3 ltac:(lia)). split; [lia|]. split; [rewrite A2; lia|].
            rewrite A1, Hf. unfold upto. rewrite firstn_app. cbn [length].
            replace (S (S (length pre)) - S r - S (length pre))%nat with 0%nat by lia.
            replace (S (S (length pre)) - S r)%nat with (S (length pre) - r)%nat by lia. cbn [firstn]. rewrite app_nil_r. reflexivity.
      - rewrite app_length. cbn [length]. replace (length pre + 1)%nat with (S (length pre)) by lia. cbn [lag].
        destruct B as [[A1 A2]|(A1 & A2 & A3)].
        + exists 0%nat. split; [lia|]. split; [lia|]. split; [rewrite A2; reflexivity|]. rewrite A1. unfold wf_upto.
          rewrite map_app, nth_error_app2 by (rewrite map_length; lia). rewrite map_length.
          replace (S (length pre) - 0 - 1 - length pre)%nat with 0%nat by lia. reflexivity.
        + unfold lag in LP. destruct pre as [|e pre].
          * cbn [length] in LP. destruct LP as [_ Z0]. rewrite Z0 in A3. rewrite Z.mod_0_l in A3; [contradiction|lia].
          * cbn [length] in LP |- *. destruct LP as (r & Hr & Hr2 & Hn & Hf). exists (S r). split; [lia|].
            pose proof (mod_zero_lag (nf_pars (jl x)) _ (proj2 He) A3 ltac:(lia)). split; [lia|]. split; [rewrite A2; lia|].
            rewrite A1, Hf. unfold wf_upto. rewrite map_app, nth_error_app1 by (rewrite map_length; cbn [length]; lia).
            replace (S (S (length pre)) - S r)%nat with (S (length pre) - r)%nat by lia. reflexivity.
      - exists (new ++ new'). split; [rewrite Sn', Sn, app_assoc; reflexivity|]. apply Forall_app. split.
        + eapply Forall_impl; [|exact FN]. intros b [B1 B2]. rewrite map_app. split; [apply found_log_more, B1|apply found_wf_more, B2].
        + eapply Forall_impl; [|exact FN']. intros b [B1 B2]. rewrite map_app. split.
          * destruct B1 as [B1|[B1|B1]].
            -- rewrite B1. apply found_log_more, lag_found, LW.
            -- right. left. exact B1.
            -- right. right. exists (length (pre ++ [(c, d, v)])). split; [rewrite app_length; cbn; lia|]. rewrite B1. exact FF.
          * destruct B2 as [B2|[B2|B2]].
            -- rewrite B2. apply found_wf_more, wf_lag_found, LP.
            -- right. left. exact B2.
            -- right. right. exists v. split; [apply in_or_app; right; left; reflexivity|exact B2].
    Qed.
    Lemma inv_calls es pre x x' : inv pre x -> calls ser x es x' -> inv (pre ++ es) x'.
    Proof.
      intros I C. revert pre I. induction C as [x|x c d v es x1 x2 E C IH]; intros pre I; [rewrite app_nil_r; exact I|].
      replace (pre ++ (c, d, v) :: es) with ((pre ++ [(c, d, v)]) ++ es) by (rewrite <- app_assoc; reflexivity).
      apply IH, (inv_call pre x c d v x1 I E).
    Qed.
    (** the final flush *)
    Lemma inv_flush es x v x' : inv es x -> log_flush ser v x = (None, x') ->
      f_log (dk x') = Full (output (jl x0) ++ map item_of es) /\ f_wf (dk x') = Full v /\ output (jl x') = output (jl x0) ++ map item_of es /\
      exists new, seen x' = seen x0 ++ new /\
        Forall (fun b => (found_log (f_log (dk x0)) (output (jl x0)) es (f_log b) \/ f_log b = Full (output (jl x0) ++ map item_of es))
          /\ found_wf (f_wf (dk x0)) (map saved es ++ [v]) (f_wf b)) new.
    Proof.
      intros (O & EW & ES & LW & LP & new & Sn & FN). unfold log_flush, flush_log. destruct (ser (output (jl x))); [|discriminate].
      unfold flush_params. cbn [and_then jl write dk f_log f_wf seen output write_every save_every old_step nf_write nf_pars].
      intros E. injection E as <-. cbn [jl dk f_log f_wf seen output]. rewrite O. repeat split.
      exists (new ++ [Disk Torn (f_wf (dk x)); Disk (Full (output (jl x0) ++ map item_of es)) (f_wf (dk x));
        Disk (Full (output (jl x0) ++ map item_of es)) Torn; Disk (Full (output (jl x0) ++ map item_of es)) (Full v)]).
      split; [unfold write; cbn [seen]; rewrite Sn, <- !app_assoc; reflexivity|]. apply Forall_app. split.
      - eapply Forall_impl; [|exact FN]. intros b [B1 B2]. split; [left; exact B1|apply found_wf_more, B2].
      - assert (FW : found_wf (f_wf (dk x0)) (map saved es ++ [v]) (f_wf (dk x))) by (apply found_wf_more, wf_lag_found, LP).
        repeat (apply Forall_cons; [cbn [f_log f_wf]; split|]); try apply Forall_nil.
        + left. right. left. reflexivity.
        + exact FW.
        + right. reflexivity.
        + exact FW.
        + right. reflexivity.
        + right. left. reflexivity.
        + right. reflexivity.
        + right. right. exists v. split; [apply in_or_app; right; left; reflexivity|reflexivity].
    Qed.
  End Inv.
  Lemma calls_app (x x1 x2 : lst) es1 es2 : calls ser x es1 x1 -> calls ser x1 es2 x2 -> calls ser x (es1 ++ es2) x2.
  Proof. induction 1 as [|x c d v es x1' x2' E C IH]; intros C2; [exact C2|]. cbn [app]. econstructor; [exact E|]. apply IH, C2. Qed.
End Log.

(** ** the driver *)
Section Driver.
  Variables W G D V : Type.
  Variable fb : W -> G * W.
  Variable up : G -> W -> W.
  Variable est : W -> D * W.
  Variable pars : W -> V.
  Variable cbs : list (Z -> D -> W -> res (bool * W)).
  Variable ser : list (Z * D) -> bool.
  Notation st := (st W D V).
  Notation inner' := (inner W G D V fb up est pars cbs ser).
  Notation outer' := (outer W G D V fb up est pars cbs ser).
  Notation looked' := (looked fb est pars cbs).
  Notation blocks' := (blocks fb up est pars cbs).

  Lemma callbacks_main l c d stop (s s' : st) o : call_callbacks W D V l c d stop s = (o, s') ->
    (exists e, o = Raised e) \/
    exists oks, answered c d l (world s) oks (world s') /\ s' = set_world W D V s (world s') /\
      o = if stop then Stop else if forallb (fun b => b) oks then Continue else Stop.
  Proof.
    revert stop s. induction l as [|cb l IH]; intros stop s E; cbn [call_callbacks] in E.
    - injection E as <- <-. right. exists []. split; [constructor|]. split; [destruct s; reflexivity|]. destruct stop; reflexivity.
    - destruct (cb c d (world s)) as [[ok w]|e] eqn:Ec; [|injection E as <- _; left; exists e; reflexivity].
      apply IH in E. destruct E as [E|(oks & A & B & C)]; [left; exact E|]. right. exists (ok :: oks).
      split; [econstructor; [exact Ec|exact A]|]. split; [rewrite B; reflexivity|]. rewrite C. destruct ok, stop; reflexivity.
  Qed.
  Lemma inner_rest k i (s s' : st) o b : inner' b (S i) k s = (o, s') ->
    o = Continue /\ steps fb up k (world s) (world s') /\ count s' = count s + Z.of_nat k /\ log s' = log s /\
    n_updates s' = (n_updates s + k)%nat.
  Proof.
    revert i s. induction k as [|k IH]; intros i s E; cbn [inner] in E.
    - injection E as <- <-. repeat split; [constructor|lia|lia].
    - destruct (fb (world s)) as [g w] eqn:Ef. cbn [Nat.eqb] in E. apply IH in E. destruct E as (-> & B & C & L & U).
      cbn [update_parameters set_world count world log n_updates] in *. split; [reflexivity|]. split; [econstructor; [exact Ef|exact B]|].
      split; [lia|]. split; [exact L|lia].
  Qed.
  Definition log_calls (a : option (lst D V)) (es : list (Z * D * V)) (b : option (lst D V)) : Prop :=
    match a, b with Some x, Some x' => calls ser x es x' | None, None => True | _, _ => False end.
  Lemma forallb_true oks : forallb (fun b => b) oks = true -> Forall (eq true) oks.
  Proof. intros H. rewrite forallb_forall in H. apply Forall_forall. intros b Hb. symmetry. apply H, Hb. Qed.
  Lemma forallb_false oks : forallb (fun b => b) oks = false -> In false oks.
  Proof.
    induction oks as [|b l IH]; [discriminate|]. cbn [forallb]. destruct b; cbn [andb]; [intros H; right; apply IH, H|left; reflexivity].
  Qed.
  Lemma inner_main k (s s' : st) o : (0 < k)%nat -> inner' true 0 k s = (o, s') -> (forall e, o <> Raised e) ->
    exists g e oks w3, looked' (count s) (world s) g e oks w3 /\ log_calls (log s) [e] (log s') /\
      ((o = Continue /\ Forall (eq true) oks /\ steps fb up (k - 1) (up g w3) (world s') /\ count s' = count s + Z.of_nat k /\
        n_updates s' = (n_updates s + k)%nat) \/
       (o = Stop /\ In false oks /\ world s' = w3 /\ count s' = count s /\ n_updates s' = n_updates s)).
  Proof.
    intros Hk E NR. destruct k as [|k]; [lia|]. cbn [inner] in E. destruct (fb (world s)) as [g w] eqn:Ef. cbn [Nat.eqb] in E.
    unfold body in E. cbn [set_world world] in E. destruct (est w) as [d w2] eqn:Ee. cbn [negb] in E.
    unfold call_logger in E. cbn [set_world log count world n_updates] in E.
    assert (M : exists x', log_calls (log s) [(count s, d, pars w2)] x' /\
      (let (o, s') := call_callbacks W D V cbs (count s) d false (St (count s) w2 x' (n_updates s)) in
       match o with Continue => inner' true 1 k (update_parameters W G D V up g s') | _ => (o, s') end) = (o, s')).
    { destruct (log s) as [x|] eqn:El.
      - destruct (log_call ser (count s) d (pars w2) x) as [[ex|] x'] eqn:Ec.
        + injection E as <- _. destruct (NR ex eq_refl).
        + exists (Some x'). split; [econstructor; [exact Ec|constructor]|]. exact E.
      - exists None. split; [exact I|]. unfold set_world in E. cbn [log count n_updates world] in E. rewrite El in E. exact E. }
    clear E. destruct M as (x' & C & E).
    destruct (call_callbacks W D V cbs (count s) d false (St (count s) w2 x' (n_updates s))) as [o1 s1] eqn:Ecb.
    apply callbacks_main in Ecb. destruct Ecb as [[ex ->]|(oks & A & B & O)].
    { injection E as <- _. destruct (NR ex eq_refl). }
    cbn [world] in A. exists g, (count s, d, pars w2), oks, (world s1).
    assert (Q : log s1 = x' /\ count s1 = count s /\ n_updates s1 = n_updates s) by (rewrite B; repeat split; reflexivity).
    destruct Q as (Q1 & Q2 & Q3).
    split; [econstructor; [exact Ef|exact Ee|reflexivity|exact A]|].
    destruct (forallb (fun b => b) oks) eqn:Fo; rewrite O in E.
    - apply inner_rest in E. destruct E as (-> & S1 & C1 & L1 & U1). cbn [update_parameters world count log n_updates] in *.
      split; [rewrite L1, Q1; exact C|]. left. split; [reflexivity|]. split; [apply forallb_true, Fo|].
      replace (S k - 1)%nat with k by lia. split; [exact S1|]. lia.
    - injection E as <- <-. split; [rewrite Q1; exact C|]. right. split; [reflexivity|]. split; [apply forallb_false, Fo|]. auto.
  Qed.
  Lemma log_calls_app a b c es1 es2 : log_calls a es1 b -> log_calls b es2 c -> log_calls a (es1 ++ es2) c.
  Proof. destruct a, b, c; cbn [log_calls]; try tauto. apply calls_app. Qed.
  Lemma outer_main m (step : Z) (s s' : st) o : 0 < step -> outer' true m step s = (o, s') -> (forall e, o <> Raised e) ->
    exists es, log_calls (log s) es (log s') /\
      ((o = Continue /\ length es = m /\ blocks' (Z.to_nat step) (count s) (world s) es (count s') (world s') /\
        n_updates s' = (n_updates s + m * Z.to_nat step)%nat) \/
       (o = Stop /\ exists es0 e w g oks, es = es0 ++ [e] /\ (length es <= m)%nat /\
          blocks' (Z.to_nat step) (count s) (world s) es0 (count s') w /\ looked' (count s') w g e oks (world s') /\ In false oks /\
          n_updates s' = (n_updates s + length es0 * Z.to_nat step)%nat)).
  Proof.
    intros Hs. revert s. induction m as [|m IH]; intros s E NR; cbn [outer] in E.
    - injection E as <- <-. exists []. split; [destruct (log s); cbn; [constructor|exact I]|]. left. repeat split; [constructor|lia].
    - destruct (inner' true 0 (Z.to_nat step) s) as [o1 s1] eqn:Ei.
      destruct o1 as [| |ex].
      + apply inner_main in Ei; [|lia|discriminate].
        destruct Ei as (g & e & oks & w3 & Lk & LC & [(_ & F & S1 & C1 & U1)|(X & _)]); [|discriminate].
        apply IH in E; [|exact NR]. destruct E as (es & LC2 & Cs). exists (e :: es).
        split; [apply (log_calls_app _ _ _ [e] es LC LC2)|].
        rewrite Z2Nat.id in C1 by lia.
        destruct Cs as [(-> & Len & B & U)|(-> & es0 & e' & w & g' & oks' & -> & Len & B & Lk' & I' & U)].
        * left. split; [reflexivity|]. split; [cbn; lia|]. split; [|lia].
          apply (blocks_more _ _ _ _ _ _ (count s) (world s) g e oks w3 (world s1)); [exact Lk|exact F|exact S1|]. rewrite Z2Nat.id by lia. rewrite <- C1. exact B.
        * right. split; [reflexivity|]. exists (e :: es0), e', w, g', oks'. split; [reflexivity|]. split; [cbn [length] in *; lia|].
          split; [|split; [exact Lk'|split; [exact I'|cbn [length]; lia]]].
          apply (blocks_more _ _ _ _ _ _ (count s) (world s) g e oks w3 (world s1)); [exact Lk|exact F|exact S1|]. rewrite Z2Nat.id by lia. rewrite <- C1. exact B.
      + injection E as <- <-. apply inner_main in Ei; [|lia|discriminate].
        destruct Ei as (g & e & oks & w3 & Lk & LC & [(X & _)|(_ & F & <- & C1 & U1)]); [discriminate|].
        exists [e]. split; [exact LC|]. right. split; [reflexivity|]. exists [], e, (world s), g, oks.
        split; [reflexivity|]. split; [cbn; lia|]. rewrite C1. split; [constructor|]. split; [exact Lk|]. split; [exact F|cbn; lia].
      + injection E as <- _. destruct (NR ex eq_refl).
  Qed.
End Driver.
