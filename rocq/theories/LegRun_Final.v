From Coq Require Import String List ZArith Bool Lia.
From Verif Require Import Base Driver_Model Driver_Spec Driver_Proofs LegRun_Model LegRun_Spec LegRun_Proofs.
Import ListNotations.
Open Scope Z_scope.

Lemma open_write {D V} se we (d : disk D V) : open_log "w" se we d = Ok (JLog we se [] 0 0 0).
Proof. unfold open_log. cbn. rewrite !andb_false_r. reflexivity. Qed.

Section Run.
  Variables W G D V : Type.
  Variable fb : W -> G * W.
  Variable up : G -> W -> W.
  Variable est : W -> D * W.
  Variable pars : W -> V.
  Variable cbs : list (Z -> D -> W -> res (bool * W)).
  Variable ser : list (Z * D) -> bool.
  Notation run' := (run fb up est pars cbs ser).

  Lemma run_is rank out obs se we n step c w d : run' rank out obs se we n step c w d =
    match loop W G D V fb up est pars cbs ser obs n step (St c w (option_map (fun l => Lst l d [d]) (used rank out se we)) 0) with
    | (Raised e, s) => (Some e, s)
    | (_, s) => flush_logger W D V pars ser s
    end.
  Proof. unfold run, used. destruct rank as [|rank]; [|reflexivity]. destruct out as [| |l]; [reflexivity| |reflexivity]. cbn [Nat.eqb]. rewrite open_write. reflexivity. Qed.

  Lemma run_main rank out se we n step c w d s' : 0 < step ->
    (forall l, used rank out se we = Some l -> fresh l) ->
    run' rank out true se we n step c w d = (None, s') ->
    exists es,
      ((covers n step (length es) /\ blocks fb up est pars cbs (Z.to_nat step) c w es (count s') (world s') /\
        n_updates s' = (length es * Z.to_nat step)%nat)
       \/
       (exists es0 e w0 g oks k, es = es0 ++ [e] /\ covers n step k /\ (length es <= k)%nat /\
          blocks fb up est pars cbs (Z.to_nat step) c w es0 (count s') w0 /\ looked fb est pars cbs (count s') w0 g e oks (world s') /\
          In false oks /\ n_updates s' = (length es0 * Z.to_nat step)%nat)) /\
      match used rank out se we with
      | None => log s' = None
      | Some l => exists x, log s' = Some x /\
          f_log (dk x) = Full (output l ++ map item_of es) /\ f_wf (dk x) = Full (pars (world s')) /\
          output (jl x) = output l ++ map item_of es /\
          Forall (fun b => (found_log (f_log d) (output l) es (f_log b) \/ f_log b = f_log (dk x))
            /\ found_wf (f_wf d) (map saved es ++ [pars (world s')]) (f_wf b)) (seen x)
      end.
  Proof.
    intros Hs Fr. rewrite run_is. unfold loop. destruct (Z.eqb_spec step 0); [lia|].
    set (s0 := St c w (option_map (fun l => Lst l d [d]) (used rank out se we)) 0).
    destruct (outer W G D V fb up est pars cbs ser true (range_len n step) step s0) as [o s1] eqn:Eo.
    intros E. assert (NR : forall e, o <> Raised e) by (intros e ->; discriminate).
    apply (outer_main W G D V fb up est pars cbs ser _ _ _ _ _ Hs) in Eo; [|exact NR].
    assert (E' : flush_logger W D V pars ser s1 = (None, s')) by (destruct o; [exact E|exact E|destruct (NR e eq_refl)]). clear E.
    assert (Q : world s' = world s1 /\ count s' = count s1 /\ n_updates s' = n_updates s1).
    { unfold flush_logger in E'. destruct (log s1) as [x|]; [|injection E' as <-; auto].
      destruct (log_flush ser (pars (world s1)) x). injection E' as _ <-. auto. }
    destruct Q as (Q1 & Q2 & Q3). rewrite Q1, Q2, Q3.
    destruct Eo as (es & LC & Cs). exists es. split.
    - pose proof (range_len_covers n step Hs) as Cov.
      destruct Cs as [(_ & Len & B & U)|(_ & es0 & e & w0 & g & oks & Ees & Len & B & Lk & If & U)].
      + left. rewrite Len. split; [exact Cov|]. split; [exact B|]. cbn [n_updates s0] in U. lia.
      + right. exists es0, e, w0, g, oks, (range_len n step). repeat split; try assumption; try apply Cov.
    - subst s0. cbn [log] in LC. destruct (used rank out se we) as [l|] eqn:Eu; cbn [option_map] in LC.
      + unfold log_calls in LC. destruct (log s1) as [x1|] eqn:El; [|contradiction].
        destruct (Fr l eq_refl) as (F1 & F2 & F3 & F4).
        pose proof (inv_calls D V ser (Lst l d [d]) (conj F3 F4) es [] (Lst l d [d]) x1 (inv_start D V (Lst l d [d]) (conj F1 F2) (conj F3 F4)) LC) as Iv.
        cbn [app] in Iv. unfold flush_logger in E'. rewrite El in E'.
        destruct (log_flush ser (pars (world s1)) x1) as [ex x2] eqn:Ef. injection E' as -> <-. exists x2. split; [reflexivity|].
        destruct (inv_flush D V ser (Lst l d [d]) es x1 _ x2 Iv Ef) as (A & B & C & new & Sn & F). cbn [jl dk seen world] in *.
        split; [exact A|]. split; [exact B|]. split; [exact C|]. rewrite Sn, A. cbn [app]. apply Forall_cons; [|exact F].
        split; [left; left; reflexivity|left; reflexivity].
      + unfold log_calls in LC. unfold flush_logger in E'. destruct (log s1) as [x1|] eqn:El; [contradiction|]. injection E' as <-. exact El.
  Qed.
End Run.

(** ** the logger on its own *)
Lemma lag_main {D V} ser (l : jlog D) (d : disk D V) es x : fresh l -> es <> [] -> calls ser (Lst l d [d]) es x ->
  (exists r, (r < length es)%nat /\ Z.of_nat r < write_every l /\ f_log (dk x) = Full (output l ++ map item_of (firstn (length es - r) es))) /\
  (exists r e, Z.of_nat r < save_every l /\ nth_error (rev es) r = Some e /\ f_wf (dk x) = Full (saved e)) /\
  Forall (fun b => found_log (f_log d) (output l) es (f_log b) /\ found_wf (f_wf d) (map saved es) (f_wf b)) (seen x).
Proof.
  intros (F1 & F2 & F3 & F4) NE C.
  pose proof (inv_calls D V ser (Lst l d [d]) (conj F3 F4) es [] (Lst l d [d]) x (inv_start D V (Lst l d [d]) (conj F1 F2) (conj F3 F4)) C) as (O & _ & _ & LW & LP & new & Sn & F).
  cbn [app] in *. unfold lag in LW, LP. cbn [jl dk seen] in *.
  destruct es as [|e0 es]; [contradiction|]. set (E := e0 :: es) in *.
  assert (LE : length E = S (length es)) by reflexivity. rewrite LE in LW, LP.
  destruct LW as (r & R1 & R2 & _ & R3). destruct LP as (q & Q1 & Q2 & _ & Q3). split; [|split].
  - exists r. rewrite LE. split; [exact R1|]. split; [exact R2|exact R3].
  - exists q. unfold wf_upto in Q3.
    destruct (nth_error E (S (length es) - q - 1)) as [e|] eqn:N; [|apply nth_error_None in N; lia].
    exists e. split; [exact Q2|]. split.
    + apply nth_error_nth with (d := e0) in N. rewrite (nth_error_nth' (rev E) e0) by (rewrite rev_length; lia).
      rewrite rev_nth by lia. f_equal. rewrite <- N. f_equal. lia.
    + rewrite Q3, nth_error_map, N. reflexivity.
  - rewrite Sn. cbn [app]. apply Forall_cons; [split; left; reflexivity|exact F].
Qed.

Lemma modes_main {D V} mode se we (d : disk D V) :
  (In mode ["w"; "write"]%string -> open_log mode se we d = Ok (JLog we se [] 0 0 0)) /\
  (In mode ["x"; "fail"]%string -> open_log mode se we d = if present (f_log d) || present (f_wf d) then Err ValueError else Ok (JLog we se [] 0 0 0)) /\
  (In mode ["a"; "append"]%string -> open_log mode se we d =
     match f_log d, f_wf d with
     | Full items, _ => Ok (JLog we se items 0 0 0)
     | Absent, Absent => Ok (JLog we se [] 0 0 0)
     | _, _ => Err ValueError
     end) /\
  (~ In mode ["w"; "write"; "x"; "fail"; "a"; "append"]%string -> open_log mode se we d = Err ValueError).
Proof.
  repeat split.
  - intros [<-|[<-|[]]]; unfold open_log; cbn [String.eqb Ascii.eqb Bool.eqb negb orb andb]; rewrite !andb_false_r; reflexivity.
  - intros [<-|[<-|[]]]; unfold open_log; cbn [String.eqb Ascii.eqb Bool.eqb negb orb andb]; rewrite andb_false_r, andb_true_r; reflexivity.
  - intros [<-|[<-|[]]]; unfold open_log; cbn [String.eqb Ascii.eqb Bool.eqb negb orb andb]; rewrite ?andb_false_r, andb_true_r; destruct (f_log d), (f_wf d); reflexivity.
  - intros NI. unfold open_log.
    assert (N : forall s, In s ["w"; "write"; "x"; "fail"; "a"; "append"]%string -> String.eqb mode s = false).
    { intros s Hs. apply String.eqb_neq. intros ->. contradiction. }
    rewrite (N "w"%string), (N "a"%string), (N "x"%string) by (cbn; tauto).
    rewrite (N "write"%string), (N "append"%string), (N "fail"%string) by (cbn; tauto). reflexivity.
Qed.

(** ** a run that cannot fail *)
Section Total.
  Variables W G D V : Type.
  Variable fb : W -> G * W.
  Variable up : G -> W -> W.
  Variable est : W -> D * W.
  Variable pars : W -> V.
  Variable cbs : list (Z -> D -> W -> res (bool * W)).
  Variable ser : list (Z * D) -> bool.
  Hypothesis Hcb : Forall (fun cb => forall c d w, exists r, cb c d w = Ok r) cbs.
  Hypothesis Hser : forall its, ser its = true.
  Definition okay (s : st W D V) : Prop := match log s with None => True | Some x => write_every (jl x) <> 0 /\ save_every (jl x) <> 0 end.
  Definition fine (r : outcome * st W D V) : Prop := (forall e, fst r <> Raised e) /\ okay (snd r).

  Lemma callbacks_fine c d stop s : okay s -> fine (call_callbacks W D V cbs c d stop s).
  Proof using Hcb.
    revert stop s. induction Hcb as [|cb l E F IH]; intros stop s Ok_; cbn [call_callbacks].
    - split; [destruct stop; discriminate|exact Ok_].
    - destruct (E c d (world s)) as [[ok w] ->]. apply (IH F). exact Ok_.
  Qed.
  Lemma log_call_fine c d v (x : lst D V) : write_every (jl x) <> 0 -> save_every (jl x) <> 0 ->
    exists x', log_call ser c d v x = (None, x') /\ write_every (jl x') <> 0 /\ save_every (jl x') <> 0.
  Proof using Hser.
    intros A B. unfold log_call, flush_log, flush_params. cbn [jl dk seen write_every save_every output old_step nf_write nf_pars write].
    destruct (Z.eqb_spec (write_every (jl x)) 0); [contradiction|].
    destruct (_ || _); rewrite ?Hser; cbn [and_then jl dk seen write_every save_every output old_step nf_write nf_pars write];
      (destruct (Z.eqb_spec (save_every (jl x)) 0); [contradiction|]);
      destruct (_ || _); cbn [and_then jl dk seen write_every save_every output old_step nf_write nf_pars write];
      eexists; (split; [reflexivity|]); cbn [jl write_every save_every]; auto.
  Qed.
  Lemma body_fine c s : okay s -> fine (body W D V est pars cbs ser true c s).
  Proof using Hcb Hser.
    intros Ok_. unfold body. destruct (est (world s)) as [d w]. cbn [negb]. unfold call_logger, set_world. cbn [log count world n_updates].
    unfold okay in Ok_. destruct (log s) as [x|] eqn:El.
    - destruct Ok_ as [A B]. destruct (log_call_fine (count s) d (pars w) x A B) as (x' & -> & A' & B').
      apply callbacks_fine. exact (conj A' B').
    - apply callbacks_fine. exact I.
  Qed.
  Lemma inner_fine i m s : okay s -> fine (inner W G D V fb up est pars cbs ser true i m s).
  Proof using Hcb Hser.
    revert i s. induction m as [|m IH]; intros i s Ok_; cbn [inner]; [split; [discriminate|exact Ok_]|].
    destruct (fb (world s)) as [g w].
    assert (F : fine (if (i =? 0)%nat then body W D V est pars cbs ser true (count (set_world W D V s w)) (set_world W D V s w) else (Continue, set_world W D V s w))).
    { destruct (i =? 0)%nat; [apply body_fine; exact Ok_|split; [discriminate|exact Ok_]]. }
    destruct (if (i =? 0)%nat then _ else _) as [o s1]. destruct F as [F1 F2]. cbn [fst snd] in *.
    destruct o as [| |e]; [apply IH; exact F2|split; [discriminate|exact F2]|destruct (F1 e eq_refl)].
  Qed.
  Lemma outer_fine m step s : okay s -> fine (outer W G D V fb up est pars cbs ser true m step s).
  Proof using Hcb Hser.
    revert s. induction m as [|m IH]; intros s Ok_; cbn [outer]; [split; [discriminate|exact Ok_]|].
    pose proof (inner_fine 0 (Z.to_nat step) s Ok_) as F. destruct (inner W G D V fb up est pars cbs ser true 0 (Z.to_nat step) s) as [o s1].
    destruct F as [F1 F2]. cbn [fst snd] in *. destruct o as [| |e]; [apply IH; exact F2|split; [discriminate|exact F2]|destruct (F1 e eq_refl)].
  Qed.
  Lemma run_fine rank out se we n step c w d : step <> 0 ->
    (forall l, used rank out se we = Some l -> write_every l <> 0 /\ save_every l <> 0) ->
    fst (run fb up est pars cbs ser rank out true se we n step c w d) = None.
  Proof using Hcb Hser.
    intros Hs Hl. rewrite run_is. unfold loop. destruct (Z.eqb_spec step 0); [contradiction|].
    set (s0 := St c w _ 0). assert (O0 : okay s0).
    { unfold okay, s0. cbn [log]. destruct (used rank out se we) as [l|]; cbn [option_map]; [apply Hl; reflexivity|exact I]. }
    pose proof (outer_fine (range_len n step) step s0 O0) as F. destruct (outer _ _ _ _ _ _ _ _ _ _ _ _ _ s0) as [o s1].
    destruct F as [F1 _]. cbn [fst] in F1.
    assert (Fl : fst (flush_logger W D V pars ser s1) = None).
    { unfold flush_logger. destruct (log s1) as [x|]; [|reflexivity]. unfold log_flush, flush_log. rewrite Hser. reflexivity. }
    destruct o as [| |e]; [exact Fl|exact Fl|destruct (F1 e eq_refl)].
  Qed.
End Total.

Lemma append_main (W G D V : Type) fb up est pars cbs ser se we se' we' n n' step step' c w (d : disk D V) (s s' : st W D V) x l' :
  0 < step -> 0 < step' -> 0 < se -> 0 < we -> 0 < se' -> 0 < we' ->
  run (G := G) fb up est pars cbs ser 0 Path true se we n step c w d = (None, s) ->
  log s = Some x ->
  open_log "append" se' we' (dk x) = Ok l' ->
  run (G := G) fb up est pars cbs ser 0 (Logger l') true 0 0 n' step' (count s) (world s) (dk x) = (None, s') ->
  exists es es' x', log s' = Some x' /\
    f_log (dk x) = Full (map item_of es) /\ f_log (dk x') = Full (map item_of es ++ map item_of es') /\
    (exists wa, blocks fb up est pars cbs (Z.to_nat step) c w es (count s) wa \/
      exists e es0, es = es0 ++ [e] /\ blocks fb up est pars cbs (Z.to_nat step) c w es0 (count s) wa) /\
    (exists wa, blocks fb up est pars cbs (Z.to_nat step') (count s) (world s) es' (count s') wa \/
      exists e es0, es' = es0 ++ [e] /\ blocks fb up est pars cbs (Z.to_nat step') (count s) (world s) es0 (count s') wa).
Proof.
  intros Hs Hs' P1 P2 P3 P4 E L O E'.
  apply run_main in E; [|exact Hs|]; cycle 1.
  { intros l F. cbn [used] in F. injection F as <-. unfold fresh. cbn [nf_write nf_pars write_every save_every]. auto. }
  destruct E as (es & Cs & x1 & L1 & F1 & _). rewrite L in L1. injection L1 as <-. cbn [output app] in F1.
  destruct (@modes_main D V "append" se' we' (dk x)) as (_ & _ & M & _). rewrite M in O by (cbn; tauto). rewrite F1 in O. injection O as <-.
  apply run_main in E'; [|exact Hs'|]; cycle 1.
  { intros l F. cbn [used] in F. injection F as <-. unfold fresh. cbn [nf_write nf_pars write_every save_every]. auto. }
  destruct E' as (es' & Cs' & x2 & L2 & F2 & _). cbn [output] in F2.
  exists es, es', x2. split; [exact L2|]. split; [exact F1|]. split; [exact F2|]. split.
  - destruct Cs as [(_ & B & _)|(es0 & e & w0 & g & oks & k & Ees & _ & _ & B & _)]; [exists (world s); left; exact B|].
    exists w0. right. exists e, es0. split; [exact Ees|exact B].
  - destruct Cs' as [(_ & B & _)|(es0 & e & w0 & g & oks & k & Ees & _ & _ & B & _)]; [exists (world s'); left; exact B|].
    exists w0. right. exists e, es0. split; [exact Ees|exact B].
Qed.

(** ** what does not hold *)
Lemma overshoot : exists (s' : st Z Z Z),
  run (fun w => (1, w)) Z.add (fun w => (w, w)) (fun w => w) [] (fun _ => true) 0 NoOut true 50 50 3 2 0 0 (Disk Absent Absent) = (None, s') /\
  n_updates s' = 4%nat /\ count s' = 4.
Proof. eexists. split; [vm_compute; reflexivity|]. split; reflexivity. Qed.
Lemma ranks : exists (veto pass : Z -> Z -> Z -> res (bool * Z)) (s0 s1 : st Z Z Z),
  run (fun w => (1, w)) Z.add (fun w => (w, w)) (fun w => w) [veto] (fun _ => true) 0 NoOut true 50 50 3 1 0 0 (Disk Absent Absent) = (None, s0) /\
  run (fun w => (1, w)) Z.add (fun w => (w, w)) (fun w => w) [pass] (fun _ => true) 1 NoOut true 50 50 3 1 0 0 (Disk Absent Absent) = (None, s1) /\
  n_updates s0 <> n_updates s1.
Proof.
  exists (fun _ _ w => Ok (false, w)), (fun _ _ w => Ok (true, w)). do 2 eexists. split; [vm_compute; reflexivity|]. split; [vm_compute; reflexivity|]. discriminate.
Qed.
Lemma crash : exists (l : jlog Z) (d : disk Z Z) x b,
  open_log "append" 50 50 d = Ok l /\ (exists items, items <> [] /\ f_log d = Full items) /\
  log_call (fun _ => true) 7 7 7 (Lst l d [d]) = (None, x) /\ In b (seen x) /\ f_log b = Torn.
Proof.
  eexists _, (Disk (Full [(3, 3)]) (Full 3)), _, (Disk Torn (Full 3)). split; [reflexivity|].
  split; [exists [(3, 3)]; split; [discriminate|reflexivity]|]. split; [vm_compute; reflexivity|]. split; [right; left; reflexivity|reflexivity].
Qed.
Lemma unserialisable : exists (l : jlog Z) (d : disk Z Z) ser x,
  open_log "append" 50 50 d = Ok l /\ (exists items, items <> [] /\ f_log d = Full items /\ ser items = true) /\
  log_call ser 7 7 7 (Lst l d [d]) = (Some TypeError, x) /\ f_log (dk x) = Torn.
Proof.
  eexists _, (Disk (Full [(3, 3)]) (Full 3)), (fun its => (length its <=? 1)%nat), _. split; [reflexivity|].
  split; [exists [(3, 3)]; split; [discriminate|split; reflexivity]|]. split; [vm_compute; reflexivity|reflexivity].
Qed.
Lemma list_obs (W G D V : Type) fb up est pars cbs ser rank out se we n step c w (d : disk D V) :
  0 < step -> 0 < n ->
  fst (run (W := W) (G := G) fb up est pars cbs ser rank out false se we n step c w d) = Some TypeError.
Proof.
  intros Hs Hn. rewrite run_is. unfold loop. destruct (Z.eqb_spec step 0); [lia|].
  destruct (range_len_covers n step Hs) as [_ C]. pose proof C as C'.
  destruct (range_len n step) as [|m] eqn:Em; [destruct (range_len_covers n step Hs) as [C1 _]; rewrite Em in C1; cbn in *; lia|].
  cbn [outer]. destruct (Z.to_nat step) as [|k] eqn:Ek; [lia|]. cbn [inner]. cbn [world].
  destruct (fb w) as [g w1]. cbn [Nat.eqb]. unfold body. cbn [set_world world count log n_updates]. destruct (est w1). reflexivity.
Qed.
Lemma reset_raises (W : Type) (reset_sampler : W -> W) c w : reset reset_sampler c w = (Some AttributeError, c, reset_sampler w).
Proof. reflexivity. Qed.
