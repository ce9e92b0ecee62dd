From Coq Require Import List ZArith Bool Lia.
From Verif Require Import Base MCState_Model MCState_Spec.
Import ListNotations.
Open Scope Z_scope.

Lemma ceil_div_bounds a b : 0 < b -> a <= ceil_div a b * b < a + b.
Proof.
  intros Hb. unfold ceil_div. pose proof (Z.div_mod (- a) b ltac:(lia)). pose proof (Z.mod_pos_bound (- a) b Hb). nia.
Qed.
Lemma ceil_div_mult k b : 0 < b -> ceil_div (k * b) b = k.
Proof. intros Hb. unfold ceil_div. rewrite <- Z.mul_opp_l, Z.div_mul by lia. lia. Qed.
Lemma ceil_div_pos a b : 0 < a -> 0 < b -> 0 < ceil_div a b.
Proof. intros Ha Hb. pose proof (ceil_div_bounds a b Hb). nia. Qed.

Lemma chains_main nodes n : 0 < nodes -> 0 < n ->
  exists c, pre_init nodes (Some n) None = Ok c /\ 1 <= c /\ n <= c * nodes < n + nodes.
Proof.
  intros Hn Hp. unfold pre_init. eexists. split; [reflexivity|].
  pose proof (ceil_div_bounds n nodes Hn). pose proof (ceil_div_pos n nodes Hp Hn).
  rewrite Z.max_l by lia. lia.
Qed.

Section P.
  Context {Par MSt RS Smp : Type}.
  Variable n_nodes : Z.
  Variable o_reset : sampler -> MSt * Par -> RS -> RS.
  Variable o_sample : sampler -> MSt * Par -> RS -> Z -> Smp * RS.
  Variable o_init : sampler -> MSt * Par -> RS.
  Notation mc := (mcstate Par MSt RS Smp).
  Notation nch s := (n_chains n_nodes (f_sampler s)).

  Lemma n_samples_main (s : mc) n : 0 < nch s ->
    (0 < n -> exists s', set_n_samples n_nodes n s = Ok s' /\
       n <= f_n_samples s' < n + nch s /\
       f_n_samples s' = f_chain_length s' * nch s' /\
       f_sampler s' = f_sampler s /\ 0 < f_chain_length s') /\
    (n <= 0 -> set_n_samples n_nodes n s = Err ValueError).
  Proof.
    intros Hc. unfold set_n_samples, compute_chain_length. split; intros Hn.
    - destruct (Z.leb_spec n 0); [lia|]. cbn [bind]. eexists. split; [reflexivity|].
      cbn. pose proof (ceil_div_bounds n (nch s) Hc). pose proof (ceil_div_pos n (nch s) Hn Hc). repeat split; lia.
    - destruct (Z.leb_spec n 0); [reflexivity|lia].
  Qed.

  (** invariant: the cached samples come from the current sampler and variables *)
  Definition cinv (s : mc) : Prop :=
    forall x, f_samples s = Some x ->
      drawn_with o_sample (f_sampler s) (variables s) x.

  Lemma mreset_inv (s : mc) : cinv (mreset s).
  Proof. intros x H. discriminate. Qed.

  Lemma sample_inv cl n d (s s' : mc) x :
    msample n_nodes o_reset o_sample cl n d s = Ok (s', x) ->
    f_samples s' = Some x /\ variables s' = variables s /\
    f_sampler s' = f_sampler s /\
    drawn_with o_sample (f_sampler s) (variables s) x.
  Proof.
    unfold msample.
    destruct (match cl with Some c => Ok c | None => _ end) as [len|e]; cbn [bind]; [|discriminate].
    intros E. injection E as E1 E2. subst s' x. repeat split. eexists. eexists. reflexivity.
  Qed.

  Lemma set_n_inv n (s s' : mc) : set_n_samples n_nodes n s = Ok s' -> f_samples s' = None.
  Proof.
    unfold set_n_samples. destruct (compute_chain_length _ n); cbn [bind]; [|discriminate].
    intros E. injection E as <-. reflexivity.
  Qed.

  Lemma step_inv op (s : mc) : cinv s -> cinv (mc_step n_nodes o_reset o_sample o_init op s).
  Proof.
    intros Hi. destruct op; cbn [mc_step]; try (intros x H; discriminate); try exact Hi.
    - unfold keep. destruct (set_n_samples _ _ _) eqn:E; [|exact Hi].
      intros x H. rewrite (set_n_inv _ _ _ E) in H. discriminate.
    - unfold keep, set_n_samples_per_rank. destruct (set_n_samples _ _ _) eqn:E; [|exact Hi].
      intros x H. rewrite (set_n_inv _ _ _ E) in H. discriminate.
    - unfold keep, set_chain_length. destruct (set_n_samples _ _ _) eqn:E; cbn [bind]; [|exact Hi].
      intros x H. discriminate.
    - unfold keep, set_discard. destruct d as [d|]; [destruct (d <? 0)|]; exact Hi.
    - destruct (msample _ _ _ _ _ _ _) as [[s' x]|] eqn:E; [|exact Hi]. cbn [fst].
      apply sample_inv in E. destruct E as [E1 [E2 [E3 E4]]]. intros y Hy. rewrite E2, E3. congruence.
    - unfold msamples. destruct (f_samples s) eqn:Es; [exact Hi|].
      destruct (msample _ _ _ _ _ _ _) as [[s' x]|] eqn:E; [|exact Hi]. cbn [fst].
      apply sample_inv in E. destruct E as [E1 [E2 [E3 E4]]]. intros y Hy. rewrite E2, E3. congruence.
  Qed.

  Lemma run_inv ops : forall (s : mc), cinv s -> cinv (mc_run n_nodes o_reset o_sample o_init ops s).
  Proof.
    induction ops as [|op ops IH]; intros s Hi; [exact Hi|]. apply IH, step_inv, Hi.
  Qed.

  Lemma samples_current (s : mc) : cinv s ->
    exists s' x, msamples n_nodes o_reset o_sample s = Ok (s', x) /\
      drawn_with o_sample (f_sampler s) (variables s) x /\
      variables s' = variables s /\ f_sampler s' = f_sampler s /\
      f_samples s' = Some x.
  Proof.
    intros Hi. unfold msamples. destruct (f_samples s) as [x|] eqn:E.
    - exists s, x. split; [reflexivity|]. split; [apply Hi, E|]. repeat split. exact E.
    - destruct (msample n_nodes o_reset o_sample None None None s) as [[s' x]|] eqn:Es.
      + exists s', x. apply sample_inv in Es. destruct Es as [E1 [E2 [E3 E4]]].
        split; [reflexivity|]. repeat split; assumption.
      + unfold msample in Es. cbn in Es. discriminate.
  Qed.

  Lemma construct_inv sm v n p d (s : mc) :
    construct n_nodes o_init sm v n p d = Ok s -> cinv s /\ f_sampler s = sm.
  Proof.
    unfold construct.
    destruct (match n with Some _ => _ | None => _ end) as [m|]; cbn [bind]; [|discriminate].
    set (s0 := MCState _ _ _ _ _ _ _ _ _).
    assert (H : forall k s1, set_n_samples n_nodes k s0 = Ok s1 ->
        f_samples s1 = None /\ f_sampler s1 = sm).
    { intros k s1 E. split; [apply (set_n_inv _ _ _ E)|].
      unfold set_n_samples in E. destruct (compute_chain_length _ k); cbn [bind] in E; [|discriminate].
      injection E as <-. reflexivity. }
    destruct m as [m|m]; unfold set_n_samples_per_rank;
      (destruct (set_n_samples n_nodes _ s0) as [s1|] eqn:E1; cbn [bind]; [|discriminate];
       apply H in E1; destruct E1 as [E1 E2]; unfold set_discard;
       destruct d as [d|]; [destruct (d <? 0); [discriminate|]|]; intros E; injection E as <-;
       (split; [intros x Hx; cbn [f_samples] in Hx; congruence|exact E2])).
  Qed.

  (** the number of samples drawn *)
  Definition ninv (s : mc) : Prop :=
    0 < nch s /\ f_n_samples s = f_chain_length s * nch s /\
    forall x, f_samples s = Some x ->
      drawn_with_length o_sample (f_sampler s) (variables s) (f_chain_length s) x.

  Lemma set_n_ninv n (s s' : mc) : ninv s -> set_n_samples n_nodes n s = Ok s' -> ninv s'.
  Proof.
    intros [H1 [H2 H3]]. unfold set_n_samples. destruct (compute_chain_length _ n); cbn [bind]; [|discriminate].
    intros E. injection E as <-. split; [exact H1|]. split; [reflexivity|]. intros x H. discriminate.
  Qed.

  Lemma step_ninv op (s : mc) : plain op = true -> ninv s ->
    ninv (mc_step n_nodes o_reset o_sample o_init op s).
  Proof.
    intros Hp Hi. pose proof Hi as [H1 [H2 H3]].
    assert (Hs : forall d, ninv (match msample n_nodes o_reset o_sample None None d s with Ok t => fst t | Err _ => s end)).
    { intros d. cbn. split; [exact H1|]. split; [exact H2|]. intros x Hx. injection Hx as <-. eexists. reflexivity. }
    destruct op; cbn [mc_step]; cbn [plain] in Hp; try discriminate;
      try (split; [exact H1|split; [exact H2|intros x H; discriminate]]); try exact Hi.
    - unfold keep. destruct (set_n_samples _ _ _) eqn:E; [|exact Hi]. exact (set_n_ninv _ _ _ Hi E).
    - unfold keep, set_n_samples_per_rank. destruct (set_n_samples _ _ _) eqn:E; [|exact Hi]. exact (set_n_ninv _ _ _ Hi E).
    - unfold keep, set_chain_length. destruct (set_n_samples _ _ _) eqn:E; cbn [bind]; [|exact Hi].
      destruct (set_n_ninv _ _ _ Hi E) as [A [B C]]. split; [exact A|]. split; [exact B|]. intros x H. discriminate.
    - unfold keep, set_discard. destruct d as [d|]; [destruct (d <? 0)|]; try exact Hi.
    - destruct cl; [discriminate|]. destruct n; [discriminate|]. apply Hs.
    - unfold msamples. destruct (f_samples s) eqn:Es; [exact Hi|]. apply Hs.
  Qed.

  Lemma run_ninv ops : forall (s : mc), forallb plain ops = true -> ninv s ->
    ninv (mc_run n_nodes o_reset o_sample o_init ops s).
  Proof.
    induction ops as [|op ops IH]; intros s Hp Hi; [exact Hi|]. cbn [forallb] in Hp.
    apply andb_true_iff in Hp. destruct Hp as [P1 P2]. apply (IH _ P2). apply step_ninv; assumption.
  Qed.

  Lemma construct_ninv sm v n p d (s : mc) : 0 < n_chains n_nodes sm ->
    construct n_nodes o_init sm v n p d = Ok s -> ninv s.
  Proof.
    intros Hc. unfold construct.
    destruct (match n with Some _ => _ | None => _ end) as [m|]; cbn [bind]; [|discriminate].
    set (s0 := MCState _ _ _ _ _ _ _ _ _).
    assert (H0 : ninv s0) by (split; [exact Hc|split; [reflexivity|intros x H; discriminate]]).
    destruct m as [m|m]; unfold set_n_samples_per_rank;
      (destruct (set_n_samples n_nodes _ s0) as [s1|] eqn:E1; cbn [bind]; [|discriminate];
       pose proof (set_n_ninv _ _ _ H0 E1) as H1; unfold set_discard;
       destruct d as [d|]; [destruct (d <? 0); [discriminate|]|]; intros E; injection E as <-; exact H1).
  Qed.

  Lemma samples_length (s : mc) : ninv s ->
    exists s' x, msamples n_nodes o_reset o_sample s = Ok (s', x) /\
      drawn_with_length o_sample (f_sampler s) (variables s) (f_chain_length s) x.
  Proof.
    intros [H1 [H2 H3]]. unfold msamples. destruct (f_samples s) as [x|] eqn:E.
    - exists s, x. split; [reflexivity|apply H3, eq_refl].
    - cbn. eexists. eexists. split; [reflexivity|]. eexists. reflexivity.
  Qed.

  Lemma chain_length_main (s : mc) len : n_nodes = 1 -> 0 < nch s -> 0 < len ->
    exists s', set_chain_length n_nodes len s = Ok s' /\ chain_length s' = len.
  Proof.
    intros Hn Hc Hl. unfold set_chain_length, set_n_samples, compute_chain_length.
    rewrite Hn in *. rewrite Z.mul_1_r. destruct (Z.leb_spec (len * n_chains 1 (f_sampler s)) 0); [nia|].
    cbn [bind]. eexists. split; [reflexivity|]. cbn. apply ceil_div_mult. exact Hc.
  Qed.

  Lemma chain_length_ranks (s : mc) len : 0 < n_nodes -> 0 < nch s -> 0 < len ->
    exists s', set_chain_length n_nodes len s = Ok s' /\ chain_length s' = len * n_nodes.
  Proof.
    intros Hn Hc Hl. unfold set_chain_length, set_n_samples, compute_chain_length.
    destruct (Z.leb_spec (len * n_chains n_nodes (f_sampler s) * n_nodes) 0); [nia|].
    cbn [bind]. eexists. split; [reflexivity|]. cbn.
    replace (len * n_chains n_nodes (f_sampler s) * n_nodes)
      with (len * n_nodes * n_chains n_nodes (f_sampler s)) by ring.
    apply ceil_div_mult. exact Hc.
  Qed.

  (** serialisation *)
  Lemma roundtrip (s t : mc) :
    ninv s -> 0 < f_chain_length s -> 0 <= f_discard s ->
    (sm_exact (f_sampler s) = true -> f_discard s = 0) ->
    f_sampler t = f_sampler s ->
    exists s', deserialize n_nodes t (serialize s) = Ok s' /\
      variables s' = variables s /\ f_rs s' = f_rs s /\
      f_n_samples s' = f_n_samples s /\ f_chain_length s' = f_chain_length s /\
      f_discard s' = f_discard s /\ f_samples s' = None.
  Proof.
    intros [H1 [H2 H3]] Hl Hd Hx Ht. unfold deserialize, serialize, set_n_samples, compute_chain_length.
    destruct t as [tp tm tsm trs tsa tn tl tpn td]. cbn [f_sampler] in Ht. subst tsm.
    cbn [d_vars d_rs d_n d_disc f_sampler set_sampler_state set_variables set_parameters set_model_state mreset]. destruct (Z.leb_spec (f_n_samples s) 0); [nia|]. cbn [bind].
    rewrite H2, ceil_div_mult by exact H1. unfold set_discard.
    destruct (Z.ltb_spec (f_discard s) 0); [lia|]. eexists. split; [reflexivity|].
    cbn. destruct (sm_exact (f_sampler s)).
    - rewrite Hx by reflexivity. destruct s; repeat split.
    - destruct s; repeat split.
  Qed.

  Definition dinv (s : mc) : Prop :=
    ninv s /\ 0 < f_chain_length s /\ 0 <= f_discard s /\
    (sm_exact (f_sampler s) = true -> f_discard s = 0).

  Lemma set_n_facts n (s s' : mc) : 0 < nch s -> set_n_samples n_nodes n s = Ok s' ->
    0 < f_chain_length s' /\ f_discard s' = f_discard s /\ f_sampler s' = f_sampler s.
  Proof.
    intros Hc. unfold set_n_samples, compute_chain_length. destruct (Z.leb_spec n 0); cbn [bind]; [discriminate|].
    intros E. injection E as <-. cbn. split; [apply ceil_div_pos; assumption|split; reflexivity].
  Qed.

  Lemma set_discard_dinv d (s s' : mc) : ninv s -> 0 < f_chain_length s ->
    set_discard d s = Ok s' -> dinv s'.
  Proof.
    intros Hn Hl. pose proof Hn as [H1 [H2 H3]]. unfold set_discard.
    destruct (match d with Some d => d <? 0 | None => false end) eqn:E; [discriminate|].
    intros Eq. injection Eq as <-. split; [exact Hn|]. cbn. split; [exact Hl|].
    destruct (sm_exact (f_sampler s)); [split; [lia|reflexivity]|].
    split; [|discriminate]. destruct d as [d|].
    - apply Z.ltb_ge in E. exact E.
    - apply Z.div_pos; [|lia]. rewrite H2. nia.
  Qed.

  Lemma step_dinv op (s : mc) : plain op = true -> dinv s ->
    dinv (mc_step n_nodes o_reset o_sample o_init op s).
  Proof.
    intros Hp [Hn [Hl [Hd Hx]]]. pose proof (step_ninv op s Hp Hn) as Hn'.
    pose proof Hn as [H1 _].
    assert (G : forall k s', set_n_samples n_nodes k s = Ok s' -> ninv s' -> dinv s').
    { intros k s' E Hs. destruct (set_n_facts k s s' H1 E) as [F1 [F2 F3]].
      split; [exact Hs|]. rewrite F2, F3. repeat split; assumption. }
    destruct op; cbn [mc_step] in *; cbn [plain] in Hp; try discriminate;
      try (split; [exact Hn'|repeat split; assumption]).
    - unfold keep in *. destruct (set_n_samples _ _ _) eqn:E; [exact (G _ _ E Hn')|split; [exact Hn'|repeat split; assumption]].
    - unfold keep, set_n_samples_per_rank in *. destruct (set_n_samples _ _ _) eqn:E; [exact (G _ _ E Hn')|split; [exact Hn'|repeat split; assumption]].
    - unfold keep, set_chain_length in *. destruct (set_n_samples _ _ _) eqn:E; cbn [bind] in *;
        [|split; [exact Hn'|repeat split; assumption]].
      destruct (set_n_facts _ _ _ H1 E) as [F1 [F2 F3]]. split; [exact Hn'|]. cbn. rewrite F2, F3. repeat split; assumption.
    - unfold keep in *. destruct (set_discard d s) as [s'|] eqn:E; [exact (set_discard_dinv d s s' Hn Hl E)|split; [exact Hn'|repeat split; assumption]].
    - destruct cl; [discriminate|]. destruct n; [discriminate|]. split; [exact Hn'|repeat split; assumption].
    - unfold msamples in *. destruct (f_samples s); split; try exact Hn'; repeat split; assumption.
  Qed.

  Lemma run_dinv ops : forall (s : mc), forallb plain ops = true -> dinv s ->
    dinv (mc_run n_nodes o_reset o_sample o_init ops s).
  Proof.
    induction ops as [|op ops IH]; intros s Hp Hi; [exact Hi|]. cbn [forallb] in Hp.
    apply andb_true_iff in Hp. destruct Hp as [P1 P2]. apply (IH _ P2). apply step_dinv; assumption.
  Qed.

  Lemma construct_dinv sm v n p d (s : mc) : 0 < n_chains n_nodes sm ->
    construct n_nodes o_init sm v n p d = Ok s -> dinv s.
  Proof.
    intros Hc. unfold construct.
    destruct (match n with Some _ => _ | None => _ end) as [m|]; cbn [bind]; [|discriminate].
    set (s0 := MCState _ _ _ _ _ _ _ _ _).
    assert (H0 : ninv s0) by (split; [exact Hc|split; [reflexivity|intros x H; discriminate]]).
    destruct m as [m|m]; unfold set_n_samples_per_rank;
      (destruct (set_n_samples n_nodes _ s0) as [s1|] eqn:E1; cbn [bind]; [|discriminate];
       pose proof (set_n_ninv _ _ _ H0 E1) as H1;
       destruct (set_n_facts _ s0 _ Hc E1) as [F1 _]; apply set_discard_dinv; assumption).
  Qed.

  Lemma run_roundtrip sm v n p d (s : mc) ops (t : mc) : 0 < n_chains n_nodes sm ->
    construct n_nodes o_init sm v n p d = Ok s -> forallb plain ops = true ->
    let u := mc_run n_nodes o_reset o_sample o_init ops s in
    f_sampler t = f_sampler u ->
    exists u', deserialize n_nodes t (serialize u) = Ok u' /\
      variables u' = variables u /\ f_rs u' = f_rs u /\
      f_n_samples u' = f_n_samples u /\ f_chain_length u' = f_chain_length u /\
      f_discard u' = f_discard u /\ f_samples u' = None.
  Proof.
    intros Hc E Hp u Ht.
    destruct (run_dinv ops s Hp (construct_dinv sm v n p d s Hc E)) as [D1 [D2 [D3 D4]]].
    apply roundtrip; assumption.
  Qed.

  Lemma run_variables ops : forall (s : mc),
    variables (mc_run n_nodes o_reset o_sample o_init ops s) = current ops (variables s).
  Proof.
    induction ops as [|op ops IH]; intros s; [reflexivity|].
    change (variables (mc_run n_nodes o_reset o_sample o_init ops
              (mc_step n_nodes o_reset o_sample o_init op s)) = current (op :: ops) (variables s)).
    rewrite IH. destruct op as [p|m|v|sm|r|k|k|k|d| |cl k d| ]; cbn [current]; f_equal; try reflexivity.
    - destruct v; reflexivity.
    - cbn. unfold keep, set_n_samples. destruct (compute_chain_length _ _); reflexivity.
    - cbn. unfold keep, set_n_samples_per_rank, set_n_samples. destruct (compute_chain_length _ _); reflexivity.
    - cbn. unfold keep, set_chain_length, set_n_samples. destruct (compute_chain_length _ _); reflexivity.
    - cbn. unfold keep, set_discard. destruct d as [d|]; [destruct (d <? 0)|]; reflexivity.
    - cbn. unfold msample. destruct (match cl with Some c => Ok c | None => _ end); reflexivity.
    - cbn. unfold msamples. destruct (f_samples s); [reflexivity|]. reflexivity.
  Qed.
End P.

(** ** discarded samples *)
Lemma discard_main {Par MSt RS Smp} n_nodes o_reset o_sample (s : mcstate Par MSt RS Smp) cl n nd s' x :
  0 <= f_discard s ->
  (nd = None \/ exists d, nd = Some d /\ 0 < d /\ 0 < f_discard s) ->
  msample n_nodes o_reset o_sample cl n nd s = Ok (s', x) ->
  exists len, drawn_after o_sample o_reset (f_sampler s) (variables s) (f_rs s)
    (match nd with Some d => d | None => f_discard s end) len x.
Proof.
  intros H0 H E. unfold msample in E.
  destruct (match cl, n with None, None => _ | _, _ => _ end) as [len|e]; [|discriminate E].
  cbn [bind] in E. injection E as _ <-. exists len. unfold drawn_after. rewrite Z.gtb_ltb.
  destruct H as [->|[d [-> [Hd Hs]]]]; [reflexivity|].
  destruct (Z.ltb_spec 0 (f_discard s)); [|lia]. destruct (Z.ltb_spec 0 d); [|lia]. reflexivity.
Qed.
