From Coq Require Import List ZArith Bool Reals Permutation Lia Lra.
From Verif Require Import Base BaseFacts Rules_Model LegSamp_Model LegSamp_Spec LegSamp_Proofs LegSamp_Witness
  Keys_Model Keys_Spec Keys_Proofs LegJsamp_Model LegJsamp_Spec.
Import ListNotations.
Open Scope nat_scope.

Section S.
  Context {Par : Type}.
  Variable size : nat.
  Variable logv : Par -> cfg -> R.
  Variable unif : key -> nat -> R.
  Variable mv : key -> cfg -> cfg.
  Variable rd : key -> key * cfg.
  Notation step := (step logv unif mv).
  Notation steps := (steps logv unif mv).
  Notation scan := (scan logv unif mv).
  Notation moves := (moves logv unif mv).
  Notation linked := (linked logv unif mv).

  Definition good (p : Par) (pow : R) (rows : list (cfg * R)) : Prop := Forall (fun t => snd t = (pow * logv p (fst t))%R) rows.

  Lemma comb_nth {A} (l : list A) d : forall i off, i < length l -> nth i (combine (seq off (length l)) l) (0, d) = (off + i, nth i l d).
  Proof.
    intros i off H. rewrite combine_nth by (rewrite seq_length; reflexivity). rewrite seq_nth by exact H. reflexivity.
  Qed.
  Lemma comb_len {A} (l : list A) off : length (combine (seq off (length l)) l) = length l.
  Proof. rewrite combine_length, seq_length. lia. Qed.
  Lemma step_len p pow w : length (snd (step p pow w)) = length (snd w).
  Proof. destruct w as [k rows]. cbn [step snd]. rewrite map_length. apply comb_len. Qed.
  Lemma steps_len p pow n : forall w, length (snd (steps p pow n w)) = length (snd w).
  Proof. induction n as [|n IH]; intros w; [reflexivity|]. cbn [steps]. rewrite IH. apply step_len. Qed.

  Lemma step_good p pow w : good p pow (snd w) -> good p pow (snd (step p pow w)).
  Proof.
    destruct w as [k rows]. unfold good. cbn [step snd]. intros G. rewrite Forall_forall in *. intros t I.
    apply in_map_iff in I. destruct I as ((i & x & l) & <- & I). apply in_combine_r in I. specialize (G _ I). cbn in G.
    destruct (Rlt_dec _ _); cbn; [reflexivity|exact G].
  Qed.
  Lemma steps_good p pow n : forall w, good p pow (snd w) -> good p pow (snd (steps p pow n w)).
  Proof. induction n as [|n IH]; intros w G; [exact G|]. cbn [steps]. apply IH, step_good, G. Qed.

  Lemma step_moves p pow w : good p pow (snd w) -> moves p pow (map fst (snd w)) (map fst (snd (step p pow w))).
  Proof.
    intros G. pose proof (step_len p pow w) as L. destruct w as [k rows]. cbn [snd] in *. set (n := length rows).
    exists (sub k (2 + n) 1), (map (fun i => sub k (2 + n) (2 + i)) (seq 0 n)).
    split.
    { replace (sub k (2 + n) 1 :: map (fun i => sub k (2 + n) (2 + i)) (seq 0 n)) with (map (Child k (2 + n)) (1 :: seq 2 n)).
      - apply unrelated_split_list. constructor; [rewrite in_seq; lia|apply seq_NoDup].
      - cbn [map]. f_equal. rewrite <- seq_shift, <- seq_shift, !map_map. apply map_ext_in.
        intros i I. apply in_seq in I. symmetry. apply sub_eq. lia. }
    rewrite !map_length, seq_length. split; [reflexivity|]. split; [exact L|]. intros i d H. cbv zeta.
    fold n in H. set (d0 := ([] : cfg, 0%R)).
    assert (E : nth i rows d0 = (nth i (map fst rows) [], (pow * logv p (nth i (map fst rows) []))%R)).
    { change (@nil Z) with (fst d0). rewrite map_nth. unfold good in G. rewrite Forall_forall in G.
      rewrite <- (G (nth i rows d0)) by (apply nth_In, H). destruct (nth i rows d0); reflexivity. }
    assert (K : nth i (map (fun j => sub k (2 + n) (2 + j)) (seq 0 n)) d = sub k (2 + n) (2 + i)).
    { rewrite (nth_indep _ d (sub k (2 + n) (2 + 0))) by (rewrite map_length, seq_length; exact H).
      rewrite (map_nth (fun j => sub k (2 + n) (2 + j))), seq_nth by exact H. reflexivity. }
    rewrite K.
    assert (Y : nth i (map fst (snd (step p pow (k, rows)))) [] =
      let x := nth i (map fst rows) [] in let y := mv (sub k (2 + n) (2 + i)) x in
      if Rlt_dec (unif (sub k (2 + n) 1) i) (exp (pow * logv p y - pow * logv p x)) then y else x).
    { cbn [LegJsamp_Model.step snd]. rewrite map_map. fold n.
      match goal with |- nth i (map ?f ?l) [] = _ => set (g := f); rewrite (nth_indep (map g l) [] (g (0, d0))); [rewrite (map_nth g); unfold g|] end.
      - unfold n. rewrite comb_nth by exact H. fold n. rewrite E. cbn [Nat.add]. cbv zeta. destruct (Rlt_dec _ _); reflexivity.
      - rewrite map_length. unfold n. rewrite comb_len. exact H. }
    rewrite Y. cbv zeta. unfold leg_test.
    set (x := nth i (map fst rows) []). set (y := mv _ x).
    replace (pow * (logv p y - logv p x + 0))%R with (pow * logv p y - pow * logv p x)%R by ring.
    destruct (Rlt_dec _ _) as [A|A]; [left|right]; split; auto.
  Qed.
  Lemma steps_linked p pow n : forall w, good p pow (snd w) -> linked p pow n (map fst (snd w)) (map fst (snd (steps p pow n w))).
  Proof.
    induction n as [|n IH]; intros w G; [constructor|]. cbn [LegJsamp_Model.steps].
    econstructor; [apply step_moves, G|]. apply IH, step_good, G.
  Qed.
  Lemma scan_follows p pow sw n : forall w, good p pow (snd w) ->
    length (scan p pow sw n w) = n /\ follows (linked p pow (Z.to_nat sw)) (map fst (snd w)) (scan p pow sw n w) /\
    Forall (fun xs => length xs = length (snd w)) (scan p pow sw n w).
  Proof.
    induction n as [|n IH]; intros w G; [repeat split; constructor|]. cbn [LegJsamp_Model.scan].
    destruct (IH (steps p pow (Z.to_nat sw) w) (steps_good _ _ _ _ G)) as (L & F & A). cbn [length follows]. repeat split.
    - rewrite L. reflexivity.
    - apply steps_linked, G.
    - exact F.
    - constructor; [rewrite map_length; apply steps_len|]. rewrite steps_len in A. exact A.
  Qed.
  Lemma init_good p pow xs : good p pow (map (fun x => (x, (pow * logv p x)%R)) xs).
  Proof. unfold good. apply Forall_forall. intros t I. apply in_map_iff in I. destruct I as (x & <- & _). reflexivity. Qed.
  Lemma init_fst p pow xs : map fst (map (fun x => (x, (pow * logv p x)%R)) xs) = xs.
  Proof. rewrite map_map. cbn. apply map_id. Qed.

  Lemma scan_random_len n : forall k, length (snd (scan_random rd n k)) = n.
  Proof.
    induction n as [|n IH]; intros k; [reflexivity|]. cbn [scan_random]. destruct (rd k) as [k1 x].
    specialize (IH k1). destruct (scan_random rd n k1) as [k2 xs]. cbn in *. f_equal. exact IH.
  Qed.

  (** a reset *)
  Lemma reset_false (s : jsmp Par) : reset rd false s = (s, Ok tt). Proof. reflexivity. Qed.
  Lemma reset_true (s : jsmp Par) : let s' := fst (reset rd true s) in
    j_par s' = j_par s /\ j_sweep s' = j_sweep s /\ j_pow s' = j_pow s /\ j_chains s' = j_chains s /\ j_shape s' = j_shape s /\
    length (j_state s') = Z.to_nat (j_chains s) /\
    snd (reset rd true s) = if (Z.of_nat (Z.to_nat (j_chains s)) =? j_shape s)%Z then Ok tt else Err AssertionError.
  Proof.
    unfold reset. pose proof (scan_random_len (Z.to_nat (j_chains s)) (j_key s)) as L.
    destruct (scan_random rd _ _) as [k xs]. cbn [fst snd] in *. cbn. rewrite L. repeat split; reflexivity.
  Qed.

  Lemma generate_main n b s : 0 < n -> (b = true -> j_chains s = j_shape s /\ (0 <= j_shape s)%Z) ->
    let s0 := fst (reset rd b s) in
    let s1 := fst (generate logv unif mv rd n b s) in
    exists samples, snd (generate logv unif mv rd n b s) = Ok (Some samples) /\ length samples = n /\
      Forall (fun xs => length xs = length (j_state s0)) samples /\
      follows (linked (j_par s) (j_pow s) (Z.to_nat (j_sweep s))) (j_state s0) samples /\
      j_state s1 = last samples [] /\
      j_par s1 = j_par s /\ j_sweep s1 = j_sweep s /\ j_pow s1 = j_pow s /\ j_chains s1 = j_chains s /\ j_shape s1 = j_shape s.
  Proof.
    intros H B. destruct n as [|n]; [lia|]. cbv zeta. unfold generate.
    assert (X : snd (reset rd b s) = Ok tt /\ j_par (fst (reset rd b s)) = j_par s /\ j_sweep (fst (reset rd b s)) = j_sweep s /\
      j_pow (fst (reset rd b s)) = j_pow s /\ j_chains (fst (reset rd b s)) = j_chains s /\ j_shape (fst (reset rd b s)) = j_shape s).
    { destruct b; [|repeat split; reflexivity]. destruct (reset_true s) as (A1 & A2 & A3 & A4 & A5 & A6 & A7).
      destruct (B eq_refl) as [C Z0]. rewrite A7, C, Z2Nat.id, Z.eqb_refl by exact Z0. repeat split; congruence. }
    destruct (reset rd b s) as [s0 r]. cbn [fst snd] in *. destruct X as (-> & P1 & P2 & P3 & P4 & P5).
    unfold metropolis_kernel.
    set (w := (sub (j_key s0) 2 1, map (fun x => (x, (j_pow s0 * logv (j_par s0) x)%R)) (j_state s0))).
    destruct (scan_follows (j_par s0) (j_pow s0) (j_sweep s0) (S n) w (init_good _ _ _)) as (L & F & A).
    assert (W : map fst (snd w) = j_state s0) by apply init_fst.
    assert (W' : length (snd w) = length (j_state s0)) by (unfold w; cbn [snd]; apply map_length).
    rewrite W in F. rewrite W' in A. exists (scan (j_par s0) (j_pow s0) (j_sweep s0) (S n) w).
    cbn [fst snd]. rewrite <- P1, <- P2, <- P3, <- P4, <- P5. do 9 (split; [first [reflexivity|assumption]|]); reflexivity.
  Qed.

  Lemma next_is_generate s : next logv unif mv s = generate logv unif mv rd 1 false s.
  Proof. reflexivity. Qed.

  Lemma generate_assert n s : 0 < n -> (0 <= j_chains s)%Z -> j_chains s <> j_shape s ->
    snd (generate logv unif mv rd n true s) = Err AssertionError /\
    length (j_state (fst (generate logv unif mv rd n true s))) = Z.to_nat (j_chains s).
  Proof.
    intros H C N. destruct n as [|n]; [lia|]. unfold generate. destruct (reset_true s) as (A1 & A2 & A3 & A4 & A5 & A6 & A7).
    destruct (reset rd true s) as [s0 r]. cbn [fst snd] in *. rewrite Z2Nat.id in A7 by exact C. apply Z.eqb_neq in N. rewrite N in A7.
    subst r. cbn. split; [reflexivity|exact A6].
  Qed.
  Lemma chains_main n (s : jsmp Par) : (0 <= n)%Z -> n <> j_shape s ->
    let s1 := fst (set_chains rd n s) in
    snd (set_chains rd n s) = Err AssertionError /\ j_chains s1 = n /\ length (j_state s1) = Z.to_nat n.
  Proof.
    intros H N. cbv zeta. unfold set_chains. destruct (Z.ltb_spec n 0); [lia|].
    match goal with |- context [reset rd true ?s0] => destruct (reset_true s0) as (A1 & A2 & A3 & A4 & A5 & A6 & A7) end.
    cbn [j_chains j_shape] in *. rewrite Z2Nat.id in A7 by exact H. apply Z.eqb_neq in N. rewrite N in A7. auto.
  Qed.

  (** no step *)
  Lemma scan_still p pow sw n w : (sw <= 0)%Z -> scan p pow sw n w = repeat (map fst (snd w)) n.
  Proof.
    intros H. induction n as [|n IH]; [reflexivity|]. cbn [LegJsamp_Model.scan repeat].
    replace (Z.to_nat sw) with 0 by lia. cbn [LegJsamp_Model.steps]. rewrite IH. reflexivity.
  Qed.
  Lemma still_main n s : 0 < n -> (j_sweep s <= 0)%Z ->
    snd (generate logv unif mv rd n false s) = Ok (Some (repeat (j_state s) n)).
  Proof.
    intros H W. destruct n as [|n]; [lia|]. unfold generate. rewrite reset_false. unfold metropolis_kernel. cbn [snd].
    rewrite scan_still by exact W. cbn [snd]. rewrite init_fst. reflexivity.
  Qed.

  (** construction *)
  Lemma make_main (p : Par) k n sw :
    ((exists s, make size rd p k n sw = Ok s) <-> (0 <= n)%Z /\ (forall v, sw = Some v -> 0 <= v)%Z) /\
    (~ ((0 <= n)%Z /\ (forall v, sw = Some v -> 0 <= v)%Z) -> make size rd p k n sw = Err ValueError) /\
    forall s, make size rd p k n sw = Ok s ->
      j_par s = p /\ j_pow s = 2%R /\ j_chains s = n /\ j_shape s = n /\ length (j_state s) = Z.to_nat n /\
      j_state s = snd (scan_random rd (Z.to_nat n) k) /\ j_key s = fst (scan_random rd (Z.to_nat n) k) /\
      j_sweep s = match sw with Some v => v | None => Z.of_nat size end.
  Proof.
    unfold make, set_chains. destruct (Z.ltb_spec n 0) as [N|N].
    { split; [|split].
      - split; [intros [s E]; discriminate|intros [A _]; lia].
      - reflexivity.
      - intros s E. discriminate. }
    unfold reset. cbn [j_chains j_key j_par j_sweep j_pow j_shape]. pose proof (scan_random_len (Z.to_nat n) k) as L.
    destruct (scan_random rd (Z.to_nat n) k) as [k1 xs]. cbn [fst snd] in *. rewrite L, Z2Nat.id, Z.eqb_refl by exact N.
    unfold set_sweep. cbn [j_chains j_key j_par j_sweep j_pow j_shape j_state].
    set (v := match sw with Some v => v | None => Z.of_nat size end).
    assert (V : (0 <= v)%Z <-> (forall v, sw = Some v -> 0 <= v)%Z).
    { unfold v. destruct sw as [z|]; [|split; [discriminate|lia]]. split; [intros A w [= <-]; exact A|intros A; apply A; reflexivity]. }
    destruct (Z.ltb_spec v 0) as [M|M].
    - split; [|split].
      + split; [intros [s E]; discriminate|]. intros [_ A]. apply V in A. lia.
      + reflexivity.
      + intros s E. discriminate.
    - split; [|split].
      + split; [intros _; split; [exact N|apply V; exact M]|]. intros _. eexists. reflexivity.
      + intros A. exfalso. apply A. split; [exact N|apply V; exact M].
      + intros s [= <-]. cbn. rewrite L. repeat split; reflexivity.
  Qed.

  (** ** confinement *)
  Section Confined.
    Variable P : cfg -> Prop.
    Hypothesis Pmv : forall k x, P x -> P (mv k x).
    Hypothesis Prd : forall k, P (snd (rd k)).
    Lemma step_conf p pow w : Forall P (map fst (snd w)) -> Forall P (map fst (snd (step p pow w))).
    Proof.
      destruct w as [k rows]. cbn [step snd]. rewrite map_map, !Forall_forall. intros G x I.
      apply in_map_iff in I. destruct I as ((i & y & l) & <- & I). apply in_combine_r in I.
      assert (Py : P y) by (apply G, in_map_iff; exists (y, l); auto). destruct (Rlt_dec _ _); cbn [fst]; [apply Pmv|]; exact Py.
    Qed.
    Lemma steps_conf p pow n : forall w, Forall P (map fst (snd w)) -> Forall P (map fst (snd (steps p pow n w))).
    Proof. induction n as [|n IH]; intros w G; [exact G|]. cbn [LegJsamp_Model.steps]. apply IH, step_conf, G. Qed.
    Lemma scan_conf p pow sw n : forall w, Forall P (map fst (snd w)) -> Forall (Forall P) (scan p pow sw n w).
    Proof.
      induction n as [|n IH]; intros w G; [constructor|]. cbn [LegJsamp_Model.scan].
      pose proof (steps_conf p pow (Z.to_nat sw) w G) as G'. constructor; [exact G'|apply IH, G'].
    Qed.
    Lemma scan_random_conf n : forall k, Forall P (snd (scan_random rd n k)).
    Proof.
      induction n as [|n IH]; intros k; [constructor|]. cbn [scan_random]. pose proof (Prd k) as R0. destruct (rd k) as [k1 x].
      specialize (IH k1). destruct (scan_random rd n k1) as [k2 xs]. cbn in *. constructor; assumption.
    Qed.
    Lemma reset_conf b (s : jsmp Par) : Forall P (j_state s) -> Forall P (j_state (fst (reset rd b s))).
    Proof.
      intros G. destruct b; [|exact G]. unfold reset. pose proof (scan_random_conf (Z.to_nat (j_chains s)) (j_key s)) as A.
      destruct (scan_random rd _ _) as [k xs]. exact A.
    Qed.
    Lemma last_conf (l : list (list cfg)) : Forall (Forall P) l -> Forall P (last l []).
    Proof. intros H. induction H as [|a l Ha H IH]; [constructor|]. destruct l as [|b l]; [exact Ha|exact IH]. Qed.
    Lemma concat_conf (l : list (list cfg)) : Forall (Forall P) l -> Forall P (concat l).
    Proof. intros H. induction H; cbn; [constructor|]. apply Forall_app. split; assumption. Qed.
    Definition out_conf (r : res (option (list (list cfg)))) := Forall P (match r with Ok (Some l) => concat l | _ => [] end).
    Lemma generate_conf n b s : Forall P (j_state s) ->
      Forall P (j_state (fst (generate logv unif mv rd n b s))) /\ out_conf (snd (generate logv unif mv rd n b s)).
    Proof.
      intros G. unfold generate. destruct n as [|n]; [split; [exact G|constructor]|]. pose proof (reset_conf b s G) as G'.
      destruct (reset rd b s) as [s0 [u|e]]; cbn [fst snd] in *; [|split; [exact G'|constructor]].
      unfold metropolis_kernel. set (l := scan _ _ _ _ _). assert (A : Forall (Forall P) l).
      { apply scan_conf. cbn [snd]. rewrite init_fst. exact G'. }
      clearbody l. cbn [fst snd j_state]. split; [apply last_conf, A|]. unfold out_conf. apply concat_conf, A.
    Qed.
    Lemma op_conf o s : Forall P (j_state s) ->
      Forall P (j_state (fst (apply_op size logv unif mv rd s o))) /\ out_conf (snd (apply_op size logv unif mv rd s o)).
    Proof.
      intros G. destruct o as [b|n b| |p|w|z|n]; cbn [apply_op].
      - split; [apply reset_conf, G|]. unfold quiet, out_conf. cbn [snd]. destruct (snd (reset rd b s)); constructor.
      - apply generate_conf, G.
      - rewrite next_is_generate. apply generate_conf, G.
      - split; [exact G|constructor].
      - split; [exact G|constructor].
      - split; [exact G|]. unfold quiet, out_conf. cbn [snd]. destruct (snd (set_sweep size z s)); constructor.
      - unfold quiet, out_conf. cbn [fst snd]. split; [|destruct (snd (set_chains rd n s)); constructor].
        unfold set_chains. destruct (n <? 0)%Z; [exact G|]. apply (reset_conf true). exact G.
    Qed.
    Lemma history_conf ops : forall s, Forall P (j_state s) ->
      Forall P (j_state (fst (history size logv unif mv rd s ops))) /\ Forall P (results (snd (history size logv unif mv rd s ops))).
    Proof.
      induction ops as [|o ops IH]; intros s G; [split; [exact G|constructor]|]. cbn [history].
      destruct (op_conf o s G) as [A B]. destruct (apply_op size logv unif mv rd s o) as [s1 r]. cbn [fst snd] in *.
      destruct (IH s1 A) as [C D]. destruct (history size logv unif mv rd s1 ops) as [s2 rs]. cbn [fst snd] in *. split; [exact C|].
      unfold results in *. cbn [map concat]. apply Forall_app. split; [exact B|exact D].
    Qed.
    Lemma conf_main (p : Par) k n sw s ops : make size rd p k n sw = Ok s ->
      Forall P (j_state (fst (history size logv unif mv rd s ops))) /\ Forall P (results (snd (history size logv unif mv rd s ops))).
    Proof.
      intros M. apply history_conf. destruct (make_main p k n sw) as (_ & _ & A). destruct (A s M) as (_ & _ & _ & _ & _ & E & _).
      rewrite E. apply scan_random_conf.
    Qed.
  End Confined.
End S.
