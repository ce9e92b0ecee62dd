(** Proofs behind C31: the translation group. *)
From Coq Require Import List Arith Bool ZArith Sorted Lia.
From Verif Require Import Base BaseFacts Group_Model Group_Spec Group_Proofs
  Lattice_Model Lattice_Spec Lattice_Proofs.
Import ListNotations.
Open Scope Z_scope.

Definition vadd (a b : list Z) : list Z := map (fun xy => fst xy + snd xy) (combine a b).
Definition vopp (a : list Z) : list Z := map Z.opp a.

Lemma shifted_box es : forall ps s u, length es = length ps -> length s = length es ->
  in_box es u -> in_box es (shifted es ps s u).
Proof.
  unfold in_box. induction es as [|e es IH]; intros [|p ps] [|k s] u L1 L2 B;
    try discriminate; inversion B as [|x ? u' ? X1 X2]; subst; cbn; constructor.
  - destruct p; [apply Z.mod_pos_bound; lia|lia].
  - apply IH; auto.
Qed.

Lemma shifted_add es : forall ps a b u, length es = length ps -> length a = length es ->
  length b = length es -> length u = length es ->
  shifted es ps a (shifted es ps b u) = shifted es ps (vadd a b) u.
Proof.
  induction es as [|e es IH]; intros [|p ps] [|k a] [|l b] [|x u] L1 L2 L3 L4; try discriminate; auto.
  cbn. f_equal; [|apply IH; auto].
  destruct p; auto. rewrite Zminus_mod_idemp_l. f_equal. lia.
Qed.

Lemma shifted_id es : forall ps a u, length es = length ps -> length a = length es ->
  Forall (fun k => k = 0) a -> in_box es u -> shifted es ps a u = u.
Proof.
  unfold in_box. induction es as [|e es IH]; intros [|p ps] [|k a] u L1 L2 Z B;
    try discriminate; inversion B; inversion Z; subst; cbn; auto.
  f_equal; [|apply IH; auto]. destruct p; auto. rewrite Z.sub_0_r. apply Z.mod_small. lia.
Qed.

Lemma vadd_opp a : Forall (fun k => k = 0) (vadd (vopp a) a).
Proof. induction a; cbn; constructor; auto. cbn. lia. Qed.
Lemma vopp_len a : length (vopp a) = length a. Proof. apply map_length. Qed.
Lemma vadd_len a b n : length a = n -> length b = n -> length (vadd a b) = n.
Proof. intros. unfold vadd. rewrite map_length, combine_length. lia. Qed.

Lemma box_len es u : in_box es u -> length u = length es.
Proof. unfold in_box. induction 1; cbn; auto. Qed.

Lemma shifted_back es ps a u : length es = length ps -> length a = length es -> in_box es u ->
  shifted es ps (vopp a) (shifted es ps a u) = u.
Proof.
  intros L1 L2 B. rewrite shifted_add; auto; [|now rewrite vopp_len|now apply box_len].
  apply shifted_id; auto; [|apply vadd_opp].
  apply vadd_len; auto. now rewrite vopp_len.
Qed.

Lemma step_shifted es : forall ps s u v, length es = length ps -> length s = length es ->
  in_box es u -> in_box es v -> step es ps u v ->
  step es ps (shifted es ps s u) (shifted es ps s v).
Proof.
  unfold in_box. induction es as [|e es IH]; intros [|p ps] [|k s] u v L1 L2 Bu Bv S;
    try discriminate;
    inversion S as [? ? ? ? ? ? ? H6|? ? ? ? ? ? ? H6]; subst;
    inversion Bu as [|? ? ? ? X1 X2]; inversion Bv as [|? ? ? ? Y1 Y2]; subst; cbn.
  - apply step_here. destruct p; [|intuition discriminate].
    assert (E : (y - k) mod e = ((x - k) mod e + 1) mod e).
    { destruct H6 as [->|[_ [-> ->]]].
      - rewrite Zplus_mod_idemp_l. f_equal. lia.
      - rewrite Zplus_mod_idemp_l. replace (e - 1 - k + 1) with (0 - k + 1 * e) by lia.
        now rewrite Z_mod_plus_full. }
    rewrite E. pose proof (Z.mod_pos_bound (x - k) e ltac:(lia)).
    destruct (Z.eq_dec ((x - k) mod e) (e - 1)) as [Q|Q].
    + right. split; auto. split; auto. rewrite Q. replace (e - 1 + 1) with e by lia.
      apply Z.mod_same. lia.
    + left. apply Z.mod_small. lia.
  - apply step_there. apply IH; auto.
Qed.

Section Trans.
Variables (extent : list Z) (pbc : list bool) (L : lattice).
Hypothesis Hlen : length extent = length pbc.
Hypothesis Hpos : Forall (fun e => 1 <= e) extent.
Hypothesis He : l_extent L = extent.
Hypothesis Hp : l_pbc L = pbc.
Hypothesis Hsort : StronglySorted lex (l_sites L).
Hypothesis Hin : forall c, In c (l_sites L) <-> in_box extent c.
Hypothesis Hedges : forall i j, In (i, j) (l_edges L) <-> (i < j < length (l_sites L))%nat /\
     neighbours extent pbc (nth i (l_sites L) []) (nth j (l_sites L) []).

Notation N := (length (l_sites L)).
Notation cell i := (nth i (l_sites L) []).

Lemma cell_box i : (i < N)%nat -> in_box extent (cell i).
Proof. intros H. apply Hin. now apply nth_In. Qed.
Lemma cell_inj i j : (i < N)%nat -> (j < N)%nat -> cell i = cell j -> i = j.
Proof. intros. apply (proj1 (NoDup_nth (l_sites L) []) (lex_nodup _ Hsort)); auto. Qed.

Lemma has_edge_iff i j : (i < N)%nat -> (j < N)%nat ->
  (has_edge L i j <-> i <> j /\ neighbours extent pbc (cell i) (cell j)).
Proof.
  intros Hi Hj. unfold has_edge. rewrite !Hedges. unfold neighbours. split.
  - intros [[A B]|[A B]]; split; try lia; tauto.
  - intros [A B]. destruct (Nat.lt_gt_cases i j) as [G _].
    destruct (G A); [left|right]; split; try lia; tauto.
Qed.

Lemma translation_perm s p : length p = N -> Forall (fun i => (i < N)%nat) p ->
  is_translation L s p -> isperm N p.
Proof.
  intros Lp F [Ls T]. rewrite He, Hp in *. apply isperm_iff. split; [auto|]. split; [|auto].
  apply (NoDup_nth p 0%nat). intros i j Hi Hj E. rewrite Lp in *.
  apply cell_inj; auto.
  rewrite <- (shifted_back extent pbc s (cell i)), <- (shifted_back extent pbc s (cell j))
    by (auto using cell_box). rewrite <- !T by auto. now rewrite E.
Qed.

Lemma translation_edges s p : isperm N p -> is_translation L s p ->
  forall i j, (i < N)%nat -> (j < N)%nat ->
  (has_edge L i j <-> has_edge L (nth i p 0%nat) (nth j p 0%nat)).
Proof.
  intros P [Ls T] i j Hi Hj. rewrite He, Hp in *.
  assert (Bp : forall k, (k < N)%nat -> (nth k p 0 < N)%nat).
  { intros k Hk. apply (isperm_lt N p); auto. apply nth_In. now rewrite (isperm_len _ _ P). }
  assert (Ip : i <> j <-> nth i p 0%nat <> nth j p 0%nat).
  { pose proof (proj1 (NoDup_nth p 0%nat) (isperm_nodup _ _ P)) as Q.
    rewrite (isperm_len _ _ P) in Q. split; intros A B; apply A; auto. now rewrite B. }
  rewrite !has_edge_iff, Ip, !T by auto.
  assert (St : forall u v, in_box extent u -> in_box extent v ->
    (step extent pbc u v <-> step extent pbc (shifted extent pbc s u) (shifted extent pbc s v))).
  { intros u v Bu Bv. split; [now apply step_shifted|]. intros S.
    rewrite <- (shifted_back extent pbc s u), <- (shifted_back extent pbc s v) by auto.
    apply step_shifted; auto using shifted_box. now rewrite vopp_len. }
  unfold neighbours. rewrite <- !St by (auto using cell_box). tauto.
Qed.

(** ** the generator of an axis *)
Fixpoint unit_at (n axis : nat) : list Z :=
  match n with
  | O => []
  | S n' => match axis with
            | O => 1 :: repeat 0 n'
            | S a => 0 :: unit_at n' a
            end
  end.

Lemma unit_at_len n a : length (unit_at n a) = n.
Proof.
  revert a; induction n; intros [|a]; cbn; auto. now rewrite repeat_length.
Qed.

Lemma shifted_repeat0 es : forall ps u, length es = length ps -> in_box es u ->
  shifted es ps (repeat 0 (length es)) u = u.
Proof.
  intros ps u L1 B. apply shifted_id; auto; [now rewrite repeat_length|].
  clear. induction es; cbn; constructor; auto.
Qed.

Lemma minus_axis_shifted es : forall ps axis u, length es = length ps ->
  in_box es u -> nth axis ps false = true ->
  map (fun cep : Z * (Z * bool) => if snd (snd cep) then fst cep mod fst (snd cep) else fst cep)
      (combine (minus_axis axis u) (combine es ps))
  = shifted es ps (unit_at (length es) axis) u.
Proof.
  unfold in_box, minus_axis.
  induction es as [|e es IH]; intros [|p ps] axis u L1 B A; try discriminate;
    inversion B as [|x ? u' ? X1 X2]; subst.
  - destruct axis; reflexivity.
  - destruct axis as [|axis]; cbn in A; cbn [upd nth combine map unit_at length shifted fst snd].
    + subst p. f_equal. rewrite shifted_repeat0 by (auto; cbn in L1; lia).
      injection L1 as L1. clear - X2 L1. revert ps L1.
      induction X2; intros [|p ps] L1; try discriminate; cbn; auto. f_equal.
      * destruct p; auto. now apply Z.mod_small.
      * apply IHX2. cbn in L1; lia.
    + f_equal; [|apply IH; auto].
      destruct p; auto. now rewrite Z.sub_0_r.
Qed.

Definition plain (e : elem) : Prop := e = EId \/ exists p, e = EPerm p.

Lemma prod_plain n a b : plain a -> plain b -> wf n a -> wf n b ->
  exists c, prod a b = Ok c /\ plain c /\ wf n c.
Proof.
  intros [->|[p ->]] [->|[q ->]] Wa Wb; cbn in Wa, Wb.
  - exists EId; repeat split; cbn; auto. now left.
  - eexists; split; [reflexivity|]. split; auto. right; eauto.
  - eexists; split; [reflexivity|]. split; auto. right; eauto.
  - unfold prod; cbn. rewrite (take_ok 0%nat) by (eapply isperm_forall; eauto). cbn.
    eexists; split; [reflexivity|]. split; [right; eauto|]. cbn. now apply times_perm.
Qed.

Definition good (e : elem) : Prop :=
  plain e /\ wf N e /\ exists s, is_translation L s (perm_of N e).

Lemma good_id : good EId.
Proof.
  split; [now left|]. split; [cbn; auto|]. exists (repeat 0 (length extent)).
  split; [now rewrite He, repeat_length|]. intros i Hi. cbn [perm_of].
  rewrite seq_nth by auto. cbn. rewrite He, Hp, shifted_repeat0; auto. now apply cell_box.
Qed.

Lemma good_prod a b : good a -> good b -> exists c, prod a b = Ok c /\ good c.
Proof.
  intros [Pa [Wa [s [Ls Ts]]]] [Pb [Wb [t [Lt Tt]]]]. rewrite He, Hp in *.
  destruct (prod_plain N a b Pa Pb Wa Wb) as [c [E [Pc Wc]]].
  exists c. split; auto. split; auto. split; auto. exists (vadd t s).
  rewrite (prod_perm N a b c Wa Wb Wc E). split; [rewrite He; now apply vadd_len|].
  intros i Hi. rewrite He, Hp. unfold times.
  assert (La : length (perm_of N a) = N) by now apply isperm_len, perm_of_perm.
  rewrite nth_permuted by lia.
  assert (Hpi : (nth i (perm_of N a) 0 < N)%nat).
  { apply (isperm_lt N (perm_of N a)); [now apply perm_of_perm|]. apply nth_In. lia. }
  rewrite Tt by auto. rewrite Ts by auto. apply shifted_add; auto.
  now apply box_len, cell_box.
Qed.

Lemma power_list_ok t : good t -> forall k x, good x ->
  exists l, power_list x t k = Ok l /\ length l = k /\ Forall good l.
Proof.
  intros Gt. induction k as [|k IH]; intros x Gx; cbn; [eauto|].
  destruct (good_prod x t Gx Gt) as [c [-> Gc]]. cbn.
  destruct (IH c Gc) as [l [-> [Ll Fl]]]. cbn. eexists; split; [reflexivity|].
  cbn. auto.
Qed.

Lemma along_ok axis : (axis < length extent)%nat ->
  exists g, translations_along L axis = Ok g /\ degree g = N /\ Forall good (elems g)
    /\ length (elems g) = n_translations extent pbc axis.
Proof.
  intros Ha. unfold translations_along, n_translations. rewrite Hp.
  destruct (nth axis pbc false) eqn:A.
  2:{ eexists; split; [reflexivity|]. cbn. repeat split; auto using good_id. }
  set (f := fun c => match coord_pos (shifted extent pbc (unit_at (length extent) axis) c)
                             (l_sites L) with Some k => k | None => O end).
  assert (Sh : forall c, In c (l_sites L) ->
    id_from_position L (minus_axis axis c) = Ok (f c) /\ (f c < N)%nat /\
    cell (f c) = shifted extent pbc (unit_at (length extent) axis) c).
  { intros c Hc. apply Hin in Hc. unfold id_from_position, wrap_pbc, f. rewrite He, Hp.
    rewrite minus_axis_shifted by auto.
    pose proof (coord_pos_spec (shifted extent pbc (unit_at (length extent) axis) c) (l_sites L)) as S.
    destruct (coord_pos _ (l_sites L)) as [k|]; [tauto|].
    destruct S. apply Hin. apply shifted_box; auto. apply unit_at_len. }
  rewrite (sequence_map_ok _ f) by (intros; now apply Sh). cbn [bind].
  assert (G : good (EPerm (map f (l_sites L)))).
  { assert (T : is_translation L (unit_at (length extent) axis) (map f (l_sites L))).
    { split; [now rewrite He, unit_at_len|]. intros i Hi. rewrite He, Hp.
      rewrite (nth_indep _ 0%nat (f [])) by now rewrite map_length. rewrite map_nth.
      apply Sh. now apply nth_In. }
    split; [right; eauto|]. split; [|eexists; exact T]. cbn.
    apply (translation_perm (unit_at (length extent) axis)); auto; [now rewrite map_length|].
    rewrite Forall_forall. intros k Hk. apply in_map_iff in Hk. destruct Hk as [c [<- Hc]].
    now apply Sh. }
  rewrite He. set (e := nth axis extent 0) in *.
  destruct (power_list_ok _ G (Z.to_nat e - 1) EId good_id) as [l [-> [Ll Fl]]].
  cbn [bind]. eexists; split; [reflexivity|]. cbn [elems degree]. split; auto.
  split; [constructor; auto using good_id|]. cbn [length]. rewrite Ll.
  assert (1 <= e).
  { unfold e. rewrite Forall_forall in Hpos. apply Hpos. now apply nth_In. }
  lia.
Qed.

Lemma group_prod_good a b : degree a = N -> degree b = N -> Forall good (elems a) ->
  Forall good (elems b) -> exists c, group_prod a b = Ok c /\ degree c = N
    /\ Forall good (elems c) /\ length (elems c) = (length (elems a) * length (elems b))%nat.
Proof.
  intros Da Db Fa Fb. unfold group_prod. rewrite Da, Db, Nat.eqb_refl. cbn [negb].
  rewrite Forall_forall in Fa, Fb.
  assert (S : forall l, (forall x, In x l -> good (fst x) /\ good (snd x)) ->
    exists es, sequence (map (fun ab => prod (fst ab) (snd ab)) l) = Ok es
      /\ Forall good es /\ length es = length l).
  { induction l as [|x l IH]; intros H; cbn; [eexists; repeat split; auto|].
    destruct (H x) as [G1 G2]; [now left|].
    destruct (good_prod _ _ G1 G2) as [c [-> Gc]]. cbn.
    destruct IH as [es [-> [F E]]]; [intros; apply H; now right|]. cbn.
    eexists; split; [reflexivity|]. split; [auto|]. cbn. now rewrite E. }
  destruct (S (list_prod (elems a) (elems b))) as [es [-> [F E]]].
  { intros [x y] H. apply in_prod_iff in H. cbn. destruct H; auto. }
  cbn. eexists; split; [reflexivity|]. cbn. rewrite E, prod_length. auto.
Qed.

Lemma reduce_good gs : forall acc, degree acc = N -> Forall good (elems acc) ->
  Forall (fun g => degree g = N /\ Forall good (elems g)) gs ->
  exists c, reduce_prod acc gs = Ok c /\ degree c = N /\ Forall good (elems c) /\
    length (elems c) = fold_left Nat.mul (map (fun g => length (elems g)) gs) (length (elems acc)).
Proof.
  induction gs as [|g gs IH]; intros acc D F H; cbn; [eauto|].
  inversion H as [|? ? [Dg Fg] H' HE1].
  destruct (group_prod_good acc g D Dg F Fg) as [c [-> [Dc [Fc Lc]]]]. cbn.
  destruct (IH c Dc Fc H') as [c' [E [D' [F' L']]]]. exists c'. rewrite L', Lc. auto.
Qed.

Lemma translation_group_ok axes : axes <> [] -> Forall (fun a => (a < length extent)%nat) axes ->
  exists G, translation_group L axes = Ok G /\ degree G = N /\
    length (elems G) = fold_left Nat.mul (map (n_translations extent pbc) axes) 1%nat /\
    Forall (wf N) (elems G) /\
    forall e, In e (elems G) -> exists s,
      is_translation L s (perm_of N e) /\
      forall i j, (i < N)%nat -> (j < N)%nat ->
        (has_edge L i j <->
         has_edge L (nth i (perm_of N e) 0%nat) (nth j (perm_of N e) 0%nat)).
Proof.
  intros NE F. unfold translation_group.
  assert (S : exists gs, sequence (map (translations_along L) axes) = Ok gs /\
    Forall (fun g => degree g = N /\ Forall good (elems g)) gs /\
    map (fun g => length (elems g)) gs = map (n_translations extent pbc) axes).
  { clear NE. induction F as [|a axes Ha F IH]; cbn; [eexists; repeat split; auto|].
    destruct (along_ok a Ha) as [g [-> [D [Fg Lg]]]]. cbn.
    destruct IH as [gs [-> [Fs Ls]]]. cbn. eexists; split; [reflexivity|].
    split; [auto|]. cbn. now rewrite Lg, Ls. }
  destruct S as [gs [-> [Fs Ls]]]. cbn [bind].
  destruct gs as [|g gs]; [destruct axes; [contradiction|discriminate]|].
  inversion Fs as [|? ? [Dg Fg] Fs' HE1].
  destruct (reduce_good gs g Dg Fg Fs') as [c [E [Dc [Fc Lc]]]].
  exists c. split; [auto|]. split; [auto|]. split.
  - rewrite Lc, <- Ls. cbn. now rewrite Nat.add_0_r.
  - rewrite Forall_forall in Fc. split.
    + rewrite Forall_forall. intros e Hin'. now apply Fc.
    + intros e Hin'. destruct (Fc e Hin') as [_ [W [s T]]]. exists s. split; auto.
      apply (translation_edges s); auto. now apply perm_of_perm.
Qed.
End Trans.

Lemma translations_thm extent pbc :
  length extent = length pbc -> Forall (fun e => 1 <= e) extent ->
  Exists (fun ep => snd ep = true \/ 1 < fst ep) (combine extent pbc) ->
  forall L axes, grid extent pbc = Ok L ->
  axes <> [] -> Forall (fun a => (a < length extent)%nat) axes ->
  exists G, translation_group L axes = Ok G /\ degree G = length (l_sites L) /\
    length (elems G) = fold_left Nat.mul (map (n_translations extent pbc) axes) 1%nat /\
    Forall (wf (degree G)) (elems G) /\
    forall e, In e (elems G) -> exists s,
      is_translation L s (perm_of (degree G) e) /\
      forall i j, (i < degree G)%nat -> (j < degree G)%nat ->
        (has_edge L i j <->
         has_edge L (nth i (perm_of (degree G) e) 0%nat) (nth j (perm_of (degree G) e) 0%nat)).
Proof.
  intros Hl Hpos Hx L axes E NE F.
  destruct (grid_ok extent pbc Hl Hpos Hx) as [L' [E' [A [B [C [D [_ G]]]]]]].
  assert (L' = L) by congruence; subst L'.
  destruct (translation_group_ok extent pbc L Hl Hpos A B C D G axes NE F)
    as [Gr [T1 [T2 [T3 [T4 T5]]]]].
  exists Gr. rewrite T2. auto.
Qed.

(** ** the chain *)
Lemma chain_sites n L : 1 <= n -> StronglySorted lex (l_sites L) ->
  (forall c, In c (l_sites L) <-> in_box [n] c) -> l_sites L = map (fun k => [Z.of_nat k]) (seq 0 (Z.to_nat n)).
Proof.
  intros Hn S H.
  assert (U : forall l1 l2, StronglySorted lex l1 -> StronglySorted lex l2 ->
    (forall c, In c l1 -> length c = 1%nat) ->
    (forall c, In c l1 <-> In c l2) -> l1 = l2).
  { induction l1 as [|a l1 IH]; intros [|b l2] S1 S2 Len E; auto.
    - exfalso. apply (proj2 (E b)). now left.
    - exfalso. apply (proj1 (E a)). now left.
    - inversion S1 as [|? ? S1' F1]; inversion S2 as [|? ? S2' F2]; subst.
      rewrite Forall_forall in F1, F2.
      assert (LT : forall x y, length x = 1%nat -> length y = 1%nat -> lex x y -> lex y x -> False).
      { intros [|x [|]] [|y [|]]; try discriminate. cbn. intros; lia. }
      assert (a = b).
      { assert (Ha : In a (b :: l2)) by (apply E; now left).
        assert (Hb : In b (a :: l1)) by (apply E; now left).
        destruct Ha as [|Ha]; auto. destruct Hb as [|Hb]; auto. exfalso.
        apply (LT a b); auto. - apply Len; now left. - apply Len; now right. }
      subst b. f_equal. apply IH; auto.
      + intros; apply Len; now right.
      + intros c. split; intros Hc.
        * assert (X : In c (a :: l2)) by (apply E; now right).
          destruct X as [<-|]; auto. exfalso. apply (lex_irrefl a); auto.
        * assert (X : In c (a :: l1)) by (apply E; now right).
          destruct X as [<-|]; auto. exfalso. apply (lex_irrefl a); auto. }
  apply U; auto.
  - pose proof (seq_sorted 0 (Z.to_nat n)) as Q.
    induction Q as [|x l Q IH F]; cbn; constructor; auto.
    rewrite Forall_forall in *. intros c Hc. apply in_map_iff in Hc.
    destruct Hc as [y [<- Hy]]. specialize (F y Hy). cbn. left. lia.
  - intros c Hc. apply H in Hc. now apply box_len in Hc.
  - intros c. rewrite H. unfold in_box. split.
    + intros B. inversion B as [|x ? c' ? X1 X2]; subst. inversion X2; subst.
      apply in_map_iff. exists (Z.to_nat x). split; [f_equal; lia|]. apply in_seq. lia.
    + intros I. apply in_map_iff in I. destruct I as [k [<- Hk]]. apply in_seq in Hk.
      constructor; [lia|constructor].
Qed.

Lemma chain_thm n : (1 <= n)%nat ->
  exists L, chain (Z.of_nat n) true = Ok L /\ length (l_sites L) = n /\ NoDup (l_edges L) /\
  forall i j, In (i, j) (l_edges L) <->
    (i < j < n)%nat /\ (j = (i + 1) mod n \/ i = (j + 1) mod n)%nat.
Proof.
  intros Hn. unfold chain.
  destruct (grid_ok [Z.of_nat n] [true]) as [L [E [A [B [C [D [ND G]]]]]]]; auto.
  { constructor; [lia|constructor]. }
  { now left; left. }
  exists L. split; [auto|].
  pose proof (chain_sites (Z.of_nat n) L ltac:(lia) C D) as S. rewrite Nat2Z.id in S.
  assert (LS : length (l_sites L) = n) by now rewrite S, map_length, seq_length.
  split; [auto|]. split; [auto|]. intros i j. rewrite G, LS.
  assert (Nth : forall k, (k < n)%nat -> nth k (l_sites L) [] = [Z.of_nat k]).
  { intros k Hk. rewrite S.
    rewrite (nth_indep _ [] ((fun k => [Z.of_nat k]) 0%nat)) by now rewrite map_length, seq_length.
    rewrite (map_nth (fun k => [Z.of_nat k])). now rewrite seq_nth. }
  assert (St : forall a b, (a < n)%nat -> (b < n)%nat ->
    (step [Z.of_nat n] [true] [Z.of_nat a] [Z.of_nat b] <-> b = (a + 1) mod n)%nat).
  { intros a b Ha Hb. split.
    - intros Q. clear - Q Ha Hb. inversion Q as [? ? ? ? ? ? ? H6|? ? ? ? ? ? ? H6]; subst; [|inversion H6].
      destruct H6 as [H6|[_ [H6 H7]]].
      + rewrite Nat.mod_small; lia.
      + replace (a + 1)%nat with n by lia. rewrite Nat.mod_same; lia.
    - intros Q. apply step_here. destruct (Nat.eq_dec (a + 1) n) as [W|W].
      + right. rewrite W, Nat.mod_same in Q by lia. repeat split; lia.
      + left. rewrite Nat.mod_small in Q by lia. lia. }
  split; intros [H1 H2]; split; auto.
  - rewrite !Nth in H2 by lia. destruct H2 as [H2|H2]; apply St in H2; try lia; auto.
  - rewrite !Nth by lia. destruct H2 as [H2|H2]; [left|right]; apply St; auto; lia.
Qed.
