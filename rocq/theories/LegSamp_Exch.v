(** * Proofs: the exchange of inverse temperatures *)
From Coq Require Import List ZArith Bool Reals Permutation Lra Lia.
From Verif Require Import Base BaseFacts Balance_Spec Balance_Proofs Rules_Model PT_Proofs LegSamp_Model LegSamp_Spec LegSamp_Run LegSamp_Pt.
Import ListNotations.
Open Scope nat_scope.

(** ** Weights *)
Lemma joint_ratio p lv beta beta' a b : a < length beta -> b < length beta -> a <> b ->
  exchanged a b beta beta' ->
  (joint p lv beta' / joint p lv beta = exp (p * (nth b beta 0 - nth a beta 0) * (nth a lv 0 - nth b lv 0)))%R.
Proof.
  intros Ha Hb Hab (H1 & H2 & H3 & H4). unfold joint. rewrite H1.
  set (n := length beta) in *. set (d := (nth b beta 0 - nth a beta 0)%R).
  assert (E : rsum (fun i => p * nth i beta' 0 * nth i lv 0)%R (seq 0 n) =
    (rsum (fun i => p * nth i beta 0 * nth i lv 0)%R (seq 0 n) + p * d * (nth a lv 0 - nth b lv 0))%R).
  { rewrite (rsum_ext _ (fun i => (p * nth i beta 0 * nth i lv 0) +
      ((if Nat.eq_dec i a then 1 else 0) * (p * d * nth i lv 0) + (if Nat.eq_dec i b then 1 else 0) * (- (p * d * nth i lv 0))))%R).
    - rewrite !rsum_plus.
      assert (D : forall (f : nat -> R) z l, NoDup l -> In z l -> rsum (fun i => (if Nat.eq_dec i z then 1 else 0) * f i)%R l = f z).
      { induction l as [|x l IH]; intros Hnd Hin; [destruct Hin|]. inversion Hnd as [|? ? N1 N2]; subst. cbn [rsum].
        destruct (Nat.eq_dec x z) as [->|Hne].
        - rewrite rsum_zero; [ring|]. intros y Hy. destruct (Nat.eq_dec y z) as [->|]; [contradiction|ring].
        - destruct Hin as [->|Hin]; [congruence|]. rewrite IH by assumption. ring. }
      rewrite (D (fun i => p * d * nth i lv 0)%R), (D (fun i => - (p * d * nth i lv 0))%R)
        by (try apply seq_NoDup; apply in_seq; lia). ring.
    - intros i Hi. destruct (Nat.eq_dec i a) as [->|N1].
      + destruct (Nat.eq_dec a b) as [|_]; [congruence|]. rewrite H2. unfold d. ring.
      + destruct (Nat.eq_dec i b) as [->|N2]; [rewrite H3; unfold d; ring|]. rewrite H4 by assumption. ring. }
  rewrite E, exp_plus. field. pose proof (exp_pos (rsum (fun i => p * nth i beta 0 * nth i lv 0)%R (seq 0 n))). lra.
Qed.

(** ** Disjoint pairs *)
Section Pairs.
  Context {Gen : Type}.
  Variable unif : Gen -> Gen * R.
  Variable n : nat.
  Notation pr i := ((i + 1) mod n).

  Definition apart (i : nat) (L : list nat) : Prop :=
    forall j, In j L -> i <> j /\ i <> pr j /\ pr i <> j /\ pr i <> pr j.
  Fixpoint disjoint_pairs (L : list nat) : Prop :=
    match L with
    | [] => True
    | i :: L => i < n /\ i <> pr i /\ apart i L /\ disjoint_pairs L
    end.

  Lemma propose_nth beta : forall L prop, disjoint_pairs L -> length prop = n -> 
    let prop' := fold_left (fun prop i => upd (upd prop i (nth (pr i) beta 0%R)) (pr i) (nth i beta 0%R)) L prop in
    (forall i, In i L -> nth i prop' 0%R = nth (pr i) beta 0%R /\ nth (pr i) prop' 0%R = nth i beta 0%R) /\
    (forall j, (forall i, In i L -> j <> i /\ j <> pr i) -> nth j prop' 0%R = nth j prop 0%R).
  Proof.
    induction L as [|i L IH]; intros prop HD Hl; [split; [intros ? []|reflexivity]|].
    destruct HD as (Hi & Hne & Hap & HD). cbn [fold_left].
    assert (Hj : pr i < n) by (apply Nat.mod_upper_bound; lia).
    set (p1 := upd (upd prop i (nth (pr i) beta 0%R)) (pr i) (nth i beta 0%R)).
    assert (L1 : length p1 = n) by (unfold p1; rewrite !upd_length; exact Hl).
    destruct (IH p1 HD L1) as [I1 I2]. cbn zeta. split.
    - intros j [<-|Hin]; [|apply I1, Hin]. split.
      + rewrite I2 by (intros k Hk; destruct (Hap k Hk) as (A1 & A2 & A3 & A4); split; assumption).
        unfold p1. rewrite nth_upd_other by congruence. apply nth_upd_same. lia.
      + rewrite I2 by (intros k Hk; destruct (Hap k Hk) as (A1 & A2 & A3 & A4); split; assumption).
        unfold p1. apply nth_upd_same. rewrite upd_length. lia.
    - intros j Hj2. rewrite I2 by (intros k Hk; apply Hj2; right; exact Hk).
      destruct (Hj2 i (or_introl eq_refl)) as [A B]. unfold p1. rewrite !nth_upd_other by congruence. reflexivity.
  Qed.

  Lemma pairs_main : forall L (x : xst Gen), disjoint_pairs L ->
    length (x_beta x) = n -> length (x_prob x) = n ->
    let us := draws unif (length L) (x_gen x) in
    let x' := fold_left (swap_pair unif n) L x in
    exists ds, length ds = length L /\
      (forall q, q < length L ->
         let i := nth q L 0 in
         (nth q ds false = true <-> (nth q us 0 < nth i (x_prob x) 0 * nth (pr i) (x_prob x) 0)%R) /\
         nth i (x_beta x') 0%R = (if nth q ds false then nth (pr i) (x_beta x) 0%R else nth i (x_beta x) 0%R) /\
         nth (pr i) (x_beta x') 0%R = (if nth q ds false then nth i (x_beta x) 0%R else nth (pr i) (x_beta x) 0%R)) /\
      (forall j, (forall i, In i L -> j <> i /\ j <> pr i) -> nth j (x_beta x') 0%R = nth j (x_beta x) 0%R).
  Proof.
    induction L as [|i L IH]; intros x HD Hb Hp; [exists []; split; [reflexivity|]; split; [cbn; intros q Hq; lia|reflexivity]|].
    destruct HD as (Hi & Hne & Hap & HD). cbn [fold_left length draws].
    assert (Hj : pr i < n) by (apply Nat.mod_upper_bound; lia).
    set (t := (nth i (x_prob x) 0 * nth (pr i) (x_prob x) 0)%R).
    destruct (unif (x_gen x)) as [g u] eqn:Eu.
    set (d := if Rlt_dec u t then true else false).
    set (x1 := swap_pair unif n x i).
    assert (F : x_gen x1 = g /\ x_prob x1 = upd (x_prob x) i t /\
                x_beta x1 = if d then swap2 0%R i (pr i) (x_beta x) else x_beta x).
    { unfold x1, swap_pair, d. rewrite Eu, nth_upd_same by lia. fold t.
      destruct (Rlt_dec u t); repeat split. }
    destruct F as (F1 & F2 & F3).
    assert (F4 : length (x_beta x1) = n) by (rewrite F3; destruct d; rewrite ?swap2_length; exact Hb).
    destruct (IH x1 HD F4) as (ds & D1 & D2 & D3); [rewrite F2, upd_length; exact Hp|].
    rewrite F1 in D2. cbn zeta in *.
    assert (Hk : forall j, j <> i -> j <> pr i -> nth j (x_beta x1) 0%R = nth j (x_beta x) 0%R).
    { intros j N1 N2. rewrite F3. destruct d; [|reflexivity]. rewrite swap2_nth by lia.
      destruct (Nat.eqb_spec j (pr i)); [congruence|]. destruct (Nat.eqb_spec j i); [congruence|reflexivity]. }
    assert (Ki : nth i (x_beta x1) 0%R = if d then nth (pr i) (x_beta x) 0%R else nth i (x_beta x) 0%R).
    { rewrite F3. destruct d; [|reflexivity]. rewrite swap2_nth by lia.
      destruct (Nat.eqb_spec i (pr i)); [congruence|]. rewrite Nat.eqb_refl. reflexivity. }
    assert (Kj : nth (pr i) (x_beta x1) 0%R = if d then nth i (x_beta x) 0%R else nth (pr i) (x_beta x) 0%R).
    { rewrite F3. destruct d; [|reflexivity]. rewrite swap2_nth by lia. rewrite Nat.eqb_refl. reflexivity. }
    exists (d :: ds). split; [cbn; lia|]. split.
    - intros [|q] Hq.
      + cbn [nth]. split; [unfold d; destruct (Rlt_dec u t); split; auto; try discriminate; intros; contradiction|].
        rewrite (D3 i), (D3 (pr i)) by (intros k Hk2; destruct (Hap k Hk2) as (A1 & A2 & A3 & A4); split; assumption).
        rewrite Ki, Kj. split; reflexivity.
      + cbn [nth]. specialize (D2 q ltac:(cbn in Hq; lia)).
        assert (Hin : In (nth q L 0) L) by (apply nth_In; cbn in Hq; lia).
        destruct (Hap _ Hin) as (A1 & A2 & A3 & A4). destruct D2 as (D2 & D4 & D5).
        rewrite D4, D5. rewrite F2, !nth_upd_other in D2 by congruence.
        rewrite !Hk by congruence. split; [exact D2|]. split; reflexivity.
    - intros j Hj2. rewrite D3 by (intros k Hk2; apply Hj2; right; exact Hk2).
      destruct (Hj2 i (or_introl eq_refl)). apply Hk; assumption.
  Qed.
End Pairs.

Lemma range_disjoint k o : 0 < k -> o < 2 -> forall m q, q + m <= k ->
  disjoint_pairs (2 * k) (map (fun k => o + 2 * k) (seq q m)).
Proof.
  intros Hk Ho. 
  assert (V : forall r, r < k -> (o + 2 * r + 1) mod (2 * k) = (if o + 2 * r + 1 =? 2 * k then 0 else o + 2 * r + 1)).
  { intros r Hr. destruct (Nat.eqb_spec (o + 2 * r + 1) (2 * k)) as [E|E]; [rewrite E; apply Nat.mod_same; lia|].
    apply Nat.mod_small. lia. }
  induction m as [|m IH]; intros q Hq; [exact I|]. cbn [seq map disjoint_pairs].
  rewrite (V q) by lia. split; [lia|]. split; [destruct (Nat.eqb_spec (o + 2 * q + 1) (2 * k)); lia|].
  split; [|apply IH; lia]. intros j Hj. apply in_map_iff in Hj. destruct Hj as (r & <- & Hr). apply in_seq in Hr.
  rewrite (V r) by lia. rewrite (V q) by lia.
  destruct (Nat.eqb_spec (o + 2 * q + 1) (2 * k)), (Nat.eqb_spec (o + 2 * r + 1) (2 * k)); lia.
Qed.

Lemma range_even k o : o < 2 -> swap_range (2 * k) o = map (fun q => o + 2 * q) (seq 0 k).
Proof.
  intros Ho. unfold swap_range. replace ((2 * k + 1 - o) / 2) with k; [reflexivity|].
  destruct o as [|[|o]]; [|destruct k; [reflexivity|]|lia].
  - replace (2 * k + 1 - 0) with (1 + k * 2) by lia. rewrite Nat.div_add by lia. reflexivity.
  - replace (2 * S k + 1 - 1) with (S k * 2) by lia. rewrite Nat.div_mul by lia. reflexivity.
Qed.

Section Exchange.
  Context {Par Gen : Type}.
  Variable unif : Gen -> Gen * R.
  Variable rint2 : Gen -> Gen * bool.

  Lemma exchange_main k (s : ptm Par Gen) : 0 < k ->
    length (t_beta s) = 2 * k -> length (t_prop s) = 2 * k ->
    let '(g, o) := rint2 (t_gen s) in
    let us := draws unif k g in
    let s' := exchange_step unif rint2 s in
    exists ds, length ds = k /\
      forall q, q < k ->
        let a := (if o then 1 else 0) + 2 * q in
        let b := (a + 1) mod (2 * k) in
        (forall beta', exchanged a b (t_beta s) beta' ->
           (nth q ds false = true <->
            (nth q us 0 < joint (t_pow s) (t_lv s) beta' / joint (t_pow s) (t_lv s) (t_beta s))%R)) /\
        nth a (t_beta s') 0%R = (if nth q ds false then nth b (t_beta s) 0%R else nth a (t_beta s) 0%R) /\
        nth b (t_beta s') 0%R = (if nth q ds false then nth a (t_beta s) 0%R else nth b (t_beta s) 0%R).
  Proof.
    intros Hk Hb Hp. unfold exchange_step. destruct (rint2 (t_gen s)) as [g o]. cbn zeta.
    rewrite Hb. set (od := if o then 1 else 0). assert (Ho : od < 2) by (unfold od; destruct o; lia).
    set (prop := propose (2 * k) od (t_beta s) (t_prop s)).
    set (x0 := Xst _ _ _ _ _). set (L := swap_range (2 * k) od).
    assert (EL : L = map (fun q => od + 2 * q) (seq 0 k)) by (apply range_even, Ho).
    assert (HL : length L = k) by (rewrite EL, map_length, seq_length; reflexivity).
    assert (HD : disjoint_pairs (2 * k) L) by (rewrite EL; apply range_disjoint; lia).
    assert (Hnth : forall q, q < k -> nth q L 0 = od + 2 * q)
      by (intros q Hq; rewrite EL; apply (nth_map_seq (fun q => od + 2 * q) k q 0 Hq)).
    destruct (pairs_main unif (2 * k) L x0 HD) as (ds & D1 & D2 & _).
    { exact Hb. }
    { cbn [x_prob x0]. unfold x0; cbn [x_prob]. unfold exch_prob. rewrite map_length, seq_length. exact Hb. }
    unfold position_stats. cbn [t_beta]. rewrite HL in D1, D2. exists ds. split; [exact D1|].
    intros q Hq. specialize (D2 q Hq). cbn zeta in D2. rewrite (Hnth q Hq) in D2.
    set (a := od + 2 * q) in *. set (b := (a + 1) mod (2 * k)) in *.
    assert (Ha : a < 2 * k) by (unfold a; lia).
    assert (Hb2 : b < 2 * k) by (unfold b; apply Nat.mod_upper_bound; lia).
    destruct D2 as (D2 & D3 & D4). split; [|split; assumption].
    intros beta' Hex. rewrite D2. unfold x0; cbn [x_gen x_prob].
    assert (Hin : In a L) by (rewrite EL; apply in_map_iff; exists q; split; [reflexivity|apply in_seq; lia]).
    destruct (propose_nth (2 * k) (t_beta s) L (t_prop s) HD Hp) as [P1 _].
    destruct (P1 a Hin) as [P2 P3]. fold b in P2, P3.
    assert (Hab : a <> b).
    { clear -HD Hin. revert Hin. unfold b. induction L as [|i L IH]; intros Hin; [destruct Hin|].
      destruct HD as (_ & H1 & _ & H2). destruct Hin as [->|Hin]; [exact H1|apply IH; assumption]. }
    rewrite (joint_ratio (t_pow s) (t_lv s) (t_beta s) beta' a b) by (assumption || lia).
    unfold exch_prob. rewrite Hb.
    rewrite !(nth_map_seq (fun i => exp (t_pow s * (nth i prop 0 - nth i (t_beta s) 0) * nth i (t_lv s) 0)%R) (2 * k)) by assumption.
    assert (Q2 : nth a prop 0%R = nth b (t_beta s) 0%R) by exact P2.
    assert (Q3 : nth b prop 0%R = nth a (t_beta s) 0%R) by exact P3.
    rewrite Q2, Q3, <- exp_plus.
    match goal with |- (_ < exp ?u)%R <-> (_ < exp ?v)%R => replace u with v by ring end. reflexivity.
  Qed.
End Exchange.
