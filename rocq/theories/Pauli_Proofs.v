(** * Proofs about Pauli strings *)
From Coq Require Import ZArith List Bool Lia Ring.
From Verif Require Import Base BaseFacts Scalar LocalOp_Spec LocalOp_Model LocalOp_Facts LocalOp_Build LocalOp_Laws LocalOp_Proofs
  Special_Model Special_Proofs Special_Bose Special_Final Pauli_Model Pauli_Spec.
Import ListNotations.

Lemma NoDup_app_intro' {A} (a b : list A) : NoDup a -> NoDup b ->
  (forall x, In x a -> In x b -> False) -> NoDup (a ++ b).
Proof.
  induction a as [|x a IH]; intros Ha Hb H; cbn [app]; auto. inversion Ha; subst. constructor.
  - rewrite in_app_iff. intros [C|C]; [auto|]. apply (H x); [left|]; auto.
  - apply IH; auto. intros y Hy1 Hy2. apply (H y); [right|]; auto.
Qed.

Section P.
Variable S : scalars.
Hypothesis L : scalar_laws S.
Variable im : K S.
Notation K := (K S).
Notation "0" := (k0 S).
Notation "1" := (k1 S).
Infix "+" := (kadd S).
Infix "*" := (kmul S).
Notation "- x" := (kopp S x).
Add Ring Kring : (k_ring S L).

Lemma q_length n : length (qubits n) = n.
Proof. apply repeat_length. Qed.
Lemma q_nth n i : (i < n)%nat -> nth i (qubits n) [] = [0%Z; 1%Z].
Proof. intros H. apply (repeat_spec n [0%Z; 1%Z]). apply nth_In. rewrite repeat_length; auto. Qed.
Lemma q_iff n x : configuration (qubits n) x <-> length x = n /\ Forall (fun v => v = 0%Z \/ v = 1%Z) x.
Proof.
  rewrite configuration_iff, q_length. split; intros [H1 H2]; (split; [auto|]).
  - apply Forall_forall. intros v Hv. destruct (In_nth _ _ 0%Z Hv) as (i & Hi & <-).
    assert (Hi' : (i < n)%nat) by lia. specialize (H2 i Hi'). rewrite q_nth in H2 by auto.
    cbn [In] in H2. destruct H2 as [E|[E|[]]]; auto.
  - intros i Hi. rewrite q_nth by auto. rewrite Forall_forall in H2. cbn [In].
    destruct (H2 (nth i x 0%Z)); auto. apply nth_In. lia.
Qed.

(** *** positions *)
Definition fcf (k : nat) (s : list letter) (ch : letter) : list nat :=
  map fst (filter (fun p => letter_eqb (snd p) ch) (combine (seq k (length s)) s)).

Lemma fcf_cons k p s ch : fcf k (p :: s) ch = (if letter_eqb p ch then [k] else []) ++ fcf (Datatypes.S k) s ch.
Proof. unfold fcf. cbn [length seq combine filter snd]. destruct (letter_eqb p ch); reflexivity. Qed.

Lemma fcf_ge k s ch i : In i (fcf k s ch) -> (k <= i < k + length s)%nat.
Proof.
  revert k. induction s as [|p s IH]; intros k; [intros []|]. rewrite fcf_cons, in_app_iff. cbn [length].
  intros [H|H]; [destruct (letter_eqb p ch); [destruct H as [<-|[]]; lia|destruct H]|]. apply IH in H. lia.
Qed.

Lemma letter_eqb_eq a b : letter_eqb a b = true <-> a = b.
Proof. destruct a, b; cbn; split; congruence. Qed.

Lemma fcf_in k s ch i : In i (fcf k s ch) <-> (k <= i)%nat /\ nth_error s (i - k) = Some ch.
Proof.
  revert k. induction s as [|p s IH]; intros k.
  - cbn. split; [tauto|]. intros [_ H]. destruct (i - k)%nat; discriminate.
  - rewrite fcf_cons, in_app_iff, IH. split.
    + intros [H|[H1 H2]].
      * destruct (letter_eqb p ch) eqn:E; [|destruct H]. destruct H as [<-|[]]. apply letter_eqb_eq in E. subst.
        rewrite Nat.sub_diag. cbn. auto.
      * split; [lia|]. replace (i - k)%nat with (Datatypes.S (i - Datatypes.S k)) by lia. exact H2.
    + intros [H1 H2]. destruct (Nat.eq_dec i k) as [->|Hn].
      * left. rewrite Nat.sub_diag in H2. cbn in H2. injection H2 as ->.
        rewrite (proj2 (letter_eqb_eq ch ch)) by auto. left; auto.
      * right. split; [lia|]. replace (i - k)%nat with (Datatypes.S (i - Datatypes.S k)) in H2 by lia. exact H2.
Qed.

Lemma fcf_nodup k s ch : NoDup (fcf k s ch).
Proof.
  revert k. induction s as [|p s IH]; intros k; [constructor|]. rewrite fcf_cons.
  destruct (letter_eqb p ch); cbn [app]; auto. constructor; auto. intros H. apply fcf_ge in H. lia.
Qed.

(** *** flipping *)
Lemma flip_length sites x : length (flip_sites sites x) = length x.
Proof. unfold flip_sites. revert x. induction sites as [|s l IH]; intros x; cbn [fold_left]; auto. rewrite IH, upd_length. auto. Qed.

Lemma flip_nth sites : forall x i, NoDup sites -> (forall s, In s sites -> (s < length x)%nat) ->
  nth i (flip_sites sites x) 0%Z = if nat_mem i sites then (1 - nth i x 0)%Z else nth i x 0%Z.
Proof.
  unfold flip_sites. induction sites as [|s l IH]; intros x i HN HB; cbn [fold_left].
  - reflexivity.
  - inversion HN as [|? ? H1 H2]; subst. rewrite IH; auto.
    + unfold nat_mem. cbn [existsb]. fold (nat_mem i l). destruct (Nat.eqb_spec i s) as [->|Hn]; cbn [orb].
      * rewrite (proj2 (nat_mem_false s l)) by auto. rewrite nth_upd_same; auto. apply HB; left; auto.
      * rewrite nth_upd_other by auto. reflexivity.
    + intros t Ht. rewrite upd_length. apply HB; right; auto.
Qed.

Definition flips (p : letter) : bool := match p with LX | LY => true | _ => false end.

Definition counted (p : letter) : bool := match p with LZ | LY => true | _ => false end.

Fixpoint flip_string (op : list letter) (x : list Z) : list Z :=
  match op, x with p :: op, a :: x => (if flips p then (1 - a)%Z else a) :: flip_string op x | _, _ => [] end.
Fixpoint phase (op : list letter) (x : list Z) : nat :=
  match op, x with
  | p :: op, a :: x => ((if counted p && Z.eqb a 1 then 1 else 0) + phase op x)%nat
  | _, _ => O
  end.
Fixpoint ycount (op : list letter) : nat :=
  match op with p :: op => ((if letter_eqb p LY then 1 else 0) + ycount op)%nat | [] => O end.

Lemma flip_string_nth op : forall x i, length op = length x ->
  nth i (flip_string op x) 0%Z =
  match nth_error op i with Some p => if flips p then (1 - nth i x 0)%Z else nth i x 0%Z | None => 0%Z end.
Proof.
  induction op as [|p op IH]; intros [|a x] i H; try discriminate; [destruct i; reflexivity|].
  destruct i as [|i]; cbn [flip_string nth nth_error]; [destruct (flips p); reflexivity|].
  apply IH. cbn in H. congruence.
Qed.

Lemma flip_string_length op : forall x, length op = length x -> length (flip_string op x) = length x.
Proof. induction op as [|p op IH]; intros [|a x] H; cbn in *; try discriminate; auto. Qed.

Lemma flip_eq op x : length op = length x -> flip_sites (find_char op LX ++ find_char op LY) x = flip_string op x.
Proof.
  intros E. change (find_char op) with (fcf 0 op).
  assert (HN : NoDup (fcf 0 op LX ++ fcf 0 op LY)).
  { apply NoDup_app_intro'; try apply fcf_nodup. intros i H1 H2. apply fcf_in in H1. apply fcf_in in H2.
    destruct H1 as [_ H1], H2 as [_ H2]. congruence. }
  assert (HB : forall s, In s (fcf 0 op LX ++ fcf 0 op LY) -> (s < length x)%nat).
  { intros s Hs. rewrite in_app_iff in Hs. destruct Hs as [Hs|Hs]; apply fcf_ge in Hs; lia. }
  apply nth_ext_Z; [rewrite flip_length, flip_string_length; auto|].
  intros i Hi. rewrite flip_length in Hi. rewrite flip_nth, flip_string_nth by auto.
  destruct (nth_error op i) as [p|] eqn:Ep.
  - destruct (nat_mem i (fcf 0 op LX ++ fcf 0 op LY)) eqn:Em.
    + apply nat_mem_in in Em. rewrite in_app_iff, !fcf_in, Nat.sub_0_r in Em.
      destruct Em as [[_ Em]|[_ Em]]; rewrite Ep in Em; injection Em as ->; reflexivity.
    + apply nat_mem_false in Em. rewrite in_app_iff, !fcf_in, Nat.sub_0_r in Em.
      destruct p; cbn [flips]; auto; exfalso; apply Em; [left|right]; split; auto; lia.
  - exfalso. apply nth_error_None in Ep. lia.
Qed.

Lemma count_fcf k op ch pre x : length pre = k -> length op = length x ->
  length (filter (fun i => Z.eqb (nth i (pre ++ x) 0%Z) 1) (fcf k op ch)) =
  length (filter (fun p => letter_eqb (fst p) ch && Z.eqb (snd p) 1) (combine op x)).
Proof.
  revert k pre x. induction op as [|p op IH]; intros k pre [|a x] E1 E2; try discriminate; [reflexivity|].
  rewrite fcf_cons, filter_app, app_length. cbn [combine filter fst snd].
  assert (E3 : pre ++ a :: x = (pre ++ [a]) ++ x) by (rewrite <- app_assoc; reflexivity).
  rewrite E3. rewrite (IH (Datatypes.S k) (pre ++ [a]) x); [|rewrite app_length; cbn; lia|cbn in E2; congruence].
  destruct (letter_eqb p ch); cbn [app filter andb]; [|reflexivity].
  rewrite <- E3, app_nth2 by lia. rewrite E1, Nat.sub_diag. cbn [nth].
  destruct (a =? 1)%Z; reflexivity.
Qed.

Lemma phase_eq op x : length op = length x ->
  length (filter (fun i => Z.eqb (nth i x 0%Z) 1) (find_char op LY ++ find_char op LZ)) = phase op x.
Proof.
  intros E. change (find_char op) with (fcf 0 op). rewrite filter_app, app_length.
  pose proof (count_fcf 0 op LY [] x eq_refl E) as E1. pose proof (count_fcf 0 op LZ [] x eq_refl E) as E2.
  cbn [app] in E1, E2. rewrite E1, E2. clear E1 E2.
  revert x E. induction op as [|p op IH]; intros [|a x] E; try discriminate; [reflexivity|].
  cbn in E. injection E as E. specialize (IH x E). cbn [combine filter fst snd phase].
  destruct p; cbn [letter_eqb counted andb]; try exact IH; destruct (a =? 1)%Z; cbn [length]; lia.
Qed.

Lemma ycount_eq k op : length (fcf k op LY) = ycount op.
Proof.
  revert k. induction op as [|p op IH]; intros k; [reflexivity|]. rewrite fcf_cons, app_length, IH.
  cbn [ycount]. destruct (letter_eqb p LY); reflexivity.
Qed.

Lemma kpow_add a m n : kpow S a (m + n) = kpow S a m * kpow S a n.
Proof. induction m as [|m IH]; cbn [kpow Nat.add]; [ring|]. rewrite IH. ring. Qed.

Lemma string_value op : forall x y, ~ In Other op ->
  configuration (qubits (length op)) x -> configuration (qubits (length op)) y ->
  string_element S im op x y =
  (if zlist_eqb (flip_string op x) y then kpow S (- im) (ycount op) * kpow S (- (1)) (phase op x) else 0).
Proof.
  induction op as [|p op IH]; intros x y HO Hx Hy.
  - apply q_iff in Hx. apply q_iff in Hy. destruct x, y; cbn in *; try (destruct Hx, Hy; discriminate). ring.
  - destruct x as [|a x]; [apply q_iff in Hx; destruct Hx; discriminate|].
    destruct y as [|b y]; [apply q_iff in Hy; destruct Hy; discriminate|].
    inversion Hx as [|? ? ? ? Ha Hx']; subst. inversion Hy as [|? ? ? ? Hb Hy']; subst.
    cbn [string_element flip_string ycount phase].
    rewrite IH by (auto; intros C; apply HO; right; auto).
    change (zlist_eqb ((if flips p then (1 - a)%Z else a) :: flip_string op x) (b :: y))
      with (Z.eqb (if flips p then (1 - a)%Z else a) b && zlist_eqb (flip_string op x) y).
    rewrite !kpow_add.
    destruct (zlist_eqb (flip_string op x) y); [|rewrite andb_false_r; ring].
    rewrite andb_true_r.
    assert (HpO : p <> Other) by (intros ->; apply HO; left; auto).
    cbn [In] in Ha, Hb.
    destruct Ha as [<-|[<-|[]]]; destruct Hb as [<-|[<-|[]]]; destruct p; try congruence;
      cbn [flips letter_eqb counted andb]; try (change (Z.to_nat 1) with 1%nat);
      try (change (Z.to_nat 0) with 0%nat); cbn; ring.
Qed.

(** *** the dictionary *)
Definition dict_sum (F : list nat -> entryt S -> K) (acting : list (list nat * list (entryt S))) : K :=
  sum S (map (fun kv => sum S (map (F (fst kv)) (snd kv))) acting).

Lemma sum_c a l : sum S (a :: l) = a + sum S l.
Proof. reflexivity. Qed.

Lemma append_sum F acting key v : dict_sum F (append S acting key v) = dict_sum F acting + F key v.
Proof.
  unfold dict_sum. induction acting as [|[k vs] l IH]; cbn [append map fst snd].
  - cbn. ring.
  - destruct (natlist_eqb k key) eqn:E; cbn [map fst snd]; rewrite !sum_c.
    + apply natlist_eqb_eq in E. subst k. rewrite map_app, (sum_app S L). cbn [map]. rewrite sum_c.
      change (sum S []) with 0. ring.
    + rewrite IH. ring.
Qed.

Definition built (terms : list (list letter * K)) : list (list nat * list (entryt S)) :=
  fold_left (fun acting p => let kv := string_entry S im (fst p) (snd p) in append S acting (fst kv) (snd kv)) terms [].

Lemma built_sum F terms :
  dict_sum F (built terms) =
  sum S (map (fun t => F (fst (string_entry S im (fst t) (snd t))) (snd (string_entry S im (fst t) (snd t)))) terms).
Proof.
  unfold built. enough (H : forall acting, dict_sum F (fold_left (fun acting p => let kv := string_entry S im (fst p) (snd p) in append S acting (fst kv) (snd kv)) terms acting) =
    dict_sum F acting + sum S (map (fun t => F (fst (string_entry S im (fst t) (snd t))) (snd (string_entry S im (fst t) (snd t)))) terms)).
  { rewrite H. change (dict_sum F []) with 0. ring. }
  induction terms as [|t l IH]; intros acting; cbn [fold_left map]; [change (sum S []) with 0; ring|].
  rewrite IH. cbv zeta. rewrite append_sum, sum_c. ring.
Qed.

(** keys are key lists of strings *)
Lemma append_keys (P : list nat -> Prop) acting key v : P key ->
  Forall (fun kv => P (fst kv)) acting -> Forall (fun kv => P (fst kv)) (append S acting key v).
Proof.
  intros Hk. induction acting as [|[k vs] l IH]; intros H; cbn [append]; [constructor; auto|].
  inversion H; subst. destruct (natlist_eqb k key); constructor; auto.
Qed.

Definition good_key (n : nat) (key : list nat) : Prop := NoDup key /\ forall s, In s key -> (s < n)%nat.

Lemma string_key n op w : length op = n -> good_key n (fst (string_entry S im op w)).
Proof.
  intros E. unfold string_entry. cbn [fst]. change (find_char op) with (fcf 0 op). split.
  - apply NoDup_app_intro'; try apply fcf_nodup. intros i H1 H2. apply fcf_in in H1. apply fcf_in in H2.
    destruct H1 as [_ H1], H2 as [_ H2]. congruence.
  - intros s Hs. rewrite in_app_iff in Hs. destruct Hs as [Hs|Hs]; apply fcf_ge in Hs; lia.
Qed.

Lemma built_keys n terms : Forall (fun t => length (fst t) = n) terms ->
  Forall (fun kv => good_key n (fst kv)) (built terms).
Proof.
  unfold built. intros H. assert (HA : Forall (fun kv : list nat * list (entryt S) => good_key n (fst kv)) []) by constructor.
  revert HA. generalize (@nil (list nat * list (entryt S))). induction H as [|t l H1 H2 IH]; intros acting HA; cbn [fold_left]; auto.
  apply IH. apply append_keys with (P := good_key n); auto. apply string_key; auto.
Qed.

(** *** the row *)
Lemma pauli_mel_sum x vs : pauli_mel S x vs =
  sum S (map (fun v => fst v * kpow S (- (1)) (length (filter (fun i => Z.eqb (nth i x 0%Z) 1) (snd v)))) vs).
Proof. unfold pauli_mel. rewrite (fold_add S L). ring. Qed.

Lemma term_value op w x y : ~ In Other op ->
  configuration (qubits (length op)) x -> configuration (qubits (length op)) y ->
  (let kv := string_entry S im op w in
   if zlist_eqb (flip_sites (fst kv) x) y
   then fst (snd kv) * kpow S (- (1)) (length (filter (fun i => Z.eqb (nth i x 0%Z) 1) (snd (snd kv)))) else 0) =
  w * string_element S im op x y.
Proof.
  intros HO Hx Hy. rewrite string_value by auto. apply q_iff in Hx. destruct Hx as [Lx _].
  unfold string_entry. cbv zeta. cbn [fst snd].
  rewrite flip_eq, phase_eq by auto. rewrite <- (ycount_eq 0 op). change (fcf 0 op) with (find_char op).
  destruct (zlist_eqb (flip_string op x) y); [|ring].
  destruct (find_char op LY); cbn [length kpow]; ring.
Qed.

Lemma pauli_row_len o x : (length (pauli_row S o x) <= length (ps_acting S o))%nat.
Proof.
  unfold pauli_row. induction (ps_acting S o) as [|kv l IH]; cbn [flat_map length]; [lia|].
  rewrite app_length. cbv zeta. destruct (kbig S _); cbn [length]; lia.
Qed.

Lemma pauli_row_ok (NS : no_small S) n h terms x :
  Forall (fun t => length (fst t) = n /\ ~ In Other (fst t)) terms ->
  configuration (qubits n) x ->
  is_row S (qubits n) (strings_element S im terms x) (pauli_row S (mkPauli S n (built terms) h) x) /\
  (forall p, In p (pauli_row S (mkPauli S n (built terms) h) x) -> kbig S (snd p) = true) /\
  (length (pauli_row S (mkPauli S n (built terms) h) x) <= length (built terms))%nat.
Proof.
  intros HT Hx. split; [split|split].
  - intros p Hp. apply in_flat_map in Hp. destruct Hp as (kv & Hin & Hp). cbv zeta in Hp.
    destruct (kbig S _) in Hp; [|destruct Hp]. destruct Hp as [<-|[]]. cbn [fst].
    assert (HK : good_key n (fst kv)).
    { assert (HT' : Forall (fun t : list letter * K => length (fst t) = n) terms)
        by (eapply Forall_impl; [|exact HT]; cbn; tauto).
      pose proof (built_keys n terms HT') as HK. rewrite Forall_forall in HK. apply HK; auto. }
    destruct HK as [HN HB]. apply q_iff in Hx. destruct Hx as [Lx Bx]. apply q_iff.
    rewrite flip_length. split; auto. apply Forall_forall. intros v Hv.
    destruct (In_nth _ _ 0%Z Hv) as (i & Hi & <-). rewrite flip_length in Hi.
    rewrite flip_nth by (auto; intros s Hs; rewrite Lx; auto). rewrite Forall_forall in Bx.
    destruct (Bx (nth i x 0%Z) (nth_In _ _ Hi)) as [->| ->]; destruct (nat_mem i (fst kv)); auto.
  - intros y Hy. unfold pauli_row. cbn [ps_acting]. rewrite (weight_flat_map S L).
    rewrite (sum_ext S _ (fun kv : list nat * list (entryt S) => sum S (map (fun v : entryt S => if zlist_eqb (flip_sites (fst kv) x) y
       then fst v * kpow S (- (1)) (length (filter (fun i => Z.eqb (nth i x 0%Z) 1) (snd v))) else 0) (snd kv)))).
    2:{ intros kv _. cbv zeta. match goal with |- context [if kbig S ?m then _ else _] => destruct (kbig S m) eqn:E end.
        - rewrite weight_cons. cbn [fst snd]. change (weight S [] y) with 0.
          destruct (zlist_eqb (flip_sites (fst kv) x) y).
          + rewrite pauli_mel_sum. assert (A0 : forall a, a + 0 = a) by (intros; ring). apply A0.
          + rewrite (sum_zero S L) by auto. ring.
        - assert (E0 : pauli_mel S x (snd kv) = 0) by (apply NS; auto).
          change (weight S [] y) with 0. rewrite pauli_mel_sum in E0.
          destruct (zlist_eqb (flip_sites (fst kv) x) y); [symmetry; exact E0|]. symmetry. apply (sum_zero S L). auto. }
    pose proof (built_sum (fun key v => if zlist_eqb (flip_sites key x) y
       then fst v * kpow S (- (1)) (length (filter (fun i => Z.eqb (nth i x 0%Z) 1) (snd v))) else 0) terms) as HB.
    unfold dict_sum in HB. rewrite HB. unfold strings_element. apply (sum_ext S). intros t Ht.
    rewrite Forall_forall in HT. destruct (HT t Ht) as [H1 H2]. subst n.
    pose proof (term_value (fst t) (snd t) x y H2 Hx Hy) as HV. cbv zeta in HV. exact HV.
  - intros p Hp. apply in_flat_map in Hp. destruct Hp as (kv & Hin & Hp). cbv zeta in Hp.
    destruct (kbig S _) eqn:E in Hp; [|destruct Hp]. destruct Hp as [<-|[]]. exact E.
  - apply pauli_row_len.
Qed.

(** *** the constructor *)
Lemma mk_pauli_ok n ops ws : valid_strings n ops -> length ws = length ops ->
  mk_pauli S im ops ws = Ok (mkPauli S n (built (combine ops ws)) (forallb (fun w => kclose S w (kconj S w)) ws)).
Proof.
  intros (H1 & H2 & H3) E. unfold mk_pauli. destruct ops as [|op0 ops]; [congruence|].
  rewrite E, Nat.eqb_refl. cbn [negb].
  assert (E0 : length op0 = n) by (inversion H3; tauto). rewrite E0.
  rewrite (proj2 (forallb_forall _ _)).
  2:{ intros op Hop. rewrite Forall_forall in H3. apply Nat.eqb_eq. apply H3; auto. }
  cbn [negb]. rewrite (proj2 (forallb_forall _ _)); [reflexivity|].
  intros op Hop. rewrite Forall_forall in H3. destruct (H3 op Hop) as [L1 L2].
  apply andb_true_iff. split; [destruct op; cbn in *; auto; lia|].
  apply forallb_forall. intros c Hc. destruct c; cbn; auto.
Qed.

Lemma mk_pauli_inv ops ws o : mk_pauli S im ops ws = Ok o ->
  length ws = length ops /\ valid_strings (ps_n S o) ops.
Proof.
  unfold mk_pauli. destruct ops as [|op0 ops]; [discriminate|].
  destruct (Nat.eqb_spec (length ws) (length (op0 :: ops))) as [E|E]; cbn [negb]; [|discriminate].
  destruct (forallb (fun op => Nat.eqb (length op) (length op0)) (op0 :: ops)) eqn:E1; cbn [negb]; [|discriminate].
  match goal with |- (if negb ?b then _ else _) = _ -> _ => destruct b eqn:E2 end; cbn [negb]; [|discriminate].
  intros H. injection H as <-. cbn [ps_n]. split; auto. split; [discriminate|].
  rewrite forallb_forall in E1, E2. split.
  - specialize (E2 op0 (or_introl eq_refl)). destruct op0; [discriminate|cbn; lia].
  - apply Forall_forall. intros op Hop. split; [apply Nat.eqb_eq; auto|].
    specialize (E2 op Hop). apply andb_true_iff in E2. destruct E2 as [_ E2]. rewrite forallb_forall in E2.
    intros C. specialize (E2 _ C). discriminate.
Qed.

Lemma mk_pauli_err ops ws e : mk_pauli S im ops ws = Err e ->
  e = ValueError /\ forall n, ~ (valid_strings n ops /\ length ws = length ops).
Proof.
  intros H. split.
  - revert H. unfold mk_pauli. destruct ops; [congruence|]. destruct (negb _); [congruence|].
    destruct (negb _); [congruence|]. destruct (negb _); congruence.
  - intros n [H1 H2]. rewrite (mk_pauli_ok n ops ws H1 H2) in H. discriminate.
Qed.

Lemma combine_forall {A B} (P : A -> Prop) (l : list A) (m : list B) : Forall P l ->
  Forall (fun t => P (fst t)) (combine l m).
Proof. intros H. revert m. induction H; intros [|b m]; cbn; constructor; auto. Qed.

Lemma pauli_rows (NS : no_small S) n ops ws : valid_strings n ops -> length ws = length ops ->
  exists o, mk_pauli S im ops ws = Ok o /\ forall xs, Forall (configuration (qubits n)) xs ->
  exists rows,
    let full := map (fun row => row ++ repeat (repeat 0%Z n, 0) (pauli_max_conn S o - length row)) rows in
    pauli_flattened S o false xs = Ok (map snd (concat rows), map fst (concat rows), ends 0 (map (@length _) rows)) /\
    pauli_flattened S o true xs =
      Ok (map snd (concat full), map fst (concat full), ends 0 (map (fun _ => pauli_max_conn S o) xs)) /\
    Forall2 (fun x row =>
      is_row S (qubits n) (strings_element S im (combine ops ws) x) row /\
      (length row <= pauli_max_conn S o)%nat /\
      Forall (fun p => kbig S (snd p) = true) row) xs rows.
Proof.
  intros HV E. eexists. split; [apply mk_pauli_ok; eauto|]. intros xs Hxs.
  set (o := mkPauli S n _ _). exists (map (pauli_row S o) xs). cbv zeta.
  assert (HL : forall x, (length (pauli_row S o x) <= pauli_max_conn S o)%nat) by (intros x; apply pauli_row_len).
  assert (HC : (length (concat (map (pauli_row S o) xs)) <= length xs * pauli_max_conn S o)%nat).
  { clear Hxs. induction xs as [|x xs IH]; cbn [map concat length]; [lia|]. rewrite app_length. specialize (HL x). nia. }
  split; [|split].
  - unfold pauli_flattened. cbv zeta.
    destruct (put_batch_flat S (pauli_row S o) xs 0%nat 0%nat (repeat 0 (length xs * pauli_max_conn S o))
       (repeat (repeat 0%Z (ps_n S o)) (length xs * pauli_max_conn S o)) []) as (m' & x' & E1 & E2 & E3 & E4 & E5).
    { rewrite repeat_length. exact HC. } { rewrite !repeat_length. reflexivity. }
    rewrite E1. cbn [bind fst snd]. rewrite E4, E5. cbn [firstn app]. rewrite map_map. reflexivity.
  - unfold pauli_flattened. cbv zeta.
    pose proof (put_batch_padded S (pauli_row S o) (pauli_max_conn S o) 0 (repeat 0%Z (ps_n S o)) xs
      (proj2 (Forall_forall _ _) (fun x _ => HL x)) 0%nat [] [] 0%nat eq_refl eq_refl []) as E1.
    cbn [app Nat.mul Nat.add] in E1. rewrite !Nat.add_0_r in E1.
    match type of E1 with ?a = _ => match goal with |- (let? _ := ?b in _) = _ => change b with a end end.
    rewrite E1. cbn [bind fst snd]. rewrite !app_nil_r.
    assert (HF : forall B (f : list Z * K -> B) (z : B), f (repeat 0%Z n, 0) = z ->
      firstn (length xs * pauli_max_conn S o) (concat (map (fun x => padded z (pauli_max_conn S o) (map f (pauli_row S o x))) xs)) =
      map f (concat (map (fun row => row ++ repeat (repeat 0%Z n, 0) (pauli_max_conn S o - length row)) (map (pauli_row S o) xs)))).
    { intros B f z <-. rewrite map_map, concat_map_map.
      rewrite firstn_all2.
      - f_equal. apply map_ext. intros x. unfold padded. rewrite map_app, map_repeat', map_length. reflexivity.
      - clear - HL. induction xs as [|x xs IH]; cbn [map concat length]; [lia|]. rewrite app_length. unfold padded at 1.
        rewrite app_length, repeat_length, map_length. specialize (HL x). nia. }
    change (ps_n S o) with n. rewrite (HF _ snd 0 eq_refl), (HF _ fst (repeat 0%Z n) eq_refl).
    rewrite (ends_const (pauli_max_conn S o) xs 0%nat 0%nat) by reflexivity. reflexivity.
  - apply Forall2_map_self. intros x Hx. rewrite Forall_forall in Hxs.
    destruct HV as (V1 & V2 & V3).
    destruct (pauli_row_ok NS n (forallb (fun w => kclose S w (kconj S w)) ws) (combine ops ws) x) as (R1 & R2 & R3).
    + apply combine_forall with (P := fun op => length op = n /\ ~ In Other op). exact V3.
    + auto.
    + split; [exact R1|]. split; [exact R3|]. apply Forall_forall. exact R2.
Qed.

(** *** hermiticity *)
Lemma string_herm (Him : kconj S im = - im) op : ~ In Other op -> forall x y,
  configuration (qubits (length op)) x -> configuration (qubits (length op)) y ->
  string_element S im op x y = kconj S (string_element S im op y x).
Proof.
  induction op as [|p op IH]; intros HO x y Hx Hy.
  - destruct x, y; cbn; symmetry; apply (k_conj_1 S L).
  - destruct x as [|a x]; [apply q_iff in Hx; destruct Hx; discriminate|].
    destruct y as [|b y]; [apply q_iff in Hy; destruct Hy; discriminate|].
    inversion Hx as [|? ? ? ? Ha Hx']; subst. inversion Hy as [|? ? ? ? Hb Hy']; subst.
    cbn [string_element]. rewrite (k_conj_mul S L), <- IH by (auto; intros C; apply HO; right; auto).
    f_equal. cbn [In] in Ha, Hb.
    assert (E0 : kconj S 0 = 0) by apply (k_conj_0 S L). assert (E1 : kconj S 1 = 1) by apply (k_conj_1 S L).
    assert (EN : forall a, kconj S (- a) = - kconj S a) by apply (conj_opp S L).
    destruct Ha as [<-|[<-|[]]]; destruct Hb as [<-|[<-|[]]];
      try (change (Z.to_nat 1) with 1%nat); try (change (Z.to_nat 0) with 0%nat);
      destruct p; cbn; rewrite ?EN, ?E0, ?E1, ?Him; ring.
Qed.

Lemma pauli_hermitian (CE : close_exact S) (Him : kconj S im = - im) n ops ws o :
  valid_strings n ops -> mk_pauli S im ops ws = Ok o -> ps_herm S o = true ->
  forall x y, configuration (qubits n) x -> configuration (qubits n) y ->
  strings_element S im (combine ops ws) x y = kconj S (strings_element S im (combine ops ws) y x).
Proof.
  intros HV HM HH x y Hx Hy. destruct (mk_pauli_inv _ _ _ HM) as [E _].
  rewrite (mk_pauli_ok n ops ws HV E) in HM. injection HM as <-. cbn [ps_herm] in HH.
  rewrite forallb_forall in HH. unfold strings_element. rewrite (conj_sum S L), map_map.
  apply (sum_ext S). intros [op w] Ht. cbn [fst snd]. rewrite (k_conj_mul S L).
  pose proof (in_combine_l _ _ _ _ Ht) as H1. pose proof (in_combine_r _ _ _ _ Ht) as H2.
  rewrite <- (CE _ _ (HH w H2)). f_equal. destruct HV as (_ & _ & HV). rewrite Forall_forall in HV.
  destruct (HV op H1) as [<- HO]. apply string_herm; auto.
Qed.
End P.
