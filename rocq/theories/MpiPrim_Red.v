From Coq Require Import String Ascii List ZArith NArith Bool Lia.
From Verif Require Import Base MpiPrim_Model MpiPrim_Spec MpiPrim_Proofs.
Import ListNotations.
Open Scope nat_scope.

Lemma sequence_ok {X Y} (f : X -> res Y) (g : X -> Y) l : Forall (fun x => f x = Ok (g x)) l -> sequence (map f l) = Ok (map g l).
Proof. induction 1 as [|x l E F IH]; [reflexivity|]. cbn [map sequence]. rewrite E. cbn [bind]. rewrite IH. reflexivity. Qed.
Lemma sequence_err {X Y} (f : X -> res Y) e l : (forall x e', f x = Err e' -> e' = e) -> Exists (fun x => exists e', f x = Err e') l -> sequence (map f l) = Err e.
Proof.
  intros H. induction 1 as [x l [e' E]|x l Ex IH]; cbn [map sequence].
  - rewrite E. rewrite (H _ _ E). reflexivity.
  - destruct (f x) as [y|e'] eqn:E; cbn [bind]; [|rewrite (H _ _ E); reflexivity]. rewrite IH. reflexivity.
Qed.
Lemma forallb_map {X Y} (f : X -> Y) p l : forallb p (map f l) = forallb (fun x => p (f x)) l.
Proof. induction l as [|x l IH]; [reflexivity|]. cbn. rewrite IH. reflexivity. Qed.
Lemma combine_maps {X Y} (f : X -> Y) l : combine l (map f l) = map (fun x => (x, f x)) l.
Proof. induction l as [|x l IH]; [reflexivity|]. cbn. rewrite IH. reflexivity. Qed.

Section Red.
  Variable A : Type.
  Variable junk : A.
  Variable op : A -> A -> A.
  Notation reduce := (reduce A op).
  Notation rank := (list A * arg A)%type.

  Lemma reduce_main n rows : rows <> [] -> Forall (fun r => length r = n) rows ->
    length (reduce rows) = n /\ forall k, k < n -> nth k (reduce rows) junk = total junk op (map (fun r => nth k r junk) rows).
  Proof.
    intros NE F. induction F as [|r rows L F IH]; [contradiction|]. destruct rows as [|r' rows]; [split; [exact L|reflexivity]|].
    destruct (IH ltac:(discriminate)) as [L' N]. set (rs := r' :: rows) in *.
    change (reduce (r :: rs)) with (map (fun xy => op (fst xy) (snd xy)) (combine r (reduce rs))).
    change (total junk op (map _ (r :: rs))) with (op (nth 0 r junk) (total junk op (map (fun r0 => nth 0 r0 junk) rs))) || idtac.
    split; [rewrite map_length, combine_length; lia|]. intros k Hk.
    rewrite (nth_indep _ junk (op junk junk)) by (rewrite map_length, combine_length; lia).
    rewrite (map_nth (fun xy => op (fst xy) (snd xy)) (combine r (reduce rs)) (junk, junk)), combine_nth by lia. cbn [fst snd].
    rewrite (N k Hk). subst rs. reflexivity.
  Qed.
  Lemma store_length mem o vals : Z.to_nat o + length vals <= length mem -> length (store A mem o vals) = length mem.
  Proof. intros H. unfold store. rewrite !app_length, firstn_length, skipn_length. lia. Qed.
  Lemma store_nth mem o vals p : Z.to_nat o + length vals <= length mem ->
    nth p (store A mem o vals) junk = if (Z.to_nat o <=? p) && (p <? Z.to_nat o + length vals) then nth (p - Z.to_nat o) vals junk else nth p mem junk.
  Proof.
    intros H. unfold store. set (a := Z.to_nat o) in *.
    assert (La : length (firstn a mem) = a) by (rewrite firstn_length; lia).
    destruct (Nat.leb_spec a p) as [Hp|Hp]; cbn [andb].
    - rewrite app_nth2 by lia. rewrite La. destruct (Nat.ltb_spec p (a + length vals)).
      + rewrite app_nth1 by lia. reflexivity.
      + rewrite app_nth2 by lia. rewrite <- (firstn_skipn (a + length vals) mem) at 2.
        rewrite (app_nth2 (firstn _ _)) by (rewrite firstn_length; lia). rewrite firstn_length. f_equal. lia.
    - rewrite app_nth1 by lia. rewrite <- (firstn_skipn a mem) at 2. rewrite app_nth1 by lia. reflexivity.
  Qed.
  Lemma values_consecutive mem v : consecutive v -> (0 <= offset v)%Z ->
    values junk mem v = map (fun k => nth (Z.to_nat (offset v) + k) mem junk) (seq 0 (size v)).
  Proof.
    intros C P. unfold values. rewrite C, map_map. apply map_ext. intros k. unfold read. f_equal. lia.
  Qed.
  Lemma values_length mem v : length (values junk mem v) = size v.
  Proof. unfold values. rewrite map_length. apply positions_length. Qed.
  Lemma values_stored mem v vals : consecutive v -> (0 <= offset v)%Z -> length vals = size v -> Z.to_nat (offset v) + length vals <= length mem ->
    values junk (store A mem (offset v) vals) v = vals.
  Proof.
    intros C P L B. rewrite (values_consecutive _ v C P). apply (nth_ext _ _ junk junk); [rewrite map_length, seq_length; lia|].
    rewrite map_length, seq_length. intros k Hk.
    rewrite (nth_indep _ junk (nth (Z.to_nat (offset v) + 0) (store A mem (offset v) vals) junk)) by (rewrite map_length, seq_length; exact Hk).
    rewrite (map_nth (fun k => nth (Z.to_nat (offset v) + k) (store A mem (offset v) vals) junk)), seq_nth by lia. rewrite store_nth by lia.
    destruct (Nat.leb_spec (Z.to_nat (offset v)) (Z.to_nat (offset v) + (0 + k))); [|lia].
    destruct (Nat.ltb_spec (Z.to_nat (offset v) + (0 + k)) (Z.to_nat (offset v) + length vals)); [|lia]. cbn [andb]. f_equal. lia.
  Qed.
  (** what np.asarray makes of an argument that fits *)
  Definition ready (n : nat) (a : list A * view) : Prop :=
    consecutive (snd a) /\ size (snd a) = n /\ writable (snd a) = true /\ (0 <= offset (snd a))%Z /\ Z.to_nat (offset (snd a)) + n <= length (fst a).
  Notation asr := (fun r : rank => asarray (fst r) (snd r)).
  Lemma fit_ready n r : fit n r -> ready n (asr r) /\ values junk (fst (asr r)) (snd (asr r)) = content junk r.
  Proof.
    destruct r as [mem [v|shape vals]]; unfold fit, content; cbn [fst snd asarray].
    - intros H. split; [exact H|reflexivity].
    - intros [P L]. destruct (new_consecutive (Z.of_nat (length mem)) shape true) as [C S].
      assert (R : ready n (mem ++ vals, View (Z.of_nat (length mem)) (c_strides shape) true)).
      { split; [exact C|]. split; [cbn [snd]; rewrite S; exact P|]. split; [reflexivity|]. cbn [fst snd offset]. rewrite app_length. split; lia. }
      split; [exact R|]. rewrite values_consecutive by (exact C || cbn [offset]; lia). rewrite S, P. cbn [offset]. rewrite Nat2Z.id.
      apply (nth_ext _ _ junk junk); rewrite map_length, seq_length; [lia|]. intros k Hk.
      rewrite (nth_indep _ junk (nth (length mem + 0) (mem ++ vals) junk)) by (rewrite map_length, seq_length; exact Hk).
      rewrite (map_nth (fun k => nth (length mem + k) (mem ++ vals) junk)), seq_nth by lia. rewrite app_nth2 by lia. f_equal. lia.
  Qed.
  Definition out (ranks : list rank) : list A := reduce (map (content junk) ranks).
  Lemma all_reduce_fit n ranks : 2 <= length ranks -> Forall (fit n) ranks ->
    all_reduce junk op ranks = Ok (map (fun r => (store A (fst (asr r)) (offset (snd (asr r))) (out ranks), snd (asr r))) ranks).
  Proof.
    intros L F. unfold all_reduce. cbv zeta. destruct (Nat.leb_spec (length ranks) 1); [lia|].
    assert (F2 : Forall (fun r => ready n (asr r) /\ values junk (fst (asr r)) (snd (asr r)) = content junk r) ranks) by (eapply Forall_impl; [|exact F]; apply fit_ready).
    rewrite map_map.
    rewrite (sequence_ok (fun r : rank => the_buffer (snd (asr r))) (fun r : rank => InPlace (offset (snd (asr r))) n)); cycle 1.
    { eapply Forall_impl; [|exact F2]. intros r [(C & S & Wr & _) _]. cbv beta. rewrite buffer_fit by assumption. rewrite S. reflexivity. }
    cbn [bind].
    assert (Hn : match map asr ranks with a :: _ => size (snd a) | [] => 0 end = n).
    { destruct F2 as [|r rs [(C & S & _) _] _]; [cbn in L; lia|]. exact S. }
    rewrite Hn. rewrite forallb_map.
    assert (Fa : forallb (fun r : rank => size (snd (asr r)) =? n) ranks = true).
    { apply forallb_forall. intros r Hr. apply Nat.eqb_eq. rewrite Forall_forall in F2. exact (proj1 (proj2 (proj1 (F2 r Hr)))). }
    rewrite Fa. cbn [negb]. f_equal.
    assert (EO : reduce (map (fun a => values junk (fst a) (snd a)) (map asr ranks)) = out ranks).
    { unfold out. f_equal. rewrite map_map. apply map_ext_in. intros r Hr. rewrite Forall_forall in F2. exact (proj2 (F2 r Hr)). }
    rewrite EO. generalize (out ranks) as o. intros o. clear. induction ranks as [|r rs IH]; [reflexivity|]. cbn [map combine fst snd set_buffer].
    f_equal. exact IH.
  Qed.
  Lemma content_length n r : fit n r -> length (content junk r) = n.
  Proof. destruct r as [mem [v|shape vals]]; unfold fit, content; cbn [fst snd]; [intros (_ & S & _); rewrite values_length; exact S|tauto]. Qed.
  Lemma out_sum n ranks : 2 <= length ranks -> Forall (fit n) ranks -> is_sum junk op n ranks (out ranks).
  Proof.
    intros L F. destruct (reduce_main n (map (content junk) ranks)) as [L' N].
    - destruct ranks; [cbn in L; lia|discriminate].
    - apply Forall_forall. intros c Hc. apply in_map_iff in Hc. destruct Hc as (r & <- & Hr). rewrite Forall_forall in F. apply content_length, F, Hr.
    - split; [exact L'|]. intros k Hk. unfold out. rewrite (N k Hk). unfold sum_at. rewrite map_map. reflexivity.
  Qed.
  Lemma reduced_fit n ranks : 2 <= length ranks -> Forall (fit n) ranks ->
    exists l, reduced junk op ranks = Ok l /\
      Forall2 (fun r vm => is_sum junk op n ranks (fst vm) /\ stored junk op n ranks r (snd vm)) ranks l.
  Proof.
    intros L F. unfold reduced. rewrite (all_reduce_fit n ranks L F). cbn [bind]. rewrite map_map. cbn [fst snd].
    eexists. split; [reflexivity|]. destruct (out_sum n ranks L F) as [OL ON].
    assert (G : forall rs, Forall (fit n) rs -> Forall2 (fun r vm => is_sum junk op n ranks (fst vm) /\ stored junk op n ranks r (snd vm)) rs
      (map (fun r => (values junk (store A (fst (asr r)) (offset (snd (asr r))) (out ranks)) (snd (asr r)),
                      store A (fst (asr r)) (offset (snd (asr r))) (out ranks))) rs)); [|exact (G ranks F)].
    induction 1 as [|r rs Fr Frs IH]; [constructor|]. cbn [map]. constructor; [|exact IH]. cbn [fst snd].
    destruct (fit_ready n r Fr) as [(C & S & Wr & P & B) _].
    rewrite (values_stored _ (snd (asr r)) (out ranks) C P) by (rewrite OL; cbv beta in *; lia).
    split; [split; [exact OL|exact ON]|].
    destruct r as [mem [v|shape vals]]; unfold stored; cbn [fst snd asarray] in *.
    - split; [apply store_length; rewrite OL; exact B|]. intros p. rewrite store_nth by (rewrite OL; exact B). rewrite OL.
      destruct (Nat.leb_spec (Z.to_nat (offset v)) p); cbn [andb]; [|reflexivity]. destruct (Nat.ltb_spec p (Z.to_nat (offset v) + n)); [|reflexivity].
      apply ON. lia.
    - unfold store. cbn [offset]. rewrite Nat2Z.id, firstn_app, firstn_firstn, firstn_app, Nat.min_id, firstn_all, Nat.sub_diag. cbn [firstn]. rewrite app_nil_r.
      rewrite firstn_length, app_length. replace (length mem - _) with 0 by lia. cbn [firstn]. rewrite app_nil_r.
      reflexivity.
  Qed.
  Lemma mean_fit over n ranks : 2 <= length ranks -> Forall (fit n) ranks ->
    exists l, mpi_mean junk op over ranks = Ok l /\
      Forall2 (fun r vm => (exists s, is_sum junk op n ranks s /\ fst vm = map (fun a => over a (length ranks)) s) /\ stored junk op n ranks r (snd vm)) ranks l.
  Proof.
    intros L F. destruct (reduced_fit n ranks L F) as (l & E & F2). unfold mpi_mean. rewrite E. cbn [bind]. eexists. split; [reflexivity|].
    set (N := length ranks). clearbody N. set (Q := fun (r : rank) (vm : list A * list A) => is_sum junk op n ranks (fst vm) /\ stored junk op n ranks r (snd vm)) in F2.
    assert (G : forall rs l, Forall2 Q rs l -> Forall2 (fun r vm => (exists s, is_sum junk op n ranks s /\ fst vm = map (fun a => over a N) s) /\ stored junk op n ranks r (snd vm)) rs
      (map (fun vm => (map (fun a => over a N) (fst vm), snd vm)) l)); [|exact (G _ _ F2)].
    clear. induction 1 as [|r vm rs l [Q1 Q2] F IH]; [constructor|]. cbn [map]. constructor; [|exact IH]. cbn [fst snd].
    split; [|exact Q2]. exists (fst vm). split; [exact Q1|reflexivity].
  Qed.
  (** the caller's part of the memory, for other arguments *)
  Lemma reduced_refuses ranks : 2 <= length ranks ->
    Exists (fun r => match snd r with Array v => (2 <= size v /\ exists s, spaced s v /\ s <> 1%Z) \/ (consecutive v /\ writable v = false) | Other _ _ => False end) ranks ->
    reduced junk op ranks = Err ValueError.
  Proof.
    intros L Ex. unfold reduced, all_reduce. cbv zeta. destruct (Nat.leb_spec (length ranks) 1); [lia|]. rewrite map_map.
    rewrite (sequence_err (fun r : rank => the_buffer (snd (asr r))) ValueError); [reflexivity|intros x e'; apply the_buffer_err|].
    eapply Exists_impl; [|exact Ex]. intros [mem [v|shape vals]]; cbn [snd fst asarray]; [|tauto].
    intros [(S & s & Sp & N)|[C Wr]]; exists ValueError; [exact (buffer_strided v s S Sp N)|exact (buffer_readonly v C Wr)].
  Qed.
  Lemma reduced_lost n ranks : 2 <= length ranks ->
    Forall (fun r => match snd r with Array v => size v = n /\ forall s, ~ spaced s v | Other _ _ => False end) ranks ->
    reduced junk op ranks = Ok (map (fun r => (content junk r, fst r)) ranks).
  Proof.
    intros L F. unfold reduced, all_reduce. cbv zeta. destruct (Nat.leb_spec (length ranks) 1); [lia|]. rewrite map_map.
    rewrite (sequence_ok (fun r : rank => the_buffer (snd (asr r))) (fun r : rank => Temporary)); cycle 1.
    { eapply Forall_impl; [|exact F]. intros [mem [v|shape vals]]; cbn [snd fst asarray]; [|tauto]. intros [_ N]. apply buffer_lost, N. }
    cbn [bind].
    assert (Hn : match map asr ranks with a :: _ => size (snd a) | [] => 0 end = n).
    { destruct F as [|[mem [v|shape vals]] rs H0 _]; [cbn in L; lia|exact (proj1 H0)|destruct H0]. }
    rewrite Hn, forallb_map.
    assert (Fa : forallb (fun r : rank => size (snd (asr r)) =? n) ranks = true).
    { apply forallb_forall. intros r Hr. apply Nat.eqb_eq. rewrite Forall_forall in F. specialize (F r Hr).
      destruct r as [mem [v|shape vals]]; [exact (proj1 F)|destruct F]. }
    rewrite Fa. cbn [negb bind]. f_equal. clear -F. set (o := reduce _). clearbody o.
    induction F as [|[mem [v|shape vals]] rs H F IH]; [reflexivity| |destruct H]. cbn [map combine fst snd set_buffer]. f_equal. exact IH.
  Qed.
  Lemma reduced_one r : reduced junk op [r] = Ok [(values junk (fst (asr r)) (snd (asr r)), fst (asr r))].
  Proof. reflexivity. Qed.
End Red.
