From Coq Require Import String List ZArith Bool Lia Sorting.Sorted Permutation.
From Verif Require Import Base BaseFacts StateLog_Model StateLog_Spec.
Import ListNotations.
Open Scope Z_scope.

Lemma fname_eqb_eq a b : fname_eqb a b = true <-> a = b.
Proof.
  split.
  - destruct a as [x|x k|k|k p], b as [y|y l|l|l q]; cbn; try discriminate; intros H.
    + apply Z.eqb_eq in H. congruence.
    + apply andb_prop in H. destruct H as [H1 H2]. apply Z.eqb_eq in H1. apply Nat.eqb_eq in H2. congruence.
    + apply Nat.eqb_eq in H. congruence.
    + apply andb_prop in H. destruct H as [H1 H2]. apply Nat.eqb_eq in H1.
      destruct p, q; cbn in H2; try discriminate; [apply Z.eqb_eq in H2|]; congruence.
  - intros <-. destruct a as [x|x k|k|k [p|]]; cbn; rewrite ?Z.eqb_refl, ?Nat.eqb_refl; reflexivity.
Qed.
Lemma fname_eqb_refl a : fname_eqb a a = true.
Proof. apply fname_eqb_eq. reflexivity. Qed.
Lemma fname_eqb_neq a b : a <> b -> fname_eqb a b = false.
Proof. intros H. destruct (fname_eqb a b) eqn:E; [|reflexivity]. apply fname_eqb_eq in E. congruence. Qed.

Section L.
  Context {V : Type}.
  Notation entry := (fname * option V)%type.
  Implicit Types l : list entry.

  Lemma lookup_write n c l m : lookup m (write_file V n c l) = if fname_eqb n m then Some c else lookup m l.
  Proof.
    induction l as [|[k x] l IH]; cbn; [reflexivity|].
    destruct (fname_eqb k n) eqn:E; cbn.
    - apply fname_eqb_eq in E. subst k. destruct (fname_eqb n m); reflexivity.
    - rewrite IH. destruct (fname_eqb k m) eqn:E2; [|reflexivity].
      apply fname_eqb_eq in E2. subst m. destruct (fname_eqb n k) eqn:E3; [|reflexivity].
      apply fname_eqb_eq in E3. subst n. rewrite fname_eqb_refl in E. discriminate.
  Qed.
  Lemma lookup_filter (p : fname -> bool) l n :
    lookup n (filter (fun e => p (fst e)) l) = if p n then lookup n l else None.
  Proof.
    induction l as [|[k x] l IH]; cbn [filter lookup fst]; [destruct (p n); reflexivity|].
    destruct (fname_eqb k n) eqn:E.
    - apply fname_eqb_eq in E. subst k. destruct (p n) eqn:Ep; cbn [lookup]; [rewrite fname_eqb_refl; reflexivity|].
      rewrite IH. reflexivity.
    - destruct (p k); cbn [lookup]; [rewrite E|]; exact IH.
  Qed.
  Lemma lookup_in n c l : lookup n l = Some c -> In (n, c) l.
  Proof.
    induction l as [|[k x] l IH]; cbn; [discriminate|]. destruct (fname_eqb k n) eqn:E.
    - apply fname_eqb_eq in E. intros H. injection H as ->. subst. auto.
    - auto.
  Qed.

  Lemma due_app se a b : forall i prev, exists j q, due (V:=V) se i prev (a ++ b) = due se i prev a ++ due se j q b.
  Proof.
    induction a as [|[step v] a IH]; intros i prev; cbn [app due]; [exists i, prev; reflexivity|].
    destruct (IH (i + 1) step) as (j & q & E). exists j, q. rewrite E, app_assoc. reflexivity.
  Qed.

  Lemma holds_write b vs l c : holds b vs l -> holds b vs (write_file V (FNum (b + Z.of_nat (length vs))) c l).
  Proof.
    intros H i v Hi. rewrite lookup_write. rewrite fname_eqb_neq; [exact (H i v Hi)|].
    assert (i < length vs)%nat by (apply nth_error_Some; congruence). intros E. injection E as E. lia.
  Qed.
  Lemma holds_snoc b vs l v : holds b vs l -> holds b (vs ++ [v]) (write_file V (FNum (b + Z.of_nat (length vs))) (Some v) l).
  Proof.
    intros H i w Hi. destruct (Nat.lt_ge_cases i (length vs)) as [Hl|Hl].
    - rewrite nth_error_app1 in Hi by exact Hl. exact (holds_write b vs l _ H i w Hi).
    - rewrite nth_error_app2 in Hi by exact Hl. destruct (i - length vs)%nat as [|k] eqn:Ek; cbn in Hi; [|destruct k; discriminate].
      injection Hi as <-. replace i with (length vs) by lia. rewrite lookup_write, fname_eqb_refl. reflexivity.
  Qed.
  Lemma holds_prefix b vs ws l : holds b (vs ++ ws) l -> holds b vs l.
  Proof.
    intros H i v Hi. apply H. rewrite nth_error_app1; [exact Hi|]. apply nth_error_Some. congruence.
  Qed.
  Lemma kept_write (K : fname -> Prop) l0 l z c : kept K l0 l -> (forall n, K n -> n <> FNum z) -> kept K l0 (write_file V (FNum z) c l).
  Proof.
    intros H Hk n Hn. rewrite lookup_write, fname_eqb_neq; [exact (H n Hn)|]. intros E. exact (Hk n Hn (eq_sym E)).
  Qed.

  (** One save on an initialised folder *)
  Lemma write_folder s l b vs v (K : fname -> Prop) l0 :
    tar s = false -> file_step s = b + Z.of_nat (length vs) ->
    holds b vs l -> kept K l0 l -> (forall n, K n -> n <> FNum (b + Z.of_nat (length vs))) ->
    exists l' snaps, write_vars V s (Some l) v = (None, set_step s (init s) (tar_file s) (file_step s + 1), Some l', snaps) /\
      holds b (vs ++ [v]) l' /\ kept K l0 l' /\ Forall (sofar b vs K l0) snaps.
  Proof.
    intros Ht Hf Hh Hk Hn. unfold write_vars. rewrite Ht, Hf.
    eexists _, _. split; [reflexivity|]. split; [apply holds_snoc, Hh|]. split; [apply kept_write; auto|].
    repeat apply Forall_cons; try apply Forall_nil; eexists; (split; [reflexivity|]); split; auto using holds_write, kept_write.
  Qed.

  Lemma srun_folder b K l0 calls : forall n s l vs,
    tar s = false -> init s = true -> 0 < save_every s ->
    file_step s = b + Z.of_nat (length vs) -> holds b vs l -> kept K l0 l ->
    let total := vs ++ due (save_every s) (steps_notsaved s) (old_step s) calls in
    (forall m, K m -> forall i, (i < length total)%nat -> m <> FNum (b + Z.of_nat i)) ->
    exists s' l' snaps, srun V n s (Some l) calls = (None, s', Some l', snaps) /\
      holds b total l' /\ kept K l0 l' /\
      (forall m, (forall i, (length vs <= i < length total)%nat -> m <> FNum (b + Z.of_nat i)) -> lookup m l' = lookup m l) /\
      (forall k y, In (k, y) snaps -> (n <= k)%nat /\
         sofar b (vs ++ due (save_every s) (steps_notsaved s) (old_step s) (firstn (k - n) calls)) K l0 y).
  Proof.
    induction calls as [|[step v] calls IH]; intros n s l vs Ht Hi Hse Hf Hh Hk total HK.
    - cbn [srun]. unfold total. cbn [due] in *. rewrite app_nil_r in *. do 3 eexists. split; [reflexivity|].
      split; [exact Hh|]. split; [exact Hk|]. split; [reflexivity|].
      intros k y [E|[]]. injection E as <- <-. split; [lia|]. rewrite Nat.sub_diag. cbn [firstn due]. rewrite app_nil_r.
      exists l. auto.
    - cbn [srun]. unfold scall. replace (save_every s =? 0) with false by (symmetry; apply Z.eqb_neq; lia).
      unfold total in *. cbn [due] in *. clear total.
      destruct ((steps_notsaved s mod save_every s =? 0) || (step =? old_step s - 1)) eqn:Ec.
      + unfold save_variables. rewrite Hi.
        destruct (write_folder s l b vs v K l0 Ht Hf Hh Hk) as (l1 & sn & E1 & H1 & K1 & S1).
        { intros m Hm. apply (HK m Hm). rewrite app_length. cbn. lia. }
        rewrite E1.
        destruct (IH (S n) (SLog (mode s) (tar s) (save_every s) step (steps_notsaved s + 1) (init s) (tar_file s) (closed s) (file_step s + 1))
           l1 (vs ++ [v])) as (s' & l' & sn' & E2 & H2 & K2 & L2 & S2); cbn [tar init save_every file_step steps_notsaved old_step]; auto.
        { rewrite app_length. cbn. lia. }
        { intros m Hm i Hi2. apply (HK m Hm). rewrite <- app_assoc in Hi2. exact Hi2. }
        cbn [save_every steps_notsaved old_step set_step mode tar init tar_file closed file_step] in *.
        unfold set_step in E2 |- *. cbn [mode tar init save_every old_step steps_notsaved tar_file closed file_step] in *.
        rewrite E2. do 3 eexists. split; [reflexivity|]. rewrite <- app_assoc in H2. split; [exact H2|]. split; [exact K2|]. split.
        * intros m Hm. rewrite L2.
          -- assert (Hw := E1). unfold write_vars in Hw. rewrite Ht in Hw. injection Hw as Hw _. rewrite <- Hw.
             rewrite lookup_write, fname_eqb_neq; [reflexivity|]. rewrite Hf. intros E. apply (Hm (length vs)); [|auto]. rewrite app_length. cbn. lia.
          -- intros i Hi2. apply Hm. rewrite <- app_assoc in Hi2. rewrite app_length in Hi2 at 1. cbn [length] in Hi2. cbn [app] in *. lia.
        * intros k y Hy. apply in_app_iff in Hy. destruct Hy as [Hy|Hy].
          -- apply in_map_iff in Hy. destruct Hy as (y' & Ey & Hy). injection Ey as <- <-. split; [lia|].
             rewrite Nat.sub_diag. cbn [firstn due]. rewrite app_nil_r. rewrite Forall_forall in S1. exact (S1 _ Hy).
          -- destruct (S2 _ _ Hy) as (Hk2 & Hs2). split; [lia|]. replace (k - n)%nat with (S (k - S n)) by lia.
             cbn [firstn due]. rewrite Ec. rewrite app_assoc. exact Hs2.
      + destruct (IH (S n) (SLog (mode s) (tar s) (save_every s) step (steps_notsaved s + 1) (init s) (tar_file s) (closed s) (file_step s))
           l vs) as (s' & l' & sn' & E2 & H2 & K2 & L2 & S2); cbn [tar init save_every file_step steps_notsaved old_step]; auto.
        cbn [save_every steps_notsaved old_step] in *. rewrite E2. do 3 eexists. split; [reflexivity|]. split; [exact H2|]. split; [exact K2|].
        split; [exact L2|]. intros k y Hy. apply in_app_iff in Hy. destruct Hy as [Hy|Hy].
        * apply in_map_iff in Hy. destruct Hy as (y' & Ey & [Hy|[]]). injection Ey as <- <-. subst y'. split; [lia|].
          rewrite Nat.sub_diag. cbn [firstn due]. rewrite app_nil_r. exists l. auto.
        * destruct (S2 _ _ Hy) as (Hk2 & Hs2). split; [lia|]. replace (k - n)%nat with (S (k - S n)) by lia.
          cbn [firstn due]. rewrite Ec. exact Hs2.
  Qed.
End L.

(** next_number *)
Lemma sequence_ints ns : (forall n, In n ns -> exists z, stem_int n = Ok z) ->
  exists zs, sequence (map stem_int ns) = Ok zs /\ (forall z, In z zs <-> exists n, In n ns /\ stem_int n = Ok z).
Proof.
  induction ns as [|n ns IH]; intros H.
  - exists []. split; [reflexivity|]. intros z. split; [intros []|intros (n & [] & _)].
  - destruct (H n (or_introl eq_refl)) as (z & Hz). destruct IH as (zs & E & Hzs); [auto with datatypes|].
    exists (z :: zs). cbn [map sequence]. rewrite Hz. cbn [bind]. rewrite E. split; [reflexivity|].
    intros w. cbn [In]. rewrite Hzs. split.
    + intros [<-|(m & Hm & Em)]; [exists n; auto|exists m; auto].
    + intros (m & [<-|Hm] & Em); [left; congruence|right; exists m; auto].
Qed.
Lemma sorted_last l z r : StronglySorted Z.le l -> rev l = z :: r -> forall x, In x l -> x <= z.
Proof.
  intros Hs E x Hx. assert (El : l = rev r ++ [z]) by (rewrite <- (rev_involutive l), E; reflexivity).
  subst l. clear E. revert Hs x Hx. induction (rev r) as [|y q IH]; intros Hs x Hx; cbn in *.
  - destruct Hx as [->|[]]. lia.
  - inversion Hs as [|a b Hs' Hf]; subst. destruct Hx as [->|Hx]; [|exact (IH Hs' _ Hx)].
    rewrite Forall_forall in Hf. apply Hf. apply in_app_iff. right. left. reflexivity.
Qed.
Lemma next_number_spec ns b : (forall n, In n ns -> exists z, stem_int n = Ok z) ->
  (exists n, In n ns /\ stem_int n = Ok (b - 1)) -> (forall n z, In n ns -> stem_int n = Ok z -> z <= b - 1) ->
  next_number ns = Ok b.
Proof.
  intros H1 (n & Hn & En) H2. unfold next_number. destruct (sequence_ints ns H1) as (zs & E & Hz). rewrite E. cbn [bind].
  destruct (rev (np_sort zs)) as [|z r] eqn:Er.
  - exfalso. apply (f_equal (@rev Z)) in Er. rewrite rev_involutive in Er. cbn in Er.
    assert (In (b - 1) (np_sort zs)) by (apply np_sort_in, Hz; eauto). rewrite Er in H. exact H.
  - f_equal.
    assert (In z zs) by (apply np_sort_in; rewrite (in_rev (np_sort zs)), Er; left; reflexivity).
    apply Hz in H. destruct H as (m & Hm & Em). assert (z <= b - 1) by eauto.
    assert (b - 1 <= z); [|lia]. apply (sorted_last _ _ _ (np_sort_sorted zs) Er). apply np_sort_in, Hz. eauto.
Qed.

Section Top.
  Context {V : Type}.
  Implicit Types d : store V.

  Lemma number_stem n z : number n = Some z <-> stem_int n = Ok z.
  Proof. destruct n as [?|? ?|?|? [?|]]; cbn; split; congruence. Qed.
  Lemma first_number_next sel d b : first_number MAppend sel d b -> next_number (filter sel (names V (entries V d))) = Ok b.
  Proof.
    intros (H1 & (n & c & H2 & H3 & H4) & H5). apply number_stem in H4. apply next_number_spec.
    - intros m Hm. apply filter_In in Hm. destruct Hm as [Hm Hs]. apply in_map_iff in Hm. destruct Hm as ([m' x] & <- & Hm).
      destruct (H1 _ _ Hm Hs) as (z & Hz). exists z. apply number_stem, Hz.
    - exists n. split; [|exact H4]. apply filter_In. split; [|exact H3]. apply in_map_iff. exists (n, c). auto.
    - intros m z Hm. apply filter_In in Hm. destruct Hm as [Hm Hs]. apply in_map_iff in Hm. destruct Hm as ([m' x] & <- & Hm).
      intros Hz. apply number_stem in Hz. eauto.
  Qed.

  Lemma snew_ok m tr se d s d' : snew V m tr se d = Ok (s, d') ->
    exists md, s = SLog md tr se 0 0 false false false 0 /\ (md = MFail -> d = None) /\
      d' = (if tr then d else Some (entries V d)).
  Proof.
    unfold snew. destruct (parse_mode m) as [md|]; cbn [bind]; [|discriminate].
    destruct md, d as [l|]; intros E; try discriminate; injection E as <- <-; eexists; (split; [reflexivity|]);
      (split; [try discriminate; auto|]); destruct tr; reflexivity.
  Qed.

  Lemma folder_main m se d0 s d calls b : 0 < se -> snew V m false se d0 = Ok (s, d) ->
    first_number (mode s) checkpoint d0 b ->
    let vs := to_save se calls in
    let keep n := (forall i, (i < length vs)%nat -> n <> FNum (b + Z.of_nat i)) /\ (mode s = MWrite -> is_mpack n = false) in
    exists s' l snaps, srun V 0 s d calls = (None, s', Some l, snaps) /\
      holds b vs l /\ kept keep (entries V d0) l /\
      (mode s = MWrite -> calls <> [] -> forall n c, lookup n l = Some c -> is_mpack n = true ->
         exists i, (i < length vs)%nat /\ n = FNum (b + Z.of_nat i)) /\
      (forall k y, In (k, y) snaps -> sofar b (to_save se (firstn k calls)) keep (entries V d0) y).
  Proof.
    intros Hse E Hb vs keep. apply snew_ok in E. destruct E as (md & -> & Hfail & ->). cbn [mode] in *.
    destruct calls as [|[step v] calls].
    { cbn [srun]. do 3 eexists. split; [reflexivity|]. split; [intros i w Hi; destruct i; discriminate|].
      split; [intros n _; reflexivity|]. split; [congruence|]. intros k y [Hy|[]]. injection Hy as <- <-.
      exists (entries V d0). split; [reflexivity|]. split; [intros i w Hi; destruct i; discriminate|intros n _; reflexivity]. }
    cbn [srun]. unfold scall at 1. cbn [save_every steps_notsaved old_step].
    replace (se =? 0) with false by (symmetry; apply Z.eqb_neq; lia). rewrite Z.mod_0_l by lia. rewrite Z.eqb_refl. cbn [orb].
    unfold save_variables. cbn [init]. unfold vs, to_save in *. cbn [due] in *. rewrite Z.mod_0_l, Z.eqb_refl in * by lia. cbn [orb app] in *.
    (* the initialisation *)
    assert (HI : exists l1, init_output V (SLog md false se 0 0 false false false 0) (Some (entries V d0))
       = (None, SLog md false se 0 0 true false false b, Some l1) /\ kept keep (entries V d0) l1 /\
       (md = MWrite -> forall n c, lookup n l1 = Some c -> is_mpack n = false)).
    { unfold init_output. cbn [tar mode tar_file entries]. destruct md.
      - exists (filter (fun e => negb (is_mpack (fst e))) (entries V d0)). cbn in Hb. subst b. split; [reflexivity|].
        split.
        + intros n (_ & Hn). rewrite (lookup_filter (fun n => negb (is_mpack n))), (Hn eq_refl). reflexivity.
        + intros _ n c. rewrite (lookup_filter (fun n => negb (is_mpack n))). destruct (is_mpack n); [discriminate|reflexivity].
      - rewrite (first_number_next is_mpack _ _ Hb). eexists. split; [reflexivity|]. split; [intros n _; reflexivity|discriminate].
      - cbn in Hb. subst b. eexists. split; [reflexivity|]. split; [intros n _; reflexivity|discriminate]. }
    destruct HI as (l1 & -> & Hk1 & Hw1).
    destruct (write_folder (SLog md false se 0 0 true false false b) l1 b [] v keep (entries V d0)) as (l2 & sn & E2 & H2 & K2 & S2);
      cbn [file_step length]; auto; try lia.
    { intros i w Hi. destruct i; discriminate. }
    { intros n (Hn & _). apply (Hn 0%nat). cbn. lia. }
    assert (Hl2 : forall n, n <> FNum b -> lookup n l2 = lookup n l1).
    { intros n Hn. unfold write_vars in E2. cbn [tar file_step] in E2. injection E2 as E2 _. rewrite <- E2, lookup_write, fname_eqb_neq; auto. }
    rewrite E2. unfold set_step. cbn [mode tar init save_every old_step steps_notsaved tar_file closed file_step app] in *.
    destruct (srun_folder b keep (entries V d0) calls 1 (SLog md false se step (0 + 1) true false false (b + 1)) l2 [v])
      as (s' & l' & sn' & E3 & H3 & K3 & L3 & S3); cbn [tar init save_every file_step steps_notsaved old_step app length]; auto.
    { intros n (Hn & _). exact Hn. }
    cbn [save_every steps_notsaved old_step app] in *. rewrite E3.
    do 3 eexists. split; [reflexivity|]. split; [exact H3|]. split; [exact K3|]. split.
    - intros Hm _ n c Hc Hp.
      assert (D : (exists i, (i < length (v :: due se (0 + 1) step calls))%nat /\ n = FNum (b + Z.of_nat i)) \/
                  forall i, (i < length (v :: due se (0 + 1) step calls))%nat -> n <> FNum (b + Z.of_nat i)).
      { destruct n as [z| | |]; [|right; intros; discriminate ..].
        destruct (Z_lt_dec (z - b) 0); [right; intros i _ En; injection En; lia|].
        destruct (Z_lt_dec (z - b) (Z.of_nat (length (v :: due se (0 + 1) step calls)))).
        - left. exists (Z.to_nat (z - b)). split; [lia|]. f_equal. lia.
        - right. intros i Hi En. injection En. lia. }
      destruct D as [D|D]; [exact D|]. exfalso. rewrite L3 in Hc by (intros i Hi; apply D; lia).
      rewrite Hl2 in Hc by (intros ->; apply (D 0%nat); [cbn; lia|f_equal; cbn; lia]).
      rewrite (Hw1 Hm _ _ Hc) in Hp. discriminate.
    - intros k y Hy. apply in_app_iff in Hy. destruct Hy as [Hy|Hy].
      + apply in_map_iff in Hy. destruct Hy as (y' & Ey & Hy). injection Ey as <- <-. cbn [firstn due].
        destruct Hy as [<-|Hy].
        * exists (entries V d0). split; [reflexivity|]. split; [intros i w Hi; destruct i; discriminate|intros n _; reflexivity].
        * rewrite Forall_forall in S2. exact (S2 _ Hy).
      + destruct (S3 _ _ Hy) as (Hk3 & Hs3). destruct k as [|k]; [lia|]. cbn [firstn due]. rewrite Z.mod_0_l, Z.eqb_refl by lia. cbn [orb app].
        replace (S k - 1)%nat with k in Hs3 by lia. exact Hs3.
  Qed.

  Lemma append_main m se d0 s d calls b : 0 < se -> snew V m false se d0 = Ok (s, d) -> mode s = MAppend ->
    first_number MAppend checkpoint d0 b ->
    exists s' l snaps, srun V 0 s d calls = (None, s', Some l, snaps) /\
      forall k y, In (k, y) snaps -> exists ly, y = Some ly /\
        forall n c, lookup n (entries V d0) = Some c -> lookup n ly = Some c.
  Proof.
    intros Hse E Hm Hb. assert (Hb' := Hb). rewrite <- Hm in Hb'.
    destruct (folder_main m se d0 s d calls b Hse E Hb') as (s' & l & sn & E1 & _ & _ & _ & H).
    exists s', l, sn. split; [exact E1|]. intros k y Hy. destruct (H k y Hy) as (ly & -> & _ & Hk).
    exists ly. split; [reflexivity|]. intros n c Hc. rewrite (Hk n); [exact Hc|]. split; [|rewrite Hm; discriminate].
    intros i Hi ->. apply lookup_in in Hc. destruct Hb as (_ & _ & Hle). specialize (Hle _ _ _ Hc eq_refl eq_refl). lia.
  Qed.

  (** tar *)
  Lemma srun_tar calls : forall n s l, tar s = true -> init s = true -> closed s = false -> 0 < save_every s ->
    exists s' snaps, srun V n s (Some l) calls =
      (None, s', Some (l ++ numbered (file_step s) (due (save_every s) (steps_notsaved s) (old_step s) calls)), snaps).
  Proof.
    induction calls as [|[step v] calls IH]; intros n s l Ht Hi Hc Hse.
    - cbn. rewrite app_nil_r. do 2 eexists. reflexivity.
    - cbn [srun due]. unfold scall. replace (save_every s =? 0) with false by (symmetry; apply Z.eqb_neq; lia).
      destruct ((steps_notsaved s mod save_every s =? 0) || (step =? old_step s - 1)).
      + unfold save_variables. rewrite Hi. unfold write_vars. rewrite Ht, Hc. cbn [entries].
        unfold set_step. cbn [mode tar init save_every old_step steps_notsaved tar_file closed file_step].
        destruct (IH (S n) (SLog (mode s) (tar s) (save_every s) step (steps_notsaved s + 1) (init s) (tar_file s) (closed s) (file_step s + 1))
          (l ++ [(FNum (file_step s), Some v)])) as (s' & sn & E); auto.
        cbn [file_step save_every steps_notsaved old_step] in E. rewrite E. cbn [app numbered].
        rewrite <- app_assoc. cbn [app]. do 2 eexists. reflexivity.
      + destruct (IH (S n) (SLog (mode s) (tar s) (save_every s) step (steps_notsaved s + 1) (init s) (tar_file s) (closed s) (file_step s)) l)
          as (s' & sn & E); auto.
        cbn [file_step save_every steps_notsaved old_step] in E. rewrite E. cbn [app]. do 2 eexists. reflexivity.
  Qed.
  Lemma filter_all {X} (l : list X) : filter (fun _ => true) l = l.
  Proof. induction l as [|x l IH]; cbn; congruence. Qed.
  Lemma tar_main m se d0 s d calls b : 0 < se -> snew V m true se d0 = Ok (s, d) -> mode s <> MFail ->
    first_number (mode s) (fun _ => true) d0 b -> calls <> [] ->
    exists s' snaps, srun V 0 s d calls =
      (None, s', Some ((if match mode s with MAppend => true | _ => false end then entries V d0 else []) ++ numbered b (to_save se calls)), snaps).
  Proof.
    intros Hse E Hf Hb Hn. apply snew_ok in E. destruct E as (md & -> & _ & ->). cbn [mode] in *.
    destruct calls as [|[step v] calls]; [congruence|].
    cbn [srun]. unfold scall at 1. cbn [save_every steps_notsaved old_step].
    replace (se =? 0) with false by (symmetry; apply Z.eqb_neq; lia). rewrite Z.mod_0_l by lia. rewrite Z.eqb_refl. cbn [orb].
    unfold save_variables. cbn [init]. unfold to_save. cbn [due]. rewrite Z.mod_0_l, Z.eqb_refl by lia. cbn [orb app].
    assert (HI : init_output V (SLog md true se 0 0 false false false 0) d0
       = (None, SLog md true se 0 0 true true false b, Some (if match md with MAppend => true | _ => false end then entries V d0 else []))).
    { unfold init_output. cbn [tar mode tar_file]. destruct md; [|..|congruence].
      - cbn in Hb. subst. reflexivity.
      - apply first_number_next in Hb. rewrite filter_all in Hb. cbn [entries]. rewrite Hb. reflexivity. }
    rewrite HI. unfold write_vars. cbn [tar closed file_step entries set_step mode save_every old_step steps_notsaved init tar_file].
    match goal with |- context [srun V 1 ?s0 (Some ?l0) calls] => destruct (srun_tar calls 1 s0 l0) as (s' & sn & E); auto end.
    cbn [file_step save_every steps_notsaved old_step] in E. unfold set_step. cbn [mode tar init save_every old_step steps_notsaved tar_file closed file_step].
    rewrite E. rewrite <- app_assoc. cbn [app numbered]. do 2 eexists. reflexivity.
  Qed.

  Lemma append_new_main se d0 step (v : V) calls : 0 < se -> (forall n c, In (n, c) (entries V d0) -> is_mpack n = false) ->
    exists s snaps, snew V "append" false se d0 = Ok (s, Some (entries V d0)) /\
      srun V 0 s (Some (entries V d0)) ((step, v) :: calls) = (Some IndexError, s, Some (entries V d0), snaps).
  Proof.
    intros Hse Hd. eexists. eexists. split; [unfold snew; cbn; destruct d0; reflexivity|].
    cbn [srun]. unfold scall. cbn [save_every steps_notsaved old_step].
    replace (se =? 0) with false by (symmetry; apply Z.eqb_neq; lia). rewrite Z.mod_0_l, Z.eqb_refl by lia. cbn [orb].
    unfold save_variables. cbn [init]. unfold init_output. cbn [tar mode entries].
    replace (filter is_mpack (names V (entries V d0))) with (@nil fname).
    - reflexivity.
    - symmetry. revert Hd. induction (entries V d0) as [|[n c] l IH]; intros Hd; cbn; [reflexivity|].
      rewrite (Hd n c (or_introl eq_refl)). apply IH. intros m x Hm. exact (Hd m x (or_intror Hm)).
  Qed.
  Lemma tar_fail_main se step (v : V) calls : 0 < se ->
    exists s snaps, snew V "fail" true se None = Ok (s, None) /\
      srun V 0 s None ((step, v) :: calls) = (Some ValueError, s, None, snaps).
  Proof.
    intros Hse. eexists. eexists. split; [reflexivity|]. cbn [srun]. unfold scall. cbn [save_every steps_notsaved old_step].
    replace (se =? 0) with false by (symmetry; apply Z.eqb_neq; lia). rewrite Z.mod_0_l, Z.eqb_refl by lia. cbn [orb].
    reflexivity.
  Qed.
  Lemma tar_append_new_main se step (v : V) step' v' : 0 < se ->
    exists s d s1 l s2 l', snew V "append" true se None = Ok (s, d) /\
      scall V s d step v = (Some IndexError, s1, Some [], l) /\
      scall V s1 (Some []) step' v' = (None, s2, Some [(FNum 0, Some v')], l').
  Proof.
    intros Hse. do 6 eexists. split; [reflexivity|]. unfold scall. cbn [save_every steps_notsaved old_step].
    assert (E : (se =? 0) = false) by (apply Z.eqb_neq; lia). rewrite E, Z.mod_0_l, Z.eqb_refl by lia. cbn [orb].
    split; [reflexivity|]. cbn [set_step save_every steps_notsaved old_step]. rewrite E, Z.mod_0_l, Z.eqb_refl by lia. reflexivity.
  Qed.
  Lemma closed_main s d step (v : V) : tar s = true -> tar_file s = true -> init s = true -> 0 < save_every s ->
    steps_notsaved s mod save_every s = 0 ->
    exists l, scall V (sclose s) d step v = (Some Exception_, sclose s, d, l).
  Proof.
    intros H1 H2 H3 H4 H5. unfold sclose. rewrite H2.
    unfold scall. destruct (closed s) eqn:Ec; cbn [negb andb save_every steps_notsaved old_step];
    (replace (save_every s =? 0) with false by (symmetry; apply Z.eqb_neq; lia)); rewrite H5, Z.eqb_refl; cbn [orb];
      unfold save_variables; cbn [init]; rewrite H3; unfold write_vars; cbn [tar closed]; rewrite H1, ?Ec; eexists; reflexivity.
  Qed.
End Top.
