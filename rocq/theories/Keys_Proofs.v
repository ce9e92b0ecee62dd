From Coq Require Import List Arith ZArith Bool Lia.
From Verif Require Import Keys_Model Keys_Spec.
Import ListNotations.

Lemma derived_refl a : derived a a.
Proof. destruct a; left; reflexivity. Qed.
Lemma derived_child a k n i : derived a k -> derived a (Child k n i).
Proof. intros H. right. exact H. Qed.
Lemma derived_trans a b c : derived a b -> derived b c -> derived a c.
Proof.
  intros H. induction c as [z|k IH n i]; cbn; intros [E|D].
  - subst. exact H.
  - destruct D.
  - subst. exact H.
  - right. apply IH, D.
Qed.
Lemma derived_linear a b c : derived a c -> derived b c -> related a b.
Proof.
  unfold related. induction c as [z|k IH n i]; cbn; intros [E|D] [E'|D']; subst; try contradiction.
  - left. apply derived_refl.
  - left. apply derived_refl.
  - right. apply derived_child, D'.
  - left. apply derived_child, D.
  - apply IH; assumption.
Qed.
Fixpoint depth (k : key) : nat := match k with Seed _ => 0 | Child k _ _ => S (depth k) end.
Lemma derived_depth a b : derived a b -> a = b \/ depth a < depth b.
Proof.
  induction b as [z|k IH n i]; cbn; intros [E|D]; auto; [destruct D|]. right. destruct (IH D) as [->|H]; lia.
Qed.
Lemma children_unrelated k n i m j : (n, i) <> (m, j) -> ~ related (Child k n i) (Child k m j).
Proof.
  intros N [[E|D]|[E|D]]; try (apply derived_depth in D; destruct D as [E|D]; [apply (f_equal depth) in E; cbn in E; lia|cbn in D; lia]);
    apply N; congruence.
Qed.

Lemma unrelated_sym a b : ~ related a b -> ~ related b a.
Proof. unfold related. tauto. Qed.
Lemma below_unrelated a k b : ~ related a k -> derived k b -> ~ related a b.
Proof.
  intros N D [H|H]; apply N.
  - exact (derived_linear a k b H D).
  - right. exact (derived_trans k b a D H).
Qed.

Lemma FOP_app (us vs : list key) : unrelated us -> unrelated vs -> (forall a b, In a us -> In b vs -> ~ related a b) -> unrelated (us ++ vs).
Proof.
  intros HU HV H. induction HU as [|a us F HU IH]; [exact HV|]. cbn. constructor.
  - apply Forall_app. split; [exact F|]. apply Forall_forall. intros b I. apply H; [left; reflexivity|exact I].
  - apply IH. intros x b I. apply H. right. exact I.
Qed.
Lemma unrelated_cons_inv k us : unrelated (k :: us) -> (forall a, In a us -> ~ related k a) /\ unrelated us.
Proof. intros H. inversion H as [|? ? F U]; subst. split; [|exact U]. apply Forall_forall, F. Qed.

(** what is obtained from the current key stays unrelated to what was used before *)
Lemma replace_current k us vs : unrelated (k :: us) -> Forall (derived k) vs -> unrelated vs -> unrelated (us ++ vs).
Proof.
  intros H F V. apply unrelated_cons_inv in H. destruct H as [H U]. apply FOP_app; [exact U|exact V|].
  intros a b Ia Ib. rewrite Forall_forall in F. apply (below_unrelated a k b); [apply unrelated_sym, H, Ia|apply F, Ib].
Qed.
Lemma Forall_derived_trans a k vs : derived a k -> Forall (derived k) vs -> Forall (derived a) vs.
Proof. intros D. apply Forall_impl. intros b H. exact (derived_trans a k b D H). Qed.

Lemma sub_eq k num i : i < num -> sub k num i = Child k num i.
Proof.
  intros H. unfold sub, split. rewrite (nth_indep _ k (Child k num 0)) by (rewrite map_length, seq_length; exact H).
  rewrite (map_nth (Child k num)), seq_nth by exact H. reflexivity.
Qed.

Lemma unrelated_split_list k num (l : list nat) : NoDup l -> unrelated (map (Child k num) l).
Proof.
  induction 1 as [|i l Ni N IH]; cbn; constructor; [|exact IH].
  apply Forall_forall. intros x I. apply in_map_iff in I. destruct I as (j & <- & I).
  apply children_unrelated. intros E. injection E as ->. contradiction.
Qed.
Lemma derived_split_list k num (l : list nat) : Forall (derived k) (map (Child k num) l).
Proof. apply Forall_forall. intros x I. apply in_map_iff in I. destruct I as (j & <- & I). apply derived_child, derived_refl. Qed.

(** a step from the current key: the new one and the used ones come from it and are unrelated *)
Definition disciplined (f : key -> key * list key) : Prop :=
  forall k, Forall (derived k) (fst (f k) :: snd (f k)) /\ unrelated (fst (f k) :: snd (f k)).

Lemma disc_seq f g : disciplined f -> disciplined g ->
  disciplined (fun k => let '(k1, a) := f k in let '(k2, b) := g k1 in (k2, a ++ b)).
Proof.
  intros Hf Hg k. destruct (Hf k) as [F1 U1]. destruct (f k) as [k1 a]. cbn [fst snd] in *.
  destruct (Hg k1) as [F2 U2]. destruct (g k1) as [k2 b]. cbn [fst snd] in *.
  inversion F1 as [|? ? D1 Fa]; subst. inversion F2 as [|? ? D2 Fb]; subst. split.
  - constructor; [exact (derived_trans k k1 k2 D1 D2)|]. apply Forall_app. split; [exact Fa|]. exact (Forall_derived_trans k k1 b D1 Fb).
  - constructor.
    + apply Forall_app. apply unrelated_cons_inv in U1, U2. destruct U1 as [U1 _], U2 as [U2 _]. split.
      * apply Forall_forall. intros x I. apply unrelated_sym, (below_unrelated x k1 k2); [apply unrelated_sym, U1, I|exact D2].
      * apply Forall_forall. exact U2.
    + apply (replace_current k1); [exact U1|exact Fb|apply unrelated_cons_inv in U2; apply U2].
Qed.
Lemma disc_id : disciplined (fun k => (k, [])).
Proof. intros k. split; [constructor; [apply derived_refl|constructor]|repeat constructor]. Qed.
Lemma disc_ext f g : (forall k, f k = g k) -> disciplined f -> disciplined g.
Proof. intros E H k. rewrite <- E. apply H. Qed.
Lemma disc_times f n : disciplined f -> disciplined (times f n).
Proof. intros H. induction n as [|n IH]; [exact disc_id|]. exact (disc_seq f (times f n) H IH). Qed.

(** the children 0 .. of a split: 0 is the new key *)
Lemma disc_split num l : NoDup (0 :: l) -> Forall (fun i => i < num) (0 :: l) ->
  disciplined (fun k => (sub k num 0, map (sub k num) l)).
Proof.
  intros N F k. cbn [fst snd].
  assert (E : sub k num 0 :: map (sub k num) l = map (Child k num) (0 :: l)).
  { cbn [map]. inversion F as [|? ? H0 Fl]; subst. f_equal; [apply sub_eq, H0|]. apply map_ext_in. intros i I. apply sub_eq.
    rewrite Forall_forall in Fl. apply Fl, I. }
  rewrite E. split; [apply derived_split_list|apply unrelated_split_list, N].
Qed.

(** replacing one used key by keys obtained from it *)
Lemma disc_refine (f : key -> key * list key) (x : key -> key) (us : key -> list key) (g : key -> list key) :
  (forall k, snd (f k) = x k :: us k) -> disciplined f ->
  (forall k, Forall (derived k) (g k) /\ unrelated (g k)) ->
  disciplined (fun k => (fst (f k), g (x k) ++ us k)).
Proof.
  intros E Hf Hg k. destruct (Hf k) as [F U]. rewrite (E k) in *. cbn [fst snd].
  destruct (Hg (x k)) as [Fg Ug].
  inversion F as [|? ? D Fx]; subst. inversion Fx as [|? ? Dx Fu]; subst. split.
  - constructor; [exact D|]. apply Forall_app. split; [exact (Forall_derived_trans k (x k) _ Dx Fg)|exact Fu].
  - apply unrelated_cons_inv in U. destruct U as [U1 U]. apply unrelated_cons_inv in U. destruct U as [U2 U3].
    constructor.
    + apply Forall_app. split; apply Forall_forall.
      * intros y I. rewrite Forall_forall in Fg. apply (below_unrelated _ (x k)); [apply U1; left; reflexivity|apply Fg, I].
      * intros y I. apply U1. right. exact I.
    + apply FOP_app; [exact Ug|exact U3|]. intros a b Ia Ib. rewrite Forall_forall in Fg.
      apply unrelated_sym, (below_unrelated b (x k) a); [apply unrelated_sym, U2, Ib|apply Fg, Ia].
Qed.

Lemma proper_whole : proper_rule whole.
Proof. intros k. split; repeat constructor. apply derived_refl. Qed.
Lemma proper_local : proper_rule local_rule.
Proof.
  intros k. unfold local_rule. rewrite !sub_eq by lia. change [Child k 2 0; Child k 2 1] with (map (Child k 2) [0; 1]).
  split; [apply derived_split_list|]. apply unrelated_split_list. repeat constructor; cbn; intuition discriminate.
Qed.

(** a loop carrying a key *)
Section Loop.
Variable step : key -> key * list key.
Hypothesis Hstep : disciplined step.
Fixpoint loop (n : nat) (s : key) : list key :=
  match n with O => [] | S n => snd (step s) ++ loop n (fst (step s)) end.
Lemma loop_ok n : forall s, Forall (derived s) (loop n s) /\ unrelated (loop n s).
Proof.
  induction n as [|n IH]; intros s; cbn [loop]; [split; constructor|].
  destruct (Hstep s) as [F U]. destruct (IH (fst (step s))) as [F' U'].
  inversion F as [|? ? D Fu]; subst. split.
  - apply Forall_app. split; [exact Fu|exact (Forall_derived_trans s _ _ D F')].
  - apply (replace_current (fst (step s))); assumption.
Qed.
End Loop.

Lemma nd012 : NoDup [0; 1; 2]. Proof. repeat constructor; cbn; intuition discriminate. Qed.
Lemma nd01 : NoDup [0; 1]. Proof. repeat constructor; cbn; intuition discriminate. Qed.
Lemma nd01234 : NoDup [0; 1; 2; 3; 4]. Proof. repeat constructor; cbn; intuition discriminate. Qed.
Lemma disc2 : disciplined (fun k => (sub k 2 0, [sub k 2 1])).
Proof. apply (disc_split 2 [1]); [exact nd01|repeat constructor; lia]. Qed.

Lemma metro_sweeps_ok tr n : proper_rule tr -> forall s, Forall (derived s) (metro_sweeps tr n s) /\ unrelated (metro_sweeps tr n s).
Proof.
  intros T. set (step := fun s => (sub s 3 0, tr (sub s 3 1) ++ [sub s 3 2])).
  assert (D : disciplined step).
  { apply (disc_refine (fun s => (sub s 3 0, [sub s 3 1; sub s 3 2])) (fun s => sub s 3 1) (fun s => [sub s 3 2]) tr); [reflexivity| |exact T].
    apply (disc_split 3 [1; 2]); [exact nd012|repeat constructor; lia]. }
  assert (E : forall s, metro_sweeps tr n s = loop step n s).
  { induction n as [|n IH]; intros s; [reflexivity|]. cbn [metro_sweeps loop]. rewrite IH. exact (app_assoc _ _ _). }
  intros s. rewrite E. apply (loop_ok step D).
Qed.
Lemma pt_sweeps_ok tr n : proper_rule tr -> forall s, Forall (derived s) (pt_sweeps tr n s) /\ unrelated (pt_sweeps tr n s).
Proof.
  intros T. set (step := fun s => (sub s 5 0, tr (sub s 5 1) ++ [sub s 5 2; sub s 5 3; sub s 5 4])).
  assert (D : disciplined step).
  { apply (disc_refine (fun s => (sub s 5 0, [sub s 5 1; sub s 5 2; sub s 5 3; sub s 5 4])) (fun s => sub s 5 1)
      (fun s => [sub s 5 2; sub s 5 3; sub s 5 4]) tr); [reflexivity| |exact T].
    apply (disc_split 5 [1; 2; 3; 4]); [exact nd01234|repeat constructor; lia]. }
  assert (E : forall s, pt_sweeps tr n s = loop step n s).
  { induction n as [|n IH]; intros s; [reflexivity|]. cbn [pt_sweeps loop]. rewrite IH. exact (app_assoc _ _ _). }
  intros s. rewrite E. apply (loop_ok step D).
Qed.
Lemma ar_scan_ok n : forall s, Forall (derived s) (ar_scan n s) /\ unrelated (ar_scan n s).
Proof.
  set (step := fun s => (sub s 2 0, [sub s 2 1])).
  assert (E : forall s, ar_scan n s = loop step n s).
  { induction n as [|n IH]; intros s; [reflexivity|]. cbn [ar_scan loop]. rewrite IH. reflexivity. }
  intros s. rewrite E. apply (loop_ok step disc2).
Qed.

Lemma metro_next_disc tr n : proper_rule tr -> disciplined (metro_next tr n).
Proof.
  intros T. apply (disc_ext (fun k => (sub k 2 0, metro_sweeps tr n (sub k 2 1) ++ []))).
  - intros k. rewrite app_nil_r. reflexivity.
  - apply (disc_refine (fun k => (sub k 2 0, [sub k 2 1])) (fun k => sub k 2 1) (fun _ => []) (metro_sweeps tr n)); [reflexivity|exact disc2|].
    intros k. apply metro_sweeps_ok, T.
Qed.
Lemma pt_next_disc tr n : proper_rule tr -> disciplined (pt_next tr n).
Proof.
  intros T. apply (disc_ext (fun k => (sub k 2 0, pt_sweeps tr n (sub k 2 1) ++ []))).
  - intros k. rewrite app_nil_r. reflexivity.
  - apply (disc_refine (fun k => (sub k 2 0, [sub k 2 1])) (fun k => sub k 2 1) (fun _ => []) (pt_sweeps tr n)); [reflexivity|exact disc2|].
    intros k. apply pt_sweeps_ok, T.
Qed.
Lemma unrelated_cons2 a b us : ~ related a b -> (forall x, In x us -> ~ related a x) -> unrelated (b :: us) -> unrelated (a :: b :: us).
Proof. intros H F U. constructor; [|exact U]. constructor; [exact H|]. apply Forall_forall, F. Qed.
Lemma ar_chain_disc n : disciplined (ar_chain n).
Proof.
  intros k. unfold ar_chain. cbn [fst snd].
  assert (D : disciplined (fun k => (sub k 3 0, [sub k 3 2; sub k 3 1]))).
  { apply (disc_split 3 [2; 1]); [repeat constructor; cbn; intuition discriminate|repeat constructor; lia]. }
  pose proof (disc_refine (fun k => (sub k 3 0, [sub k 3 2; sub k 3 1])) (fun k => sub k 3 2) (fun k => [sub k 3 1]) (ar_scan n) (fun _ => eq_refl) D (ar_scan_ok n) k) as [F U].
  cbn [fst snd] in F, U. inversion F as [|? ? H0 F']; subst. apply Forall_app in F'. destruct F' as [F1 F2]. split.
  - constructor; [exact H0|]. inversion F2; subst. constructor; assumption.
  - apply unrelated_cons_inv in U. destruct U as [U1 U].
    assert (V : unrelated (sub k 3 1 :: ar_scan n (sub k 3 2))).
    { constructor.
      - apply Forall_forall. intros x I. destruct (ar_scan_ok n (sub k 3 2)) as [Fs _]. rewrite Forall_forall in Fs.
        apply (below_unrelated _ (sub k 3 2)); [rewrite !sub_eq by lia; apply children_unrelated; discriminate|apply Fs, I].
      - apply ar_scan_ok. }
    apply unrelated_cons2; [apply U1, in_or_app; right; left; reflexivity| |exact V].
    intros x I. apply U1, in_or_app. left. exact I.
Qed.
Lemma metro_reset_disc rc : disciplined (metro_reset rc).
Proof.
  unfold metro_reset. destruct rc; [exact disc2|]. apply (disc_split 2 []); repeat constructor; cbn; auto.
Qed.
Lemma metro_init_disc rc : disciplined (metro_init rc).
Proof.
  unfold metro_init. destruct rc; [exact disc2|].
  exact (disc_seq (fun k => (sub k 2 0, [sub k 2 1])) (fun k => (sub k 2 0, [sub k 2 1])) disc2 disc2).
Qed.
Lemma init_disc s : disciplined (init s).
Proof. destruct s; cbn; [apply metro_init_disc|exact disc2|exact disc_id|exact disc2]. Qed.
Lemma apply_disc s o : proper_sampler s -> disciplined (apply s o).
Proof.
  intros P. destruct s, o; cbn in *;
    [apply metro_reset_disc|apply disc_times, metro_next_disc, P|exact disc2|apply disc_times, pt_next_disc, P
    |exact disc_id|exact disc2|exact disc_id|apply ar_chain_disc].
Qed.
Lemma run_disc s ops : proper_sampler s -> disciplined (run s ops).
Proof.
  intros P. induction ops as [|o ops IH]; [exact disc_id|]. exact (disc_seq (apply s o) (run s ops) (apply_disc s o P) IH).
Qed.
Lemma life_ok s ops k : proper_sampler s -> Forall (derived k) (life s ops k) /\ unrelated (life s ops k).
Proof.
  intros P. pose proof (disc_seq (init s) (run s ops) (init_disc s) (run_disc s ops P) k) as [F U].
  unfold life. destruct (init s k) as [k1 a]. destruct (run s ops k1) as [k2 b]. cbn [fst snd] in *.
  inversion F; subst. apply unrelated_cons_inv in U. split; [assumption|apply U].
Qed.

(** ** All ranks *)
Lemma concat_unrelated (roots : list key) (f : nat -> list key) : unrelated roots ->
  forall off, (forall i, i < length roots -> Forall (derived (nth i roots (Seed 0))) (f (off + i)) /\ unrelated (f (off + i))) ->
  unrelated (concat (map f (seq off (length roots)))) /\
  (forall x, In x (concat (map f (seq off (length roots)))) -> exists i, i < length roots /\ derived (nth i roots (Seed 0)) x).
Proof.
  induction 1 as [|r roots F U IH]; intros off H; cbn [length seq map concat].
  - split; [constructor|intros x []].
  - pose proof (H 0 ltac:(cbn; lia)) as H0. rewrite Nat.add_0_r in H0. cbn [nth] in H0. destruct H0 as [F0 U0].
    destruct (IH (S off)) as [IU IB].
    { intros i Hi. specialize (H (S i) ltac:(cbn; lia)). rewrite Nat.add_succ_r in H. exact H. }
    split.
    + apply FOP_app; [exact U0|exact IU|]. intros a b Ia Ib. destruct (IB b Ib) as (i & Hi & Di).
      rewrite Forall_forall in F, F0. assert (N : ~ related r (nth i roots (Seed 0))) by (apply F, nth_In, Hi).
      apply unrelated_sym, (below_unrelated b r a); [|apply F0, Ia].
      apply unrelated_sym, (below_unrelated r (nth i roots (Seed 0)) b); assumption.
    + intros x I. apply in_app_or in I. destruct I as [I|I].
      * exists 0. split; [lia|]. rewrite Forall_forall in F0. apply F0, I.
      * destruct (IB x I) as (i & Hi & Di). exists (S i). split; [lia|exact Di].
Qed.

Lemma ranks_main s (ops : nat -> list op) args : proper_sampler s ->
  unrelated (concat (map (fun r => life s (ops r) (init_key args r)) (seq 0 (length args)))) /\
  Forall (derived (prng_key args)) (concat (map (fun r => life s (ops r) (init_key args r)) (seq 0 (length args)))).
Proof.
  intros P. set (n := length args). set (k := prng_key args).
  assert (U : unrelated (split k n)) by (unfold split; apply unrelated_split_list, seq_NoDup).
  assert (Ln : length (split k n) = n) by (unfold split; rewrite map_length, seq_length; reflexivity).
  assert (X : forall i, i < n -> init_key args i = nth i (split k n) (Seed 0)).
  { intros i Hi. unfold init_key, mpi_split. apply nth_indep. rewrite Ln. exact Hi. }
  destruct (concat_unrelated (split k n) (fun r => life s (ops r) (init_key args r)) U 0) as [A B].
  { rewrite Ln. intros i Hi. cbn [Nat.add]. rewrite <- (X i Hi). apply life_ok, P. }
  rewrite Ln in A, B. split; [exact A|]. apply Forall_forall. intros x I. destruct (B x I) as (i & Hi & D).
  eapply derived_trans; [|exact D]. unfold split. rewrite (nth_indep _ _ (Child k n 0)) by (rewrite map_length, seq_length; exact Hi).
  rewrite (map_nth (Child k n)). apply derived_child, derived_refl.
Qed.

Lemma root_only args args' r : hd_error args = hd_error args' -> length args = length args' -> init_key args r = init_key args' r.
Proof.
  unfold init_key, prng_key. intros H L. rewrite L. destruct args as [|[z s] a], args' as [|[z' s'] a']; try discriminate; [reflexivity|].
  cbn in H. injection H as <- <-. reflexivity.
Qed.

(** ** PRNGSeq *)
Lemma split_last k num : split k (num + 1) = split k (num + 1) /\ removelast (split k (num + 1)) = map (Child k (num + 1)) (seq 0 num) /\
  last (split k (num + 1)) k = Child k (num + 1) num.
Proof.
  unfold split. rewrite seq_app, map_app. cbn [seq map Nat.add]. split; [reflexivity|]. split.
  - apply removelast_last.
  - apply last_last.
Qed.
Lemma take_disc num : disciplined (seq_take num).
Proof.
  intros k. unfold seq_take. cbn [fst snd]. destruct (split_last k num) as (_ & -> & ->).
  change (Child k (num + 1) num :: map (Child k (num + 1)) (seq 0 num)) with (map (Child k (num + 1)) (num :: seq 0 num)).
  split; [apply derived_split_list|]. apply unrelated_split_list. constructor; [rewrite in_seq; lia|apply seq_NoDup].
Qed.
Lemma takes_ok nums : forall k, let ks := snd (fold_left (fun st num => let '(k', a) := seq_take num (fst st) in (k', snd st ++ a)) nums (k, [])) in
  Forall (derived k) ks /\ unrelated ks.
Proof.
  assert (G : forall nums k0 st, Forall (derived k0) (fst st :: snd st) -> unrelated (fst st :: snd st) ->
    let st' := fold_left (fun st num => let '(k', a) := seq_take num (fst st) in (k', snd st ++ a)) nums st in
    Forall (derived k0) (fst st' :: snd st') /\ unrelated (fst st' :: snd st')).
  { induction nums0 as [|n ns IH]; intros k0 [c us] F U; [split; assumption|]. cbn [fold_left]. apply IH; cbn [fst snd] in *.
    - destruct (take_disc n c) as [F2 _]. destruct (seq_take n c) as [c' a]. cbn [fst snd] in *. inversion F; subst. inversion F2; subst.
      constructor; [eapply derived_trans; eassumption|]. apply Forall_app. split; [assumption|]. eapply Forall_derived_trans; eassumption.
    - destruct (take_disc n c) as [F2 U2]. destruct (seq_take n c) as [c' a]. cbn [fst snd] in *.
      inversion F2 as [|? ? D2 Fb]; subst. constructor.
      + apply Forall_app. apply unrelated_cons_inv in U, U2. destruct U as [U1 _], U2 as [U2 _]. split.
        * apply Forall_forall. intros x I. apply unrelated_sym, (below_unrelated x c c'); [apply unrelated_sym, U1, I|exact D2].
        * apply Forall_forall. exact U2.
      + apply (replace_current c); [exact U|exact Fb|apply unrelated_cons_inv in U2; apply U2]. }
  intros k ks. destruct (G nums k (k, [])) as [F U].
  - constructor; [apply derived_refl|constructor].
  - repeat constructor.
  - inversion F; subst. apply unrelated_cons_inv in U. split; [assumption|apply U].
Qed.

(** ** States *)
Lemma sampler_keys_derived s ops k n r : proper_sampler s -> r < n -> Forall (derived k) (life s ops (mpi_split k n r)).
Proof.
  intros P Hr. apply (Forall_derived_trans k (mpi_split k n r)); [|apply life_ok, P].
  change (derived k (sub k n r)). rewrite sub_eq by exact Hr. apply derived_child, derived_refl.
Qed.
Lemma mixed_main seed sampler_seed rnd rnd' s s' ops ops' n r r' z z' : proper_sampler s -> proper_sampler s' -> r < n -> r' < n ->
  let '(m, d) := mixed_sampler_seeds seed sampler_seed rnd rnd' in
  forall a b, In a (assign_sampler s m z n r ops) -> In b (assign_sampler s' d z' n r' ops') -> ~ related a b.
Proof.
  intros P P' Hr Hr'. unfold mixed_sampler_seeds, assign_sampler, state_keys.
  assert (G : forall k u v, derived (sub k 2 0) u -> derived (sub k 2 1) v -> forall a b,
    In a (life s ops (mpi_split u n r)) -> In b (life s' ops' (mpi_split v n r')) -> ~ related a b).
  { intros k u v Du Dv a b Ia Ib. pose proof (sampler_keys_derived s ops u n r P Hr) as Fa. pose proof (sampler_keys_derived s' ops' v n r' P' Hr') as Fb.
    rewrite Forall_forall in Fa, Fb. rewrite !sub_eq in Du, Dv by lia.
    apply (below_unrelated a (Child k 2 1)); [|exact (derived_trans _ _ _ Dv (Fb b Ib))].
    apply unrelated_sym, (below_unrelated _ (Child k 2 0)); [apply children_unrelated; discriminate|exact (derived_trans _ _ _ Du (Fa a Ia))]. }
  assert (C : forall k : key, derived k (sub k 2 1)) by (intros k; rewrite sub_eq by lia; apply derived_child, derived_refl).
  destruct sampler_seed as [|z0|k0]; cbn [snd as_key].
  - apply (G (as_key rnd seed)); apply C.
  - apply (G (Seed z0)); apply derived_refl.
  - apply (G k0); apply derived_refl.
Qed.
Lemma derived_seed a z : derived a (Seed z) -> a = Seed z.
Proof. intros [E|[]]. exact E. Qed.
Lemma seeds_unrelated z z' : z <> z' -> ~ related (Seed z) (Seed z').
Proof. intros N [[E|[]]|[E|[]]]; apply N; congruence. Qed.
Lemma state_partial vg z z' rnd s ops n r : proper_sampler s -> r < n -> z <> z' ->
  let '(ps, stored) := state_keys vg (SInt z) (SInt z') rnd in
  forall a b, In a ps -> In b (assign_sampler s stored rnd n r ops) -> ~ related a b.
Proof.
  intros P Hr N. cbn. intros a b Ia Ib. destruct vg; [destruct Ia|]. destruct Ia as [<- |[]].
  pose proof (sampler_keys_derived s ops (Seed z') n r P Hr) as F. rewrite Forall_forall in F.
  apply (below_unrelated _ (Seed z')); [apply seeds_unrelated, N|apply F, Ib].
Qed.
Lemma state_derived z rnd s ops n r : proper_sampler s -> r < n ->
  let '(ps, stored) := state_keys false (SInt z) SNone rnd in
  ps = [Seed z] /\ Forall (derived (Seed z)) (assign_sampler s stored rnd n r ops) /\
  Forall (derived (sub (Seed z) 2 1)) (assign_sampler s stored rnd n r ops).
Proof.
  intros P Hr. cbn [state_keys as_key]. split; [reflexivity|].
  assert (F : Forall (derived (sub (Seed z) 2 1)) (assign_sampler s (SKey (sub (Seed z) 2 1)) rnd n r ops))
    by (apply sampler_keys_derived; assumption).
  split; [|exact F]. eapply Forall_derived_trans; [|exact F]. rewrite sub_eq by lia. apply derived_child, derived_refl.
Qed.
Lemma next_related k k1 k2 c c' : seq_next k = (c, [k1]) -> seq_next c = (c', [k2]) ->
  ~ unrelated [k1; k2] /\ seq_next k1 = seq_next c.
Proof.
  unfold seq_next. intros E1 E2. injection E1 as <- <-. injection E2 as <- <-. split; [|reflexivity].
  intros U. apply unrelated_cons_inv in U. destruct U as [U _]. apply (U _ (or_introl eq_refl)). left.
  rewrite (sub_eq (sub k 1 0) 1 0) by lia. apply derived_child, derived_refl.
Qed.
