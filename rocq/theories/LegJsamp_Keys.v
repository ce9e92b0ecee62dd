From Coq Require Import List ZArith Bool Reals Permutation Lia Lra.
From Verif Require Import Base BaseFacts Rules_Model LegSamp_Model LegSamp_Spec LegSamp_Proofs LegSamp_Witness
  Keys_Model Keys_Spec Keys_Proofs LegJsamp_Model LegJsamp_Spec LegJsamp_Proofs.
Import ListNotations.
Open Scope nat_scope.

Lemma step_used_disc tr n : proper_rule tr -> disciplined (step_used tr n).
Proof.
  intros T k. unfold step_used. cbn [fst snd].
  set (f := fun j => match j with S (S i) => tr (sub k (2 + n) (2 + i)) | j => [sub k (2 + n) j] end).
  assert (E : sub k (2 + n) 0 :: sub k (2 + n) 1 :: concat (map (fun i => tr (sub k (2 + n) (2 + i))) (seq 0 n))
              = concat (map f (seq 0 (2 + n)))).
  { cbn [Nat.add seq map concat f app]. do 2 f_equal. rewrite <- !seq_shift, !map_map. reflexivity. }
  rewrite E.
  pose proof (concat_unrelated (map (Child k (2 + n)) (seq 0 (2 + n))) f (unrelated_split_list k (2 + n) _ (seq_NoDup _ _)) 0) as C.
  rewrite map_length, seq_length in C. destruct C as [U D].
  { intros i H. cbn [Nat.add].
    assert (X : nth i (map (Child k (S (S n))) (seq 0 (S (S n)))) (Seed 0) = sub k (S (S n)) i).
    { rewrite (nth_indep _ _ (Child k (S (S n)) 0)) by (rewrite map_length, seq_length; exact H).
      rewrite (map_nth (Child k (S (S n)))), seq_nth by exact H. symmetry. apply sub_eq, H. }
    cbn [Nat.add seq map] in X |- *. rewrite X.
    destruct i as [|[|i]]; cbn [f]; [| |apply T]; (split; [constructor; [apply derived_refl|constructor]|repeat constructor]). }
  split; [|exact U]. apply Forall_forall. intros x I. destruct (D x I) as (i & H & Dx). eapply derived_trans; [|exact Dx].
  rewrite (nth_indep _ _ (Child k (2 + n) 0)) by (rewrite map_length, seq_length; exact H).
  rewrite (map_nth (Child k (2 + n))). apply derived_child, derived_refl.
Qed.
Lemma kernel_used_disc tr n sw c : proper_rule tr -> disciplined (kernel_used tr n sw c).
Proof.
  intros T. apply (disc_ext (fun k => (sub k 2 0, snd (times (step_used tr c) (n * sw) (sub k 2 1)) ++ []))).
  - intros k. rewrite app_nil_r. reflexivity.
  - apply (disc_refine (fun k => (sub k 2 0, [sub k 2 1])) (fun k => sub k 2 1) (fun _ => [])
             (fun s => snd (times (step_used tr c) (n * sw) s))); [reflexivity|exact disc2|].
    intros k. destruct (disc_times (step_used tr c) (n * sw) (step_used_disc tr c T) k) as [F U].
    inversion F; subst. inversion U; subst. split; assumption.
Qed.
Lemma times_add f a b k : times f (a + b) k = let '(k1, u) := times f a k in let '(k2, v) := times f b k1 in (k2, u ++ v).
Proof.
  revert k. induction a as [|a IH]; intros k; cbn [Nat.add times].
  - destruct (times f b k). reflexivity.
  - destruct (f k) as [k1 u]. rewrite IH. destruct (times f a k1) as [k2 v]. destruct (times f b k2) as [k3 w]. rewrite app_assoc. reflexivity.
Qed.

Section S.
  Context {Par : Type}.
  Variable size : nat.
  Variable logv : Par -> cfg -> R.
  Variables (unif : key -> nat -> R) (mv : key -> cfg -> cfg) (rd : key -> key * cfg).
  Variables (tr : key -> list key) (ru : key -> key * list key).
  Hypothesis Kru : forall k, fst (rd k) = fst (ru k).

  Lemma scan_random_key n : forall k, fst (scan_random rd n k) = fst (times ru n k).
  Proof.
    induction n as [|n IH]; intros k; [reflexivity|]. cbn [scan_random times]. pose proof (Kru k) as E.
    destruct (rd k) as [k1 x], (ru k) as [k1' u]. cbn in E. subst k1'. specialize (IH k1).
    destruct (scan_random rd n k1) as [k2 xs], (times ru n k1) as [k2' v]. exact IH.
  Qed.
  Lemma op_key s o : j_key (fst (apply_op size logv unif mv rd s o)) = fst (op_used tr ru s o).
  Proof.
    assert (RT : forall s : jsmp Par, j_key (fst (reset rd true s)) = fst (times ru (Z.to_nat (j_chains s)) (j_key s))).
    { intros s0. unfold reset. pose proof (scan_random_key (Z.to_nat (j_chains s0)) (j_key s0)) as E. destruct (scan_random rd _ _). exact E. }
    destruct o as [[|]|[|n] [|]| | | | |n]; cbn [apply_op op_used]; try reflexivity.
    - unfold quiet. cbn [fst]. apply RT.
    - unfold generate. specialize (RT s). destruct (reset_true rd s) as (A1 & A2 & A3 & A4 & A5 & A6 & A7).
      destruct (reset rd true s) as [s0 r]. cbn [fst snd] in *. rewrite A7. destruct (times ru _ _) as [k1 a]. cbn [fst] in RT.
      destruct (_ =? _)%Z; cbn [fst]; [|exact RT]. unfold metropolis_kernel, kernel_used. cbn [fst j_key]. rewrite RT. reflexivity.
    - unfold quiet, set_chains. cbn [fst]. destruct (n <? 0)%Z; [reflexivity|]. rewrite RT. reflexivity.
  Qed.

  Hypothesis T : proper_rule tr.
  Hypothesis D : disciplined ru.
  Lemma op_disc (s : jsmp Par) (o : jop Par) : Forall (derived (j_key s)) (fst (op_used tr ru s o) :: snd (op_used tr ru s o)) /\
    unrelated (fst (op_used tr ru s o) :: snd (op_used tr ru s o)).
  Proof.
    destruct o as [[|]|[|n] [|]| | | | |n]; cbn [op_used]; try apply disc_id; try apply disc_times, D; try apply kernel_used_disc, T.
    - destruct (Z.of_nat (Z.to_nat (j_chains s)) =? j_shape s)%Z.
      + apply (disc_seq (times ru (Z.to_nat (j_chains s))) (kernel_used tr (S n) (Z.to_nat (j_sweep s)) (Z.to_nat (j_chains s))));
          [apply disc_times, D|apply kernel_used_disc, T].
      + pose proof (disc_times ru (Z.to_nat (j_chains s)) D (j_key s)) as X. destruct (times ru _ _). exact X.
    - destruct (n <? 0)%Z; [apply disc_id|apply disc_times, D].
  Qed.
  Lemma history_disc ops : forall s,
    let us := history_used size logv unif mv rd tr ru s ops in
    let k' := j_key (fst (history size logv unif mv rd s ops)) in
    Forall (derived (j_key s)) (k' :: us) /\ unrelated (k' :: us).
  Proof.
    induction ops as [|o ops IH]; intros s; cbv zeta; [apply (disc_id (j_key s))|]. cbn [history_used history].
    pose proof (op_key s o) as K. destruct (op_disc s o) as [F U]. destruct (apply_op size logv unif mv rd s o) as [s1 r]. cbn [fst] in *.
    specialize (IH s1). cbv zeta in IH. destruct IH as [F' U']. destruct (history size logv unif mv rd s1 ops) as [s2 rs]. cbn [fst] in *.
    rewrite <- K in *. set (u := snd (op_used tr ru s o)) in *. set (v := history_used _ _ _ _ _ _ _ _ _) in *.
    inversion F as [|? ? D1 Fu]; subst. inversion F' as [|? ? D2 Fv]; subst. split.
    - constructor; [exact (derived_trans _ _ _ D1 D2)|]. apply Forall_app. split; [exact Fu|exact (Forall_derived_trans _ _ _ D1 Fv)].
    - pose proof (replace_current _ _ _ U F' U') as X.
      apply unrelated_cons_inv in U'. destruct U' as [Uk Uv]. apply unrelated_cons_inv in U. destruct U as [Uk1 Uu].
      constructor; [|apply (replace_current (j_key s1)); [constructor; [apply Forall_forall, Uk1|exact Uu]|exact Fv|exact Uv]].
      apply Forall_app. split; apply Forall_forall; intros x I; [|exact (Uk x I)].
      apply unrelated_sym. apply (below_unrelated x (j_key s1)); [apply unrelated_sym, Uk1, I|exact D2].
  Qed.
End S.

(** ** two sources of random numbers *)
Section Two.
  Context {Par : Type}.
  Variable size : nat.
  Variable logv : Par -> cfg -> R.
  Variables (unif unif' : key -> nat -> R) (mv mv' : key -> cfg -> cfg) (rd rd' : key -> key * cfg).
  Variables (tr : key -> list key) (ru : key -> key * list key).
  Variable P : key -> Prop.
  Hypothesis Hu : forall k i, P k -> unif k i = unif' k i.
  Hypothesis Hm : forall k x, Forall P (tr k) -> mv k x = mv' k x.
  Hypothesis Kru : forall k, fst (rd k) = fst (ru k).
  Hypothesis Hr : forall k, Forall P (snd (ru k)) -> rd k = rd' k.

  Lemma step_two p pow w : Forall P (snd (step_used tr (length (snd w)) (fst w))) -> step logv unif mv p pow w = step logv unif' mv' p pow w.
  Proof.
    destruct w as [k rows]. unfold step_used. cbn [fst snd step]. intros F. inversion F as [|? ? F1 F2]; subst. f_equal.
    apply map_ext_in. intros (i & x & l) I. apply in_combine_l in I.
    assert (E : Forall P (tr (sub k (2 + length rows) (2 + i)))).
    { apply Forall_forall. intros y Iy. rewrite Forall_forall in F2. apply F2, in_concat.
      eexists. split; [apply in_map_iff; exists i; split; [reflexivity|exact I]|exact Iy]. }
    rewrite (Hm _ x E). pose proof (Hu (sub k (2 + length rows) 1) i F1) as EU. rewrite EU. reflexivity.
  Qed.
  Lemma step_key p pow w : fst (step logv unif mv p pow w) = fst (step_used tr (length (snd w)) (fst w)).
  Proof. destruct w. reflexivity. Qed.
  Lemma steps_two p pow n : forall w, Forall P (snd (times (step_used tr (length (snd w))) n (fst w))) ->
    steps logv unif mv p pow n w = steps logv unif' mv' p pow n w /\
    fst (steps logv unif mv p pow n w) = fst (times (step_used tr (length (snd w))) n (fst w)).
  Proof.
    induction n as [|n IH]; intros w F; [split; reflexivity|]. cbn [steps times] in *.
    pose proof (step_key p pow w) as K. pose proof (step_two p pow w) as E. pose proof (step_len logv unif mv p pow w) as L.
    destruct (step_used tr (length (snd w)) (fst w)) as [k1 a]. cbn [fst snd] in *.
    specialize (IH (step logv unif mv p pow w)). rewrite K, L in IH.
    destruct (times (step_used tr (length (snd w))) n k1) as [k2 b]. cbn [fst snd] in *.
    apply Forall_app in F. destruct F as [Fa Fb]. destruct (IH Fb) as [A B]. rewrite <- (E Fa). auto.
  Qed.
  Lemma scan_two p pow sw n : forall w, Forall P (snd (times (step_used tr (length (snd w))) (n * Z.to_nat sw) (fst w))) ->
    scan logv unif mv p pow sw n w = scan logv unif' mv' p pow sw n w.
  Proof.
    induction n as [|n IH]; intros w F; [reflexivity|]. cbn [scan Nat.mul] in *. rewrite times_add in F.
    pose proof (steps_two p pow (Z.to_nat sw) w) as E. pose proof (steps_len logv unif mv p pow (Z.to_nat sw) w) as L.
    destruct (times _ (Z.to_nat sw) (fst w)) as [k1 a]. cbn [fst snd] in E.
    destruct (times _ (n * Z.to_nat sw) k1) as [k2 b] eqn:Eb. cbn [snd] in F. apply Forall_app in F. destruct F as [Fa Fb].
    destruct (E Fa) as [E1 E2]. rewrite <- E1. f_equal. apply IH. rewrite L, E2, Eb. exact Fb.
  Qed.
  Lemma kernel_two n sw xs p pow k : Forall P (snd (kernel_used tr n (Z.to_nat sw) (length xs) k)) ->
    metropolis_kernel logv unif mv n sw xs p pow k = metropolis_kernel logv unif' mv' n sw xs p pow k.
  Proof.
    unfold kernel_used, metropolis_kernel. cbn [snd]. intros F. f_equal. apply scan_two. cbn [fst snd]. rewrite map_length. exact F.
  Qed.
  Lemma scan_random_two n : forall k, Forall P (snd (times ru n k)) -> scan_random rd n k = scan_random rd' n k.
  Proof.
    induction n as [|n IH]; intros k F; [reflexivity|]. cbn [scan_random times] in *. pose proof (Kru k) as K. pose proof (Hr k) as H.
    destruct (ru k) as [k1 u]. cbn [fst snd] in *. destruct (times ru n k1) as [k2 v] eqn:E. cbn [snd] in F. apply Forall_app in F.
    destruct F as [Fu Fv]. rewrite <- (H Fu). destruct (rd k) as [k1' x]. cbn in K. subst k1'. rewrite (IH k1); [reflexivity|]. rewrite E. exact Fv.
  Qed.
  Lemma reset_two (s : jsmp Par) : Forall P (snd (times ru (Z.to_nat (j_chains s)) (j_key s))) -> reset rd true s = reset rd' true s.
  Proof. intros F. unfold reset. rewrite (scan_random_two _ _ F). reflexivity. Qed.
  Lemma op_two s o : Forall P (snd (op_used tr ru s o)) -> apply_op size logv unif mv rd s o = apply_op size logv unif' mv' rd' s o.
  Proof.
    destruct o as [[|]|[|n] [|]| | | | |n]; cbn [apply_op op_used]; intros F; try reflexivity.
    - rewrite reset_two by exact F. reflexivity.
    - unfold generate. pose proof (reset_two s) as RT. destruct (reset_true rd s) as (A1 & A2 & A3 & A4 & A5 & A6 & A7).
      assert (KK : j_key (fst (reset rd true s)) = fst (times ru (Z.to_nat (j_chains s)) (j_key s))).
      { unfold reset. pose proof (scan_random_key rd ru Kru (Z.to_nat (j_chains s)) (j_key s)) as E. destruct (scan_random rd _ _). exact E. }
      destruct (times ru _ _) as [k1 a]. cbn [fst snd] in *.
      destruct (Z.of_nat (Z.to_nat (j_chains s)) =? j_shape s)%Z.
      + destruct (kernel_used tr (S n) (Z.to_nat (j_sweep s)) (Z.to_nat (j_chains s)) k1) as [k2 b] eqn:E. cbn [snd] in F.
        apply Forall_app in F. destruct F as [Fa Fb]. rewrite <- (RT Fa). destruct (reset rd true s) as [s0 r]. cbn [fst snd] in *. subst r.
        rewrite kernel_two; [reflexivity|]. rewrite A2, A6, KK, E. exact Fb.
      + cbn [snd] in F. rewrite <- (RT F). destruct (reset rd true s) as [s0 r]. cbn [fst snd] in *. subst r. reflexivity.
    - unfold generate. rewrite !reset_false. rewrite kernel_two by exact F. reflexivity.
    - unfold next. rewrite kernel_two by exact F. reflexivity.
    - unfold set_chains. destruct (n <? 0)%Z; [reflexivity|]. rewrite reset_two by exact F. reflexivity.
  Qed.
  Lemma history_two ops : forall s, Forall P (history_used size logv unif mv rd tr ru s ops) ->
    history size logv unif mv rd s ops = history size logv unif' mv' rd' s ops.
  Proof.
    induction ops as [|o ops IH]; intros s F; [reflexivity|]. cbn [history history_used] in *. apply Forall_app in F. destruct F as [Fa Fb].
    rewrite <- (op_two s o Fa). destruct (apply_op size logv unif mv rd s o) as [s1 r]. cbn [fst] in Fb. rewrite (IH s1 Fb). reflexivity.
  Qed.
End Two.

(** ** the kernels *)
Lemma local_two {Par} r r' ls size logv (s : jsmp Par) ops :
  Forall (agree r r') (local_used r ls size logv s ops) -> local_history r ls size logv s ops = local_history r' ls size logv s ops.
Proof.
  intros F. unfold local_history. apply (history_two size logv) with (P := agree r r') (tr := local_rule) (ru := local_random_used); try exact F.
  - intros k i H. apply H.
  - intros k x H. unfold local_rule in H. inversion H as [|? ? H1 H']; subst. inversion H' as [|? ? H2 _]; subst.
    unfold jlocal_move. rewrite (proj2 H1), (proj2 H2). reflexivity.
  - reflexivity.
  - intros k H. inversion H as [|? ? H1 _]; subst. unfold jlocal_random. f_equal. apply map_ext. intros i. rewrite (proj2 H1). reflexivity.
Qed.
Lemma exch_two {Par} r r' cs traced size logv (s : jsmp Par) ops :
  Forall (agree r r') (exch_used r cs traced size logv s ops) -> exch_history r cs traced size logv s ops = exch_history r' cs traced size logv s ops.
Proof.
  intros F. unfold exch_history. apply (history_two size logv) with (P := agree r r') (tr := whole) (ru := exch_random_used); try exact F.
  - intros k i H. apply H.
  - intros k x H. inversion H as [|? ? H1 _]; subst. unfold jexch_move. rewrite (proj2 H1). reflexivity.
  - reflexivity.
  - reflexivity.
Qed.
Lemma local_keys {Par} r ls size logv (s : jsmp Par) ops :
  let us := local_used r ls size logv s ops in
  let k' := j_key (fst (local_history r ls size logv s ops)) in
  Forall (derived (j_key s)) (k' :: us) /\ unrelated (k' :: us).
Proof. apply history_disc; [reflexivity|exact proper_local|exact disc2]. Qed.
Lemma exch_keys {Par} r cs traced size logv (s : jsmp Par) ops :
  let us := exch_used r cs traced size logv s ops in
  let k' := j_key (fst (exch_history r cs traced size logv s ops)) in
  Forall (derived (j_key s)) (k' :: us) /\ unrelated (k' :: us).
Proof. apply history_disc; [reflexivity|exact proper_whole|exact disc_id]. Qed.

Lemma local_conf {Par} r ls size logv (p : Par) k n sw s ops : bounded r -> NoDup ls -> 2 <= length ls -> 0 < size ->
  make size (jlocal_random r ls size) p k n sw = Ok s ->
  Forall (local_cfg ls size) (j_state (fst (local_history r ls size logv s ops))) /\
  Forall (local_cfg ls size) (results (snd (local_history r ls size logv s ops))).
Proof.
  intros B N L Z M. unfold local_history. apply (conf_main size logv) with (p := p) (k := k) (n := n) (sw := sw); [| |exact M].
  - intros k0 x X. unfold jlocal_move.
    apply (proj1 (local_move_main ls size (r_int r (sub k0 2 0) size 0) (r_int r (sub k0 2 1) (length ls - 1) 0) x N X (B _ _ _ Z)
              ltac:(pose proof (B (sub k0 2 1) (length ls - 1) 0 ltac:(lia)); lia))).
  - intros k0. unfold jlocal_random. cbn [snd].
    pose proof (local_random ls (map (fun i => r_int r (sub k0 2 1) (length ls) i) (seq 0 size))) as X.
    rewrite map_length, seq_length in X. unfold leg_local_random in X. rewrite map_map in X. apply X.
    apply Forall_forall. intros y I. apply in_map_iff in I. destruct I as (i & <- & _). apply B. lia.
Qed.
Lemma exch_conf {Par} r cs traced size logv (p : Par) k n sw s ops : bounded r -> cs <> [] -> on_sites_nat size cs -> length traced = size ->
  make size (jexch_random traced) p k n sw = Ok s ->
  Forall (Permutation traced) (j_state (fst (exch_history r cs traced size logv s ops))) /\
  Forall (Permutation traced) (results (snd (exch_history r cs traced size logv s ops))).
Proof.
  intros B N O L M. unfold exch_history. apply (conf_main size logv) with (p := p) (k := k) (n := n) (sw := sw); [| |exact M].
  - intros k0 x X. unfold jexch_move. set (c := nth _ cs _).
    assert (I : In c cs) by (apply nth_In, B; destruct cs; [congruence|cbn; lia]).
    unfold on_sites_nat in O. rewrite Forall_forall in O. destruct (O c I) as [C1 C2].
    eapply Permutation_trans; [exact X|]. apply (proj1 (exchange_move_main size c x C1 C2 ltac:(rewrite <- (Permutation_length X); exact L))).
  - intros k0. apply Permutation_refl.
Qed.
Lemma exch_random_same traced n k : scan_random (jexch_random traced) n k = (k, repeat traced n).
Proof. induction n as [|n IH]; [reflexivity|]. cbn [scan_random jexch_random]. rewrite IH. reflexivity. Qed.
Lemma exch_start {Par} traced (s : jsmp Par) : let s1 := fst (reset (jexch_random traced) true s) in
  j_state s1 = repeat traced (Z.to_nat (j_chains s)) /\ j_key s1 = j_key s.
Proof. unfold reset. rewrite exch_random_same. cbn. auto. Qed.
