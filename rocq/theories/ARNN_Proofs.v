(** * Proofs about autoregressive wave functions *)
From Coq Require Import List Arith ZArith Reals Lia Lra Bool Permutation.
From Verif Require Import Base Rings Masked_Model Masked_Spec Masked_Proofs ARNN_Model ARNN_Spec.
Import ListNotations.
Open Scope R_scope.

Lemma cC_laws : cring_laws cC.
Proof.
  constructor; cbn [cC T r0 r1 radd rmul rsub ropp rconj]; intros;
    [constructor; intros|..]; apply injective_projections; cbn [fst snd]; ring.
Qed.

(** ** Sums *)
Lemma total_ext {X} (f g : X -> R) l : (forall x, In x l -> f x = g x) -> total f l = total g l.
Proof. induction l as [|a l IH]; intros H; cbn; [reflexivity|]. rewrite H by (left; auto). rewrite IH; [reflexivity|]. intros; apply H; right; auto. Qed.
Lemma total_scal {X} c (f : X -> R) l : total (fun x => c * f x) l = c * total f l.
Proof. induction l as [|a l IH]; cbn; [ring|]. rewrite IH. ring. Qed.
Lemma total_app {X} (f : X -> R) l m : total f (l ++ m) = total f l + total f m.
Proof. induction l as [|a l IH]; cbn; [ring|]. rewrite IH. ring. Qed.
Lemma total_map {X Y} (f : Y -> R) (g : X -> Y) l : total f (map g l) = total (fun x => f (g x)) l.
Proof. induction l as [|a l IH]; cbn; [reflexivity|]. rewrite IH. reflexivity. Qed.
Lemma total_flat_map {X Y} (f : Y -> R) (g : X -> list Y) l :
  total f (flat_map g l) = total (fun x => total f (g x)) l.
Proof. induction l as [|a l IH]; cbn; [reflexivity|]. rewrite total_app, IH. reflexivity. Qed.
Lemma total_perm {X} (f : X -> R) l m : Permutation l m -> total f l = total f m.
Proof. induction 1; cbn; [reflexivity|congruence|ring|congruence]. Qed.
Lemma product_ext n f g : (forall i, (i < n)%nat -> f i = g i) -> product n f = product n g.
Proof. induction n; intros H; cbn; [reflexivity|]. rewrite IHn by auto. rewrite H by lia. reflexivity. Qed.

Lemma list_nth_seq {A} (l : list A) d : l = map (fun k => nth k l d) (seq 0 (length l)).
Proof.
  induction l as [|a l IH]; cbn [length seq map nth]; [reflexivity|]. f_equal.
  rewrite <- seq_shift, map_map. exact IH.
Qed.

(** ** The chain rule: a product of normalised conditionals is normalised *)
Section Chain.
  Variable locals : list Z.
  Variable N : nat.
  Variable p : list Z -> nat -> Z -> R.
  Hypothesis local_nodup : NoDup locals.
  Hypothesis d_in : locals <> [].
  Let valid (n : nat) (s : list Z) := length s = n /\ Forall (fun v => In v locals) s.
  Hypothesis causal : forall s s' i v, valid N s -> valid N s' -> firstn i s = firstn i s' -> (i < N)%nat ->
    In v locals -> p s i v = p s' i v.
  Hypothesis normal : forall s i, valid N s -> (i < N)%nat -> total (p s i) locals = 1.

  Fixpoint configs (m : nat) : list (list Z) :=
    match m with O => [[]] | S m => flat_map (fun c => map (fun v => c ++ [v]) locals) (configs m) end.

  Lemma configs_in m s : In s (configs m) <-> valid m s.
  Proof.
    revert s. induction m as [|m IH]; intros s; cbn [configs].
    - split.
      + intros [<-|[]]. split; [reflexivity|constructor].
      + intros [H _]. apply length_zero_iff_nil in H. left. congruence.
    - rewrite in_flat_map. split.
      + intros [c [Hc Hv]]. apply in_map_iff in Hv. destruct Hv as [v [<- Hv]]. apply IH in Hc.
        destruct Hc as [H1 H2]. split; [rewrite app_length; cbn; lia|]. apply Forall_app. split; auto.
      + intros [H1 H2]. assert (Hne : s <> []) by (intros ->; discriminate).
        exists (removelast s). rewrite (app_removelast_last 0%Z Hne) in H1, H2.
        rewrite app_length in H1. cbn in H1. apply Forall_app in H2. destruct H2 as [H2 H3].
        apply Forall_cons_iff in H3. destruct H3 as [H3 _]. split.
        * apply IH. split; [lia|exact H2].
        * apply in_map_iff. exists (last s 0%Z). split; [|exact H3]. symmetry. apply app_removelast_last. exact Hne.
  Qed.

  Lemma configs_nodup m : NoDup (configs m).
  Proof.
    induction m as [|m IH]; cbn [configs]; [constructor; [intros []|constructor]|].
    assert (G : forall l, NoDup l -> NoDup (flat_map (fun c => map (fun v => c ++ [v]) locals) l)).
    { induction l as [|c l IHl]; intros Hl; cbn [flat_map]; [constructor|].
      apply NoDup_cons_iff in Hl. destruct Hl as [Hc Hl].
      assert (Gm : NoDup (map (fun v => c ++ [v]) locals)).
      { clear - local_nodup. induction locals as [|v l' IHl']; cbn; [constructor|].
        apply NoDup_cons_iff in local_nodup. destruct local_nodup as [H1 H2]. constructor; [|apply IHl', H2].
        intros Hin. apply in_map_iff in Hin. destruct Hin as [w [E Hw]]. apply app_inv_head in E.
        injection E as ->. contradiction. }
      specialize (IHl Hl). clear - Gm IHl Hc.
      assert (D : forall x, In x (map (fun v => c ++ [v]) locals) ->
                  ~ In x (flat_map (fun c => map (fun v => c ++ [v]) locals) l)).
      { intros x Hx Hy. apply in_map_iff in Hx. destruct Hx as [v [<- _]]. apply in_flat_map in Hy.
        destruct Hy as [c' [Hc' Hv]]. apply in_map_iff in Hv. destruct Hv as [w [E _]].
        apply app_inj_tail in E. destruct E as [-> _]. contradiction. }
      revert Gm D. generalize (map (fun v => c ++ [v]) locals) as A. clear Hc. intros A.
      induction A as [|a A IHA]; intros Gm D; cbn; [exact IHl|]. apply NoDup_cons_iff in Gm. destruct Gm as [G1 G2].
      constructor.
      - intros Hin. apply in_app_or in Hin. destruct Hin as [Hin|Hin]; [contradiction|].
        apply (D a (or_introl eq_refl) Hin).
      - apply IHA; [exact G2|]. intros x Hx. apply D. right. exact Hx. }
    apply G, IH.
  Qed.

  Let pad (m : nat) (c : list Z) : list Z := c ++ repeat (hd 0%Z locals) (N - m).

  Lemma pad_valid m c : (m <= N)%nat -> valid m c -> valid N (pad m c).
  Proof.
    intros Hm [H1 H2]. unfold pad. split; [rewrite app_length, repeat_length; lia|].
    apply Forall_app. split; [exact H2|]. apply Forall_forall. intros v Hv. apply repeat_spec in Hv. subst v.
    destruct locals as [|w l]; [contradiction|]. left. reflexivity.
  Qed.

  Lemma partial_sum m : (m <= N)%nat ->
    total (fun c => product m (fun i => p (pad m c) i (nth i c 0%Z))) (configs m) = 1.
  Proof.
    induction m as [|m IH]; intros Hm.
    - cbn. ring.
    - cbn [configs]. rewrite total_flat_map.
      transitivity (total (fun c => product m (fun i => p (pad m c) i (nth i c 0%Z))) (configs m)); [|apply IH; lia].
      apply total_ext. intros c Hc. apply configs_in in Hc. rewrite total_map.
      transitivity (total (fun v => product m (fun i => p (pad m c) i (nth i c 0%Z)) * p (pad m c) m v) locals).
      + apply total_ext. intros v Hv. cbn [product].
        assert (Lc : length c = m) by apply Hc.
        assert (Vc : valid (S m) (c ++ [v])).
        { destruct Hc as [H1 H2]. split; [rewrite app_length; cbn; lia|]. apply Forall_app. split; auto. }
        assert (E : forall i, (i <= m)%nat -> firstn i (pad (S m) (c ++ [v])) = firstn i (pad m c)).
        { intros i Hi. unfold pad. rewrite <- app_assoc. rewrite !firstn_app.
          replace (i - length c)%nat with O by lia. reflexivity. }
        f_equal.
        * apply product_ext. intros i Hi. rewrite app_nth1 by lia.
          apply causal; [apply pad_valid; auto|apply pad_valid; [lia|auto]|apply E; lia|lia|].
          destruct Hc as [H1 H2]. rewrite Forall_forall in H2. apply H2, nth_In. lia.
        * rewrite app_nth2 by lia. rewrite Lc, Nat.sub_diag. cbn [nth].
          apply causal; [apply pad_valid; auto|apply pad_valid; [lia|auto]|apply E; lia|lia|exact Hv].
      + rewrite total_scal. rewrite normal; [ring| |lia]. apply pad_valid; [lia|exact Hc].
  Qed.

  Lemma chain_total space : NoDup space -> (forall s, In s space <-> valid N s) ->
    total (fun s => product N (fun i => p s i (nth i s 0%Z))) space = 1.
  Proof.
    intros Hn Hs. rewrite (total_perm _ space (configs N)).
    - rewrite <- (partial_sum N) by lia. apply total_ext. intros c Hc. unfold pad.
      rewrite Nat.sub_diag. cbn [repeat]. rewrite app_nil_r. reflexivity.
    - apply NoDup_Permutation; [exact Hn|apply configs_nodup|]. intros s. rewrite Hs, configs_in. reflexivity.
  Qed.
End Chain.

(** ** Local states *)
Definition locals_of (h : hspace) : list Z :=
  match h with
  | HSpin n => map (fun k => (2 * Z.of_nat k - Z.of_nat n + 1)%Z) (seq 0 n)
  | HFock n | HOther n => map Z.of_nat (seq 0 n)
  end.
Lemma locals_in h v : In v (locals_of h) <-> local_state h v.
Proof.
  destruct h; cbn [locals_of local_state]; rewrite in_map_iff; split; intros [k H]; exists k;
    rewrite in_seq in *; intuition; lia.
Qed.
Lemma locals_nodup h : NoDup (locals_of h).
Proof. destruct h; apply FinFun.Injective_map_NoDup; try apply seq_NoDup; intros a b H; lia. Qed.
Lemma locals_length h : length (locals_of h) = local_size h.
Proof. destruct h; cbn; rewrite map_length, seq_length; reflexivity. Qed.

Definition supported (h : hspace) : Prop := match h with HOther _ => False | _ => True end.
Lemma number_position h v k : supported h -> position h v k ->
  local_states_to_number h v = Ok (Z.of_nat k) /\ (k < local_size h)%nat /\ nth k (locals_of h) 0%Z = v.
Proof.
  destruct h as [n|n|n]; intros Hs; cbn [position local_states_to_number local_size locals_of]; [| |contradiction]; intros [H ->].
  - split; [f_equal|split; [exact H|]].
    + replace (2 * Z.of_nat k - Z.of_nat n + 1 + Z.of_nat n - 1)%Z with (Z.of_nat k * 2)%Z by lia.
      apply Z.quot_mul. lia.
    + apply (nth_map_seq' (fun k => (2 * Z.of_nat k - Z.of_nat n + 1)%Z)). exact H.
  - split; [reflexivity|split; [exact H|]]. apply (nth_map_seq' Z.of_nat). exact H.
Qed.
Lemma local_position h v : local_state h v -> exists k, position h v k.
Proof. destruct h; cbn; intros [k H]; exists k; exact H. Qed.

(** ** Rows *)
Lemma exp_sum_pos l : l <> [] -> 0 < exp_sum l.
Proof.
  intros H. assert (G : forall l, 0 <= exp_sum l).
  { induction l0 as [|x l0 IH]; cbn; [lra|]. pose proof (exp_pos x). lra. }
  destruct l as [|x l]; [contradiction|]. cbn. pose proof (exp_pos x). pose proof (G l). lra.
Qed.
Lemma total_exp_sum (row : list (R * R)) :
  total (fun z => exp (2 * fst z)) row = exp_sum (map (fun z => 2 * fst z) row).
Proof. induction row as [|z row IH]; cbn; [reflexivity|]. rewrite IH. reflexivity. Qed.
Lemma normalised_row row : row <> [] -> total (fun z => exp (2 * fst z)) (l2_normalize row) = 1.
Proof.
  intros H. unfold l2_normalize. cbn zeta. set (S := map (fun z => 2 * fst z) row).
  rewrite total_map. cbn [fst].
  assert (HS : 0 < exp_sum S) by (apply exp_sum_pos; unfold S; destruct row; [contradiction|discriminate]).
  rewrite (total_ext _ (fun z => / exp_sum S * exp (2 * fst z))).
  - rewrite total_scal, total_exp_sum. fold S. field. lra.
  - intros z _. unfold logsumexp. replace (2 * (fst z - 1 / 2 * ln (exp_sum S))) with (- ln (exp_sum S) + 2 * fst z) by lra.
    rewrite exp_plus, exp_Ropp, exp_ln by exact HS. reflexivity.
Qed.

(** ** Features of the output *)
Lemma forward_features C act (ls : list (layer C)) d : forall n c m x y, shaped n c x -> ls <> [] ->
  forward C act m ls x = Ok y -> Forall (fun r => length r = layer_features (last ls d)) y.
Proof.
  induction ls as [|l ls IH]; intros n c m x y Hx Hne H; [contradiction|]. cbn [forward] in H.
  set (ax := if (O <? m)%nat then map (map act) x else x) in *.
  assert (Sx : shaped n c ax) by (unfold ax; destruct (O <? m)%nat; [apply act_shaped|]; assumption).
  destruct (apply_layer C (m =? O)%nat l ax) as [y1|] eqn:E; [|discriminate]. cbn [bind] in H.
  assert (Sy : exists n', shaped n' (layer_features l) y1).
  { destruct l as [F k b|F ks dd g k b]; cbn [apply_layer layer_features] in *.
    - injection E as <-. exists n. apply (dense_shaped C _ F k b n c). exact Sx.
    - eexists. eapply conv_shaped; [exact Sx|exact E]. }
  destruct Sy as [n' Sy]. destruct ls as [|l' ls].
  - cbn [forward] in H. injection H as <-. apply Sy.
  - change (last (l :: l' :: ls) d) with (last (l' :: ls) d).
    apply (IH n' (layer_features l) (S m) y1 y); [exact Sy|discriminate|exact H].
Qed.

Lemma forward_same_length C act (L : list (layer C)) : forall n c m a b y y', shaped n c a -> shaped n c b ->
  forward C act m L a = Ok y -> forward C act m L b = Ok y' -> length y = length y'.
Proof.
  induction L as [|l L IH]; intros n c m a b y y' Ha Hb H H'; cbn [forward] in *.
  - injection H as <-. injection H' as <-. destruct Ha, Hb. congruence.
  - set (ax := if (O <? m)%nat then map (map act) a else a) in *.
    set (bx := if (O <? m)%nat then map (map act) b else b) in *.
    assert (Sa : shaped n c ax) by (unfold ax; destruct (O <? m)%nat; [apply act_shaped|]; assumption).
    assert (Sb : shaped n c bx) by (unfold bx; destruct (O <? m)%nat; [apply act_shaped|]; assumption).
    destruct (apply_layer C (m =? O)%nat l ax) as [y1|] eqn:E; [|discriminate]. cbn [bind] in H.
    destruct (apply_layer C (m =? O)%nat l bx) as [y2|] eqn:E2; [|discriminate]. cbn [bind] in H'.
    destruct (layer_shaped C _ l n c ax y1 Sa E) as (n' & c' & _ & Hsh & _).
    apply (IH n' c' (S m) y1 y2 y y'); [apply (Hsh ax)|apply (Hsh bx)|exact H|exact H']; assumption.
Qed.

Section Model.
  Variable h : hspace.
  Variable act : R * R -> R * R.
  Variable ls : list (layer cC).

  Lemma cond_ok s y : conditional_log_psi h act ls s = Ok y ->
    ls <> [] /\ layer_features (last ls (LDense O (fun _ _ => r0 cC) None)) = local_size h /\
    exists x, network cC act ls (map (fun z => (IZR z, 0)) s) = Ok x /\ y = map l2_normalize x.
  Proof.
    unfold conditional_log_psi. destruct ls as [|l l'] eqn:E; [discriminate|]. rewrite <- E.
    destruct (Nat.eqb_spec (layer_features (last ls (LDense O (fun _ _ => r0 cC) None))) (local_size h));
      cbn [negb]; [|discriminate].
    destruct (network cC act ls (map (fun z => (IZR z, 0)) s)) as [x|]; cbn [bind]; [|discriminate].
    intros H. injection H as <-. split; [rewrite E; discriminate|]. split; [assumption|]. exists x. auto.
  Qed.

  Lemma cond_rows s y : conditional_log_psi h act ls s = Ok y ->
    Forall (fun r => length r = local_size h) y.
  Proof.
    intros H. apply cond_ok in H. destruct H as (Hne & HF & x & Hx & ->).
    pose proof (forward_features cC act ls (LDense O (fun _ _ => r0 cC) None) (length s) 1 O
      (map (fun v => [v]) (map (fun z => (IZR z, 0)) s)) x) as G.
    rewrite HF in G. rewrite Forall_forall. intros r Hr. apply in_map_iff in Hr. destruct Hr as [r' [<- Hr]].
    unfold l2_normalize. rewrite map_length. revert r' Hr. rewrite <- Forall_forall. apply G; [|exact Hne|exact Hx].
    split; [rewrite !map_length; reflexivity|]. apply Forall_forall. intros r Hr. apply in_map_iff in Hr.
    destruct Hr as [v [<- _]]. reflexivity.
  Qed.

  Lemma cond_autoregressive s s' y i : length s = length s' -> firstn i s = firstn i s' ->
    conditional_log_psi h act ls s = Ok y ->
    exists y', conditional_log_psi h act ls s' = Ok y' /\ nth i y [] = nth i y' [].
  Proof.
    intros Hl Hf H. pose proof H as H0. apply cond_ok in H. destruct H as (Hne & HF & x & Hx & ->).
    destruct (network_autoregressive cC cC_laws act ls (map (fun z => (IZR z, 0)) s)
       (map (fun z => (IZR z, 0)) s') x i) as [x' [Hx' E]].
    - exact Hne.
    - rewrite !map_length. exact Hl.
    - unfold same_before. rewrite !firstn_map, Hf. reflexivity.
    - exact Hx.
    - exists (map l2_normalize x'). split.
      + unfold conditional_log_psi. destruct ls as [|l l'] eqn:El; [contradiction|]. rewrite <- El in *.
        rewrite HF, Nat.eqb_refl. cbn [negb]. rewrite Hx'. reflexivity.
      + rewrite !(map_nth' l2_normalize [] []) by reflexivity. exact (f_equal l2_normalize E).
  Qed.

  (** probability of the local state [v] at site [i] *)
  Definition prob (s : list Z) (i : nat) (v : Z) : R :=
    match local_states_to_number h v, conditionals h act ls s with
    | Ok k, Ok c => nth (Z.to_nat k) (nth i c []) 0
    | _, _ => 0
    end.

  Lemma number_ok v k : supported h -> position h v k -> local_states_to_number h v = Ok (Z.of_nat k).
  Proof. intros Hs Hp. apply (number_position h v k Hs Hp). Qed.

  Lemma prob_eq s y i v k : supported h -> conditional_log_psi h act ls s = Ok y -> position h v k -> (i < length y)%nat ->
    prob s i v = exp (2 * fst (nth k (nth i y []) (0, 0))).
  Proof.
    intros Hs H Hp Hi. unfold prob. rewrite (number_ok v k Hs Hp). unfold conditionals. rewrite H. cbn [bind].
    rewrite Nat2Z.id. set (g := fun z : R * R => exp (2 * fst z)).
    rewrite (map_nth' (map g) [] []) by reflexivity.
    rewrite (nth_indep _ 0 (g (0, 0))).
    - rewrite map_nth. reflexivity.
    - rewrite map_length. pose proof (cond_rows s y H) as Hr. rewrite Forall_forall in Hr.
      rewrite (Hr (nth i y [])) by (apply nth_In; exact Hi). apply (number_position h v k Hs Hp).
  Qed.

  Lemma prob_total s y i : supported h -> (0 < local_size h)%nat -> conditional_log_psi h act ls s = Ok y -> (i < length y)%nat ->
    total (prob s i) (locals_of h) = 1.
  Proof.
    intros Hs Hz H Hi. pose proof H as H0. apply cond_ok in H. destruct H as (_ & _ & x & _ & E).
    assert (Hr : length (nth i y []) = local_size h).
    { pose proof (cond_rows s y H0) as Hr. rewrite Forall_forall in Hr. apply Hr, nth_In. exact Hi. }
    rewrite <- (normalised_row (nth i x [])).
    - assert (En : nth i y [] = l2_normalize (nth i x [])).
      { rewrite E. apply (map_nth' l2_normalize). reflexivity. }
      rewrite <- En. clear En.
      transitivity (total (fun k => exp (2 * fst (nth k (nth i y []) (0, 0)))) (seq 0 (local_size h))).
      + assert (G : forall k, (k < local_size h)%nat -> position h (nth k (locals_of h) 0%Z) k).
        { intros k Hk. destruct h as [n|n|n]; cbn [locals_of position local_size] in *; (split; [exact Hk|]).
          - apply (nth_map_seq' (fun k => (2 * Z.of_nat k - Z.of_nat n + 1)%Z)). exact Hk.
          - apply (nth_map_seq' Z.of_nat). exact Hk.
          - apply (nth_map_seq' Z.of_nat). exact Hk. }
        transitivity (total (fun k => prob s i (nth k (locals_of h) 0%Z)) (seq 0 (local_size h))).
        * rewrite <- (total_map (prob s i) (fun k => nth k (locals_of h) 0%Z)). f_equal.
          rewrite <- locals_length. apply list_nth_seq.
        * apply total_ext. intros k Hk. apply in_seq in Hk. apply (prob_eq s y); auto. apply G. lia.
      + rewrite <- Hr. clear. generalize (nth i y []) as l. intros l.
        rewrite <- (total_map (fun z => exp (2 * fst z)) (fun k => nth k l (0, 0))). f_equal.
        symmetry. apply list_nth_seq.
    - intros Hn. rewrite E in Hr. rewrite (map_nth' l2_normalize [] []) in Hr by reflexivity.
      unfold l2_normalize in Hr. rewrite map_length in Hr.
      apply (f_equal (@length (R * R))) in Hn. cbn [length] in Hn. unfold rows in *. cbn [cC T] in *. lia.
  Qed.

  (** ** _call *)
  Lemma take_ok (row : list (R * R)) k : (k < length row)%nat -> take row (Z.of_nat k) = Ok (nth k row (0, 0)).
  Proof.
    intros H. unfold take. destruct (Z.ltb_spec (Z.of_nat k) 0); [lia|]. rewrite Nat2Z.id.
    rewrite (nth_error_nth' row (0, 0) H). reflexivity.
  Qed.

  Lemma fst_lsum (l : list (R * R)) : fst (lsum cC l) = total fst l.
  Proof. induction l as [|a l IH]; cbn in *; [reflexivity|]. rewrite IH. reflexivity. Qed.

  Lemma exp_total (f : nat -> R) n : exp (2 * total f (seq 0 n)) = product n (fun i => exp (2 * f i)).
  Proof.
    induction n as [|n IH]; [cbn; replace (2 * 0) with 0 by ring; apply exp_0|].
    rewrite seq_S, total_app. cbn [total product]. rewrite <- IH, <- exp_plus. f_equal. rewrite Nat.add_0_l. ring.
  Qed.

  Lemma sequence_map {A B} (f : A -> res B) (g : A -> B) l : (forall x, In x l -> f x = Ok (g x)) ->
    sequence (map f l) = Ok (map g l).
  Proof.
    induction l as [|a l IH]; intros H; cbn [map sequence]; [reflexivity|].
    rewrite H by (left; auto). rewrite IH by (intros; apply H; right; auto). reflexivity.
  Qed.

  Lemma total_combine_nth {A B} (f : A * B -> R) a b da db : length a = length b ->
    total f (combine a b) = total (fun i => f (nth i a da, nth i b db)) (seq 0 (length a)).
  Proof.
    revert b. induction a as [|x a IH]; intros [|y b] H; try discriminate; cbn [combine total length seq nth]; [reflexivity|].
    f_equal. rewrite IH by (cbn in H; lia). rewrite <- seq_shift, total_map. reflexivity.
  Qed.

  Lemma call_product s y : supported h -> Forall (local_state h) s ->
    conditional_log_psi h act ls s = Ok y -> length y = length s ->
    exists lp, call h act ls s = Ok lp /\
      exp (2 * fst lp) = product (length s) (fun i => prob s i (nth i s 0%Z)).
  Proof.
    intros Hsup Hs H Hl. unfold call.
    set (num := fun v => match local_states_to_number h v with Ok k => k | Err _ => 0%Z end).
    assert (Hnum : forall v, In v s -> local_states_to_number h v = Ok (num v) /\
                     exists k, num v = Z.of_nat k /\ position h v k /\ (k < local_size h)%nat).
    { intros v Hv. rewrite Forall_forall in Hs. destruct (local_position h v (Hs v Hv)) as [k Hk].
      destruct (number_position h v k Hsup Hk) as [E [Hlt _]]. unfold num. rewrite E. split; [reflexivity|].
      exists k. auto. }
    rewrite (sequence_map _ num) by (intros v Hv; apply (Hnum v Hv)). cbn [bind]. rewrite H. cbn [bind].
    rewrite map_length, Hl, Nat.eqb_refl. cbn [negb].
    rewrite (sequence_map _ (fun t => nth (Z.to_nat (snd t)) (fst t) (0, 0))).
    - cbn [bind]. eexists. split; [reflexivity|]. rewrite fst_lsum, total_map.
      rewrite (total_combine_nth _ y (map num s) [] 0%Z) by (rewrite map_length; exact Hl). rewrite exp_total, Hl.
      apply product_ext. intros i Hi. cbn [fst snd].
      destruct (Hnum (nth i s 0%Z)) as [_ [k [Ek [Pk _]]]]; [apply nth_In; exact Hi|].
      rewrite (prob_eq s y i _ k Hsup H Pk) by lia. do 4 f_equal.
      rewrite (nth_indep _ 0%Z (num 0%Z)) by (rewrite map_length; exact Hi). rewrite map_nth, Ek. apply Nat2Z.id.
    - intros [r k] Hin. cbn [fst snd]. pose proof (in_combine_l _ _ _ _ Hin) as Hr.
      apply in_combine_r, in_map_iff in Hin. destruct Hin as [v [<- Hv]].
      destruct (Hnum v Hv) as [_ [k [-> [_ Hk]]]]. rewrite Nat2Z.id. apply take_ok.
      pose proof (cond_rows s y H) as G. rewrite Forall_forall in G. rewrite (G r Hr). exact Hk.
  Qed.

  Lemma call_inv s lp : call h act ls s = Ok lp -> exists y, conditional_log_psi h act ls s = Ok y /\ length y = length s.
  Proof.
    unfold call. destruct (sequence (map (local_states_to_number h) s)) as [idx|] eqn:E; cbn [bind]; [|discriminate].
    destruct (conditional_log_psi h act ls s) as [y|]; cbn [bind]; [|discriminate].
    destruct (Nat.eqb_spec (length y) (length idx)) as [El|]; cbn [negb]; [|discriminate]. intros _.
    exists y. split; [reflexivity|]. rewrite El. clear - E. revert idx E.
    induction s as [|v s IH]; intros idx E; cbn [map sequence] in E; [injection E as <-; reflexivity|].
    destruct (local_states_to_number h v); cbn [bind] in E; [|discriminate].
    destruct (sequence (map (local_states_to_number h) s)) as [t|]; cbn [bind] in E; [|discriminate].
    injection E as <-. cbn. f_equal. apply IH. reflexivity.
  Qed.

  Lemma network_len_ind x s s' : network cC act ls s = Ok x -> length s = length s' -> ls <> [] ->
    forall x', network cC act ls s' = Ok x' -> length x = length x'.
  Proof.
    intros H Hl Hne x' H'. 
    assert (Sh : forall t : list (R * R), shaped (length t) 1 (map (fun v => [v]) t)).
    { intros t. split; [apply map_length|]. apply Forall_forall. intros r Hr. apply in_map_iff in Hr.
      destruct Hr as [v [<- _]]. reflexivity. }
    apply (forward_same_length cC act ls (length s) 1%nat O (map (fun v => [v]) s) (map (fun v => [v]) s'));
      [apply Sh|rewrite Hl; apply Sh|exact H|exact H'].
  Qed.

  Lemma cond_all s0 y0 s : conditional_log_psi h act ls s0 = Ok y0 -> length s = length s0 ->
    exists y, conditional_log_psi h act ls s = Ok y /\ length y = length y0.
  Proof.
    intros H Hl. destruct (cond_autoregressive s0 s y0 0 (eq_sym Hl) eq_refl H) as [y [Hy _]].
    exists y. split; [exact Hy|]. apply cond_ok in H, Hy. destruct H as (Hne & _ & x & Hx & ->), Hy as (_ & _ & x' & Hx' & ->).
    rewrite !map_length. symmetry. eapply network_len_ind; [exact Hx| |exact Hne|exact Hx'].
    rewrite !map_length. auto.
  Qed.

  Lemma normalised n s0 space : supported h -> (0 < local_size h)%nat -> enumerates h n space ->
    length s0 = n -> (exists lp, call h act ls s0 = Ok lp) ->
    total (fun s => born (call h act ls s)) space = 1.
  Proof.
    intros Hsup Hz [Hnd Hin] Hl0 [lp0 H0]. apply call_inv in H0. destruct H0 as [y0 [Hy0 Ly0]].
    rewrite <- (chain_total (locals_of h) n prob (locals_nodup h)) with (space := space).
    - apply total_ext. intros s Hs. apply Hin in Hs. destruct Hs as [Ls Fs].
      destruct (cond_all s0 y0 s Hy0) as [y [Hy Ly]]; [lia|].
      destruct (call_product s y Hsup Fs Hy) as [lp [-> E]]; [lia|]. cbn [born]. rewrite E, Ls. reflexivity.
    - intros Hn. apply (f_equal (@length Z)) in Hn. rewrite locals_length in Hn. cbn in Hn. lia.
    - intros s s' i v [Ls Fs] [Ls' Fs'] Hf Hi Hv.
      destruct (cond_all s0 y0 s Hy0) as [y [Hy Ly]]; [lia|].
      destruct (cond_autoregressive s s' y i) as [y' [Hy' En]]; [lia|exact Hf|exact Hy|].
      destruct (cond_all s0 y0 s' Hy0) as [y2 [Hy2 Ly2]]; [lia|].
      rewrite Hy' in Hy2. injection Hy2 as <-.
      apply locals_in in Hv. destruct (local_position h v Hv) as [k Hk].
      rewrite (prob_eq s y i v k), (prob_eq s' y' i v k) by (assumption || lia). rewrite En. reflexivity.
    - intros s i [Ls Fs] Hi. destruct (cond_all s0 y0 s Hy0) as [y [Hy Ly]]; [lia|].
      apply (prob_total s y); auto. lia.
    - exact Hnd.
    - intros s. rewrite Hin. unfold configuration. split; intros [A B]; (split; [exact A|]);
        rewrite Forall_forall in *; intros v Hv; apply locals_in; auto; apply locals_in; auto.
  Qed.
End Model.

Definition is_dense {C} (l : layer C) : bool := match l with LDense _ _ _ => true | _ => false end.

Lemma forward_dense C act (L : list (layer C)) : forallb is_dense L = true -> forall m x,
  exists y, forward C act m L x = Ok y /\ length y = length x.
Proof.
  induction L as [|l L IH]; intros Hd m x; cbn [forward].
  - exists x. auto.
  - cbn [forallb] in Hd. apply andb_prop in Hd. destruct Hd as [Hl Hd]. destruct l as [F k b|]; [|discriminate].
    cbn [apply_layer bind]. set (ax := if (0 <? m)%nat then _ else _).
    destruct (IH Hd (S m) (masked_dense C (m =? 0)%nat F k b ax)) as [y [Hy Ly]].
    exists y. split; [exact Hy|]. rewrite Ly, masked_dense_length. unfold ax. destruct (0 <? m)%nat; [apply map_length|reflexivity].
Qed.

Lemma dense_accepted h act ls s : supported h -> ls <> [] -> forallb is_dense ls = true ->
  layer_features (last ls (LDense 0 (fun _ _ => r0 cC) None)) = local_size h ->
  Forall (local_state h) s -> exists lp, call h act ls s = Ok lp.
Proof.
  intros Hs Hne Hd HF Hc.
  destruct (forward_dense cC act ls Hd 0 (map (fun v => [v]) (map (fun z => (IZR z, 0)) s))) as [y [Hy Ly]].
  destruct (call_product h act ls s (map l2_normalize y) Hs Hc) as [lp [E _]].
  - unfold conditional_log_psi. destruct ls as [|l l'] eqn:El; [contradiction|]. rewrite <- El in *.
    rewrite HF, Nat.eqb_refl. cbn [negb].
    assert (Hn : network cC act ls (map (fun z => (IZR z, 0)) s) = Ok y) by exact Hy. rewrite Hn. reflexivity.
  - rewrite map_length. rewrite !map_length in Ly. exact Ly.
  - exists lp. exact E.
Qed.

Lemma normalised_dense h act ls n space : supported h -> (0 < local_size h)%nat -> enumerates h n space ->
  ls <> [] -> forallb is_dense ls = true ->
  layer_features (last ls (LDense 0 (fun _ _ => r0 cC) None)) = local_size h ->
  total (fun s => born (call h act ls s)) space = 1.
Proof.
  intros Hs Hz He Hne Hd HF.
  assert (Hv : exists v, local_state h v).
  { destruct h as [m|m|m]; cbn in Hz; (eexists; cbn; exists 0%nat; split; [exact Hz|reflexivity]). }
  destruct Hv as [v Hv].
  apply (normalised h act ls n (repeat v n)); try assumption; [apply repeat_length|].
  apply dense_accepted; try assumption. apply Forall_forall. intros w Hw. apply repeat_spec in Hw. subst. exact Hv.
Qed.

(** What the conditionals are. *)
Lemma conditionals_main h act ls s c : (0 < local_size h)%nat -> conditionals h act ls s = Ok c ->
  Forall (fun row => length row = local_size h /\ Forall (fun q => 0 < q) row /\ total (fun q => q) row = 1) c /\
  forall s' i, length s' = length s -> firstn i s' = firstn i s ->
    exists c', conditionals h act ls s' = Ok c' /\ nth i c' [] = nth i c [].
Proof.
  intros Hz H. unfold conditionals in *.
  destruct (conditional_log_psi h act ls s) as [y|] eqn:Hy; cbn [bind] in H; [|discriminate]. injection H as <-.
  split.
  - apply Forall_forall. intros row Hrow. apply in_map_iff in Hrow. destruct Hrow as [r [<- Hr]].
    pose proof (cond_rows h act ls s y Hy) as G. rewrite Forall_forall in G. specialize (G r Hr).
    split; [rewrite map_length; exact G|]. split.
    + apply Forall_forall. intros q Hq. apply in_map_iff in Hq. destruct Hq as [z [<- _]]. apply exp_pos.
    + rewrite total_map. apply cond_ok in Hy. destruct Hy as (_ & _ & x & _ & ->).
      apply in_map_iff in Hr. destruct Hr as [r0' [<- _]]. apply normalised_row. intros ->. cbn in G. lia.
  - intros s' i Hl Hf. destruct (cond_autoregressive h act ls s s' y i) as [y' [Hy' En]]; auto.
    rewrite Hy'. cbn [bind]. eexists. split; [reflexivity|].
    rewrite !(map_nth' (map (fun z : R * R => exp (2 * fst z))) [] []) by reflexivity. rewrite En. reflexivity.
Qed.

Lemma chain_rule h act ls s lp ks : supported h -> Forall (local_state h) s -> call h act ls s = Ok lp ->
  Forall2 (position h) s ks ->
  exists c, conditionals h act ls s = Ok c /\
    born (call h act ls s) = product (length s) (fun i => nth (nth i ks 0%nat) (nth i c []) 0).
Proof.
  intros Hs Hc H Hk. destruct (call_inv h act ls s lp H) as [y [Hy Ly]].
  destruct (call_product h act ls s y Hs Hc Hy Ly) as [lp' [E' E]]. rewrite E'. cbn [born].
  unfold conditionals. rewrite Hy. cbn [bind]. eexists. split; [reflexivity|]. rewrite E.
  apply product_ext. intros i Hi.
  assert (Hp : position h (nth i s 0%Z) (nth i ks 0%nat)).
  { clear - Hk Hi. revert i Hi. induction Hk as [|v k s ks Hvk Hk IH]; intros i Hi; [cbn in Hi; lia|].
    destruct i as [|i]; cbn [nth]; [exact Hvk|]. apply IH. cbn in Hi. lia. }
  rewrite (prob_eq h act ls s y i _ (nth i ks 0%nat) Hs Hy Hp) by lia.
  set (g := fun z : R * R => exp (2 * fst z)). rewrite (map_nth' (map g) [] []) by reflexivity.
  rewrite (nth_indep _ 0 (g (0, 0))).
  - rewrite map_nth. reflexivity.
  - rewrite map_length. pose proof (cond_rows h act ls s y Hy) as G. rewrite Forall_forall in G.
    rewrite (G (nth i y [])) by (apply nth_In; lia). apply (number_position h _ _ Hs Hp).
Qed.

Lemma other_raises n act ls v s : call (HOther n) act ls (v :: s) = Err NotImplementedError.
Proof. reflexivity. Qed.

Lemma spin2_enumerates : enumerates (HSpin 2) 2 [[-1; -1]; [-1; 1]; [1; -1]; [1; 1]]%Z.
Proof.
  split.
  - repeat (constructor; [cbn; intuition discriminate|]). constructor.
  - intros s. split.
    + assert (A : local_state (HSpin 2) (-1)) by (exists 0%nat; split; [lia|reflexivity]).
      assert (B : local_state (HSpin 2) 1) by (exists 1%nat; split; [lia|reflexivity]).
      cbn [In]. intros [<-|[<-|[<-|[<-|[]]]]]; (split; [reflexivity|repeat constructor; assumption]).
    + intros [H1 H2]. destruct s as [|a [|b [|? ?]]]; try discriminate.
      apply Forall_cons_iff in H2. destruct H2 as [[k [Hk ->]] H2]. apply Forall_cons_iff in H2.
      destruct H2 as [[k' [Hk' ->]] _].
      destruct k as [|[|k]]; [..|lia]; (destruct k' as [|[|k']]; [..|lia]); cbn; auto.
Qed.
