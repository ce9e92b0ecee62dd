From Coq Require Import List Arith Lia Bool Reals Lra ZArith.
From Verif Require Import Base Rings ARNN_Model ARNN_Proofs ToArray_Model Estim_Model Estim_Spec Estim_Proofs Ansatz_Model Ansatz_Spec Ansatz_Proofs
  LegRbm_Model LegRbm_Spec LegRbm_Proofs LegRbm_Phase LegDm_Model LegDm_Spec.
Import ListNotations.
Open Scope R_scope.

(** ** arrays *)
Lemma nth_blocks {A B} (f : A -> list B) n l : (forall a, length (f a) = n) -> forall i j d a0, (i < length l)%nat -> (j < n)%nat ->
  nth (i * n + j) (flat_map f l) d = nth j (f (nth i l a0)) d.
Proof.
  intros F. induction l as [|a l IH]; intros i j d a0 Hi Hj; [cbn in Hi; lia|]. cbn [flat_map]. destruct i as [|i].
  - cbn [Nat.mul Nat.add nth]. apply app_nth1. rewrite F. exact Hj.
  - rewrite app_nth2 by (rewrite F; nia). rewrite F. replace (S i * n + j - n)%nat with (i * n + j)%nat by nia. cbn [nth]. apply IH; [cbn in Hi; lia|exact Hj].
Qed.
Lemma entries_len m states : length (entries_of m states) = (length states * length states)%nat.
Proof.
  unfold entries_of. assert (E : forall l, length (flat_map (fun a => map (fun b => m a b) states) l) = (length l * length states)%nat); [|apply E].
  induction l as [|a l IH]; [reflexivity|]. cbn [flat_map length]. rewrite app_length, map_length, IH. reflexivity.
Qed.
Lemma entries_nth m states i j : (i < length states)%nat -> (j < length states)%nat ->
  nth (i * length states + j) (entries_of m states) None = m (at_pos states i) (at_pos states j).
Proof.
  intros Hi Hj. unfold entries_of. etransitivity; [exact (nth_blocks (fun a => map (m a) states) (length states) states (fun a => map_length _ _) i j None [] Hi Hj)|].
  rewrite (nth_indep _ None (m (nth i states []) [])) by (rewrite map_length; exact Hj). apply map_nth.
Qed.
Lemma shifted_is c l : shifted c l = rscal (exp (- c)) (amplitude l).
Proof.
  destruct l as [[a b]|]; cbn; unfold rscal, cexp; cbn; [|f_equal; ring].
  replace (b - 0) with b by ring. replace (a - c) with (- c + a) by ring. rewrite exp_plus. f_equal; ring.
Qed.
Lemma cnz (z : cpx) : z <> r0 cC -> cnorm2 z <> 0.
Proof. intros H E. apply H, cnorm2_zero, E. Qed.
Lemma cdiv_scaled c z t : c <> 0 -> t <> r0 cC -> (t * cdiv (rscal c z) (rscal c t))%C = z.
Proof.
  intros Hc Ht. apply cnz in Ht. destruct z as [a b], t as [u v]. unfold cdiv, rscal, cnorm2 in *. cbn [fst snd] in *.
  assert (c * c * (u * u + v * v) <> 0) by (apply Rmult_integral_contrapositive; split; [apply Rmult_integral_contrapositive; split; assumption|exact Ht]).
  cbn. f_equal; field; repeat split; try assumption; intros E; apply H; rewrite <- E; ring.
Qed.
Lemma cancel_l (t a b : cpx) : t <> r0 cC -> (t * a)%C = (t * b)%C -> a = b.
Proof.
  intros Ht E. apply cnz in Ht.
  assert (I : exists i, (t * i)%C = r1 cC).
  { exists (fst t / cnorm2 t, - snd t / cnorm2 t). destruct t as [u v]. unfold cnorm2 in *. cbn [fst snd] in *. cbn. f_equal; field; exact Ht. }
  destruct I as [i Hi]. transitivity ((t * i) * a)%C; [rewrite Hi; rg|]. transitivity (i * (t * a))%C; [rg|]. rewrite E.
  transitivity ((t * i) * b)%C; [rg|]. rewrite Hi. rg.
Qed.
Lemma nth_map_in {A B} (f : A -> B) l i d d' : (i < length l)%nat -> nth i (map f l) d' = f (nth i l d).
Proof. intros H. rewrite (nth_indep _ d' (f d)) by (rewrite map_length; exact H). apply map_nth. Qed.
Lemma map_seq_nth {A} (d : A) l : map (fun k => nth k l d) (seq 0 (length l)) = l.
Proof.
  induction l as [|a l IH]; [reflexivity|]. cbn [length seq map nth]. f_equal. rewrite <- seq_shift, map_map. exact IH.
Qed.

Section Arr.
  Variables (m : machine) (states : list config) (q : R) (qs : list R).
  Hypothesis Hq : concat states = q :: qs.
  Notation n := (length states).
  Notation v := (map (shifted (greatest q qs)) (entries_of m states)).
  Notation c := (exp (- greatest q qs)).
  Lemma c_nz : c <> 0.
  Proof. pose proof (exp_pos (- greatest q qs)). lra. Qed.
  Lemma v_nth i j : (i < n)%nat -> (j < n)%nat -> nth (i * n + j) v (r0 cC) = rscal c (rho_of m (at_pos states i) (at_pos states j)).
  Proof.
    intros Hi Hj. etransitivity; [apply (nth_map_in (shifted (greatest q qs)) (entries_of m states) _ None); rewrite entries_len; nia|].
    rewrite (entries_nth m states i j Hi Hj). apply shifted_is.
  Qed.
  Lemma lsum_rscal' {A} r (f : A -> cpx) l : lsum cC (map (fun a => rscal r (f a)) l) = rscal r (lsum cC (map f l)).
  Proof. induction l as [|a l IH]; cbn [map lsum]; [unfold rscal; cbn; f_equal; ring|]. rewrite IH. unfold rscal. cbn. f_equal; ring. Qed.
  Lemma trace_seq : trace_of m states = lsum cC (map (fun k => rho_of m (at_pos states k) (at_pos states k)) (seq 0 n)).
  Proof.
    unfold trace_of. rewrite <- (map_seq_nth [] states) at 1. rewrite map_map. reflexivity.
  Qed.
  Lemma v_trace : vec_trace n v = rscal c (trace_of m states).
  Proof.
    unfold vec_trace. rewrite trace_seq, <- lsum_rscal'. f_equal. apply map_ext_in. intros k Hk. apply in_seq in Hk. apply v_nth; lia.
  Qed.
  Lemma array_trace i j : (i < n)%nat -> (j < n)%nat -> trace_of m states <> r0 cC ->
    (trace_of m states * nth (i * n + j) (map (fun z => cdiv z (vec_trace n v)) v) (r0 cC))%C = rho_of m (at_pos states i) (at_pos states j).
  Proof.
    intros Hi Hj Ht.
    assert (E : nth (i * n + j) (map (fun z => cdiv z (vec_trace n v)) v) (r0 cC) = cdiv (nth (i * n + j) v (r0 cC)) (vec_trace n v))
      by (apply (nth_map_in (fun z => cdiv z (vec_trace n v)) v _ (r0 cC)); rewrite map_length, entries_len; nia).
    rewrite E, v_trace, (v_nth i j Hi Hj). apply cdiv_scaled; [apply c_nz|exact Ht].
  Qed.
End Arr.

Lemma to_array_ok m states nrm v : to_array true m states nrm = Ok v -> exists q qs, concat states = q :: qs /\
  v = match nrm with
      | NTrace => map (fun z => cdiv z (vec_trace (length states) (map (shifted (greatest q qs)) (entries_of m states)))) (map (shifted (greatest q qs)) (entries_of m states))
      | NTrue | NL2 => map (rscal (/ sqrt (fold_right Rplus 0 (map cnorm2 (map (shifted (greatest q qs)) (entries_of m states)))))) (map (shifted (greatest q qs)) (entries_of m states))
      | NFalse => map (shifted (greatest q qs)) (entries_of m states)
      end.
Proof.
  unfold to_array. cbn [negb]. destruct (concat states) as [|q qs]; [discriminate|]. intros H. injection H as <-. exists q, qs. split; [reflexivity|]. reflexivity.
Qed.
Lemma array_len m states nrm v : to_array true m states nrm = Ok v -> length v = (length states * length states)%nat.
Proof. intros H. destruct (to_array_ok _ _ _ _ H) as (q & qs & _ & ->). destruct nrm; rewrite ?map_length; apply entries_len. Qed.
Lemma array_trace_main m states v i j : to_array true m states NTrace = Ok v -> trace_of m states <> r0 cC ->
  (i < length states)%nat -> (j < length states)%nat ->
  (trace_of m states * nth (i * length states + j) v (r0 cC))%C = rho_of m (at_pos states i) (at_pos states j).
Proof. intros H Ht Hi Hj. destruct (to_array_ok _ _ _ _ H) as (q & qs & _ & ->). apply array_trace; assumption. Qed.
Lemma matrix_main m states nrm M : to_matrix true m states nrm = Ok M -> trace_of m states <> r0 cC ->
  length M = length states /\ Forall (fun r => length r = length states) M /\
  (forall i j, (i < length states)%nat -> (j < length states)%nat ->
     (trace_of m states * nth j (nth i M []) (r0 cC))%C = rho_of m (at_pos states i) (at_pos states j)) /\
  lsum cC (map (fun i => nth i (nth i M []) (r0 cC)) (seq 0 (length states))) = r1 cC.
Proof.
  unfold to_matrix. cbn [negb]. intros H Ht. destruct (to_array true m states NTrace) as [v|] eqn:Ev; [|discriminate]. cbn [bind] in H. apply (f_equal (fun r => match r with Ok x => x | Err _ => [] end)) in H. rename H into HM. cbn beta iota in HM.
  pose proof (array_len _ _ _ _ Ev) as Lv. set (n := length states) in *.
  assert (E : forall i j, (i < n)%nat -> (j < n)%nat -> nth j (nth i M []) (r0 cC) = nth (i * n + j) v (r0 cC)).
  { intros i j Hi Hj. rewrite <- HM.
    rewrite (nth_map_in (fun i : nat => firstn n (skipn (i * n) v)) (seq 0 n) i 0%nat []) by (rewrite seq_length; exact Hi). rewrite seq_nth by exact Hi. cbn [Nat.add].
    assert (F : forall k (l : list cpx), (j < k)%nat -> nth j (firstn k l) (r0 cC) = nth j l (r0 cC)).
    { clear. intros k. revert j. induction k as [|k IH]; intros j l H; [lia|]. destruct l as [|a l]; [destruct j; reflexivity|]. destruct j; [reflexivity|]. cbn. apply IH. lia. }
    etransitivity; [apply F, Hj|]. clear. generalize (i * n)%nat as k. intros k. revert v. induction k as [|k IH]; intros v; [reflexivity|].
    destruct v as [|a v]; [destruct j; reflexivity|]. cbn. apply IH. }
  split; [rewrite <- HM, map_length, seq_length; reflexivity|]. split.
  { apply Forall_forall. intros r Hr. rewrite <- HM in Hr. apply in_map_iff in Hr. destruct Hr as (i & <- & Hi). apply in_seq in Hi. rewrite firstn_length, skipn_length.
    etransitivity; [exact (f_equal (fun k => Nat.min n (k - i * n)) Lv)|]. nia. }
  split.
  - intros i j Hi Hj. etransitivity; [apply f_equal, (E i j Hi Hj)|]. exact (array_trace_main m states v i j Ev Ht Hi Hj).
  - apply (cancel_l (trace_of m states)); [exact Ht|]. transitivity (trace_of m states); [|rg].
    rewrite trace_seq at 2. fold n.
    assert (D : forall l, (forall i, In i l -> (i < n)%nat) -> (trace_of m states * lsum cC (map (fun i => nth i (nth i M []) (r0 cC)) l))%C
      = lsum cC (map (fun k => rho_of m (at_pos states k) (at_pos states k)) l)).
    { induction l as [|i l IH]; intros Hl; cbn [map lsum]; [rg|]. rewrite <- IH by (intros; apply Hl; right; assumption).
      rewrite <- (array_trace_main m states v i i Ev Ht (Hl i (or_introl eq_refl)) (Hl i (or_introl eq_refl))).
      fold n. rewrite <- (E i i (Hl i (or_introl eq_refl)) (Hl i (or_introl eq_refl))). rg. }
    apply D. intros i Hi. apply in_seq in Hi. lia.
Qed.
Lemma rsum_scaled c l : fold_right Rplus 0 (map cnorm2 (map (rscal c) l)) = c * c * fold_right Rplus 0 (map cnorm2 l).
Proof. induction l as [|a l IH]; cbn [map fold_right]; [ring|]. rewrite IH. unfold cnorm2, rscal. cbn. ring. Qed.
Lemma rsum_nonneg l : 0 <= fold_right Rplus 0 (map cnorm2 l).
Proof. induction l as [|a l IH]; cbn [map fold_right]; [lra|]. pose proof (Ansatz_Proofs.cnorm2_nonneg a). lra. Qed.
Lemma array_norm m states nrm v : (nrm = NTrue \/ nrm = NL2) -> to_array true m states nrm = Ok v ->
  (exists s, In s (entries_of m states) /\ amplitude s <> r0 cC) ->
  fold_right Rplus 0 (map cnorm2 v) = 1 /\
  exists c, 0 < c /\ forall i j, (i < length states)%nat -> (j < length states)%nat ->
    nth (i * length states + j) v (r0 cC) = rscal c (rho_of m (at_pos states i) (at_pos states j)).
Proof.
  intros Hn H (s & Hs & Hz). destruct (to_array_ok _ _ _ _ H) as (q & qs & Hq & E). set (w := map (shifted (greatest q qs)) (entries_of m states)) in *.
  set (S2 := fold_right Rplus 0 (map cnorm2 w)) in *.
  assert (P : 0 < S2).
  { unfold S2. assert (I : In (shifted (greatest q qs) s) w) by (apply in_map; exact Hs).
    assert (Z : 0 < cnorm2 (shifted (greatest q qs) s)).
    { rewrite shifted_is. pose proof (exp_pos (- greatest q qs)) as Pe. pose proof (Ansatz_Proofs.cnorm2_nonneg (amplitude s)) as Pn. pose proof (cnz _ Hz) as Pz.
      unfold cnorm2, rscal in *. cbn [fst snd]. assert (0 < fst (amplitude s) * fst (amplitude s) + snd (amplitude s) * snd (amplitude s)) by lra.
      set (e := exp _) in *. replace (e * fst (amplitude s) * (e * fst (amplitude s)) + e * snd (amplitude s) * (e * snd (amplitude s)))
        with (e * e * (fst (amplitude s) * fst (amplitude s) + snd (amplitude s) * snd (amplitude s))) by ring.
      repeat apply Rmult_lt_0_compat; assumption. }
    clear -I Z. induction w as [|a w IH]; [contradiction|]. cbn [map fold_right]. destruct I as [->|I].
    - pose proof (rsum_nonneg w). lra.
    - specialize (IH I). pose proof (Ansatz_Proofs.cnorm2_nonneg a). lra. }
  assert (Q : sqrt S2 * sqrt S2 = S2) by (apply sqrt_sqrt; lra). assert (Qp : 0 < sqrt S2) by (apply sqrt_lt_R0; exact P).
  assert (Ev : v = map (rscal (/ sqrt S2)) w) by (destruct Hn as [-> | ->]; exact E). rewrite Ev. split.
  - rewrite rsum_scaled. fold S2. rewrite <- Q at 3. field. lra.
  - exists (/ sqrt S2 * exp (- greatest q qs)). split; [apply Rmult_lt_0_compat; [apply Rinv_0_lt_compat; exact Qp|apply exp_pos]|].
    intros i j Hi Hj. etransitivity; [apply (nth_map_in (rscal (/ sqrt S2)) w _ (r0 cC)); unfold w; rewrite map_length, entries_len; nia|].
    unfold w. rewrite (v_nth m states q qs i j Hi Hj). unfold rscal. cbn. f_equal; ring.
Qed.
Lemma array_bare m states v : to_array true m states NFalse = Ok v -> exists x, In x (concat states) /\ (forall y, In y (concat states) -> y <= x) /\
  forall i j, (i < length states)%nat -> (j < length states)%nat ->
    nth (i * length states + j) v (r0 cC) = rscal (exp (- x)) (rho_of m (at_pos states i) (at_pos states j)).
Proof.
  intros H. destruct (to_array_ok _ _ _ _ H) as (q & qs & Hq & ->). exists (greatest q qs). rewrite Hq.
  assert (G : forall l x, In (greatest x l) (x :: l) /\ forall y, In y (x :: l) -> y <= greatest x l).
  { clear. induction l as [|a l IH]; intros x; cbn [greatest fold_left].
    - split; [left; reflexivity|]. intros y [->|[]]. cbn. lra.
    - destruct (IH (Rmax x a)) as [I1 I2]. fold (greatest (Rmax x a) l). split.
      + destruct I1 as [E|I1]; [|right; right; exact I1]. rewrite <- E. unfold Rmax. destruct (Rle_dec x a); [right; left|left]; reflexivity.
      + intros y [<-|[<-|I]].
        * eapply Rle_trans; [apply (Rmax_l x a)|]. apply I2. left. reflexivity.
        * eapply Rle_trans; [apply (Rmax_r x a)|]. apply I2. left. reflexivity.
        * apply I2. right. exact I. }
  destruct (G qs q) as [G1 G2]. split; [exact G1|]. split; [exact G2|]. intros i j Hi Hj. apply v_nth; assumption.
Qed.
