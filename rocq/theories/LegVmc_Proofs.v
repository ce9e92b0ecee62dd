From Coq Require Import List Arith ZArith Lia Bool Reals Lra.
From Verif Require Import Base Rings ARNN_Model ARNN_Proofs ToArray_Model Estim_Model Estim_Spec Estim_Proofs
  Balance_Spec Balance_Proofs LegQsr_Model LegQsr_Spec LegQsr_Proofs LegQsr_Step LegQsr_Final LegQsr_Nll
  LegVmc_Model LegVmc_Spec.
Import ListNotations.
Open Scope R_scope.

Lemma fst_lsum_r {A} (f : A -> cpx) l : fst (lsum cC (map f l)) = rsum (fun a => fst (f a)) l.
Proof. induction l as [|a l IH]; [reflexivity|]. cbn [map lsum rsum]. rewrite <- IH. reflexivity. Qed.
Lemma snd_lsum_r {A} (f : A -> cpx) l : snd (lsum cC (map f l)) = rsum (fun a => snd (f a)) l.
Proof. induction l as [|a l IH]; [reflexivity|]. cbn [map lsum rsum]. rewrite <- IH. reflexivity. Qed.
Lemma lsum_pair {A} (f : A -> cpx) l : lsum cC (map f l) = (rsum (fun a => fst (f a)) l, rsum (fun a => snd (f a)) l).
Proof. rewrite <- fst_lsum_r, <- snd_lsum_r. apply surjective_pairing. Qed.
Lemma cmean_map {A} (f : A -> cpx) l : cmean (map f l) = (average (fun a => fst (f a)) l, average (fun a => snd (f a)) l).
Proof.
  unfold cmean, rscal. rewrite fst_lsum_r, snd_lsum_r, map_length. unfold average, Rdiv. f_equal; ring.
Qed.
Lemma combine_self {A B} (f : A -> B) l : combine l (map f l) = map (fun a => (a, f a)) l.
Proof. induction l as [|a l IH]; [reflexivity|]. cbn [map combine]. rewrite IH. reflexivity. Qed.
Lemma average_plus {X} (f g : X -> R) l : average (fun x => f x + g x) l = average f l + average g l.
Proof. unfold average. rewrite rsum_plus. unfold Rdiv. ring. Qed.
Lemma average_minus {X} (f g : X -> R) l : average (fun x => f x - g x) l = average f l - average g l.
Proof. unfold average. rewrite rsum_minus. unfold Rdiv. ring. Qed.
Lemma average_scal_r {X} c (f : X -> R) l : average (fun x => f x * c) l = average f l * c.
Proof. rewrite (average_ext _ (fun x => c * f x)) by (intros; ring). rewrite average_scal. ring. Qed.

Section Steps.
  Variables (N n batch : nat) (m : qmach) (conn : conn_of).
  Hypotheses (Hn : (0 < n)%nat) (Hb : (0 < batch)%nat).
  Notation np := (q_npar m).
  Notation D := (fun k s => entry (q_der m s) k).
  Notation El := (fun s => local_value (q_log m) s (conn s)).

  Lemma shape_length r : shape N n batch r -> length (concat r) = (n * batch)%nat.
  Proof.
    intros [L F]. rewrite <- L. clear L. induction F as [|l r [H _] F IH]; [reflexivity|].
    cbn [concat length]. rewrite app_length, IH, H. reflexivity.
  Qed.
  Lemma all_length ranks : Forall (shape N n batch) ranks -> length (all_of ranks) = (length ranks * n * batch)%nat.
  Proof.
    unfold all_of. induction 1 as [|r l H F IH]; [reflexivity|].
    cbn [flat_map length]. rewrite app_length, IH, (shape_length r H). lia.
  Qed.
  Lemma all_lt ranks : Forall (shape N n batch) ranks -> Forall (fun s => (s < N)%nat) (all_of ranks).
  Proof.
    intros F. apply Forall_forall. intros s Hs. apply in_flat_map in Hs. destruct Hs as (r & Hr & Hs).
    rewrite Forall_forall in F. destruct (F r Hr) as [_ G]. apply in_concat in Hs. destruct Hs as (l & Hl & Hs).
    rewrite Forall_forall in G. destruct (G l Hl) as [_ K]. rewrite Forall_forall in K. exact (K s Hs).
  Qed.
  Lemma mean_all_average (f : nat -> cpx) ranks : Forall (shape N n batch) ranks ->
    mean_all (map (fun r => map f (concat r)) ranks) = caverage f (all_of ranks).
  Proof.
    intros F. unfold mean_all. rewrite map_map, cmean_map. unfold caverage, all_of.
    assert (G : Forall (fun r => length (@concat nat r) = (n * batch)%nat) ranks).
    { eapply Forall_impl; [|exact F]. intros r. apply shape_length. }
    rewrite (average_blocks _ (@concat nat) ranks (n * batch)), (average_blocks (fun s => snd (f s)) (@concat nat) ranks (n * batch)); try assumption; try nia.
    f_equal; apply average_ext; intros r _; rewrite cmean_map; reflexivity.
  Qed.
  Lemma caverage_covariance a b l : l <> [] ->
    caverage (fun s => conj (a s) * (b s - caverage b l))%C l = covariance a b l.
  Proof.
    intros Hl. unfold covariance. set (c := caverage b l). unfold caverage at 1 2 3.
    cpx; rewrite ?average_minus, ?average_plus.
    - rewrite !(average_ext (fun s => _ * (_ - fst c)) (fun s => fst (a s) * fst (b s) - fst (a s) * fst c)) by (intros; ring).
      rewrite !(average_ext (fun s => _ * (_ - snd c)) (fun s => - snd (a s) * snd (b s) - - snd (a s) * snd c)) by (intros; ring).
      rewrite !average_minus, !average_scal_r. rewrite (average_ext (fun s => - snd (a s)) (fun s => -1 * snd (a s))) by (intros; ring).
      rewrite average_scal. ring.
    - rewrite !(average_ext (fun s => _ * (_ - snd c)) (fun s => fst (a s) * snd (b s) - fst (a s) * snd c)) by (intros; ring).
      rewrite !(average_ext (fun s => _ * (_ - fst c)) (fun s => - snd (a s) * fst (b s) - - snd (a s) * fst c)) by (intros; ring).
      rewrite !average_minus, !average_scal_r. rewrite (average_ext (fun s => - snd (a s)) (fun s => -1 * snd (a s))) by (intros; ring).
      rewrite average_scal. ring.
  Qed.

  Lemma lsum_ranks (f : nat -> cpx) ranks :
    lsum cC (map (fun r => lsum cC (map f (concat r))) ranks) = lsum cC (map f (all_of ranks)).
  Proof.
    rewrite (lsum_pair f). rewrite (lsum_pair (fun r => lsum cC (map f (@concat nat r)))). unfold all_of. rewrite !rsum_flat_map.
    f_equal; apply rsum_ext; intros r _; [apply fst_lsum_r|apply snd_lsum_r].
  Qed.
  Lemma grads_is (h : cpx -> cpx) ranks :
    sum_ranks np (map (fun p => vjp_value m (concat (fst p)) (map h (snd p))) (combine ranks (map (local_values m conn) ranks)))
    = map (fun k => lsum cC (map (fun s => conj (D k s) * h (El s))%C (all_of ranks))) (seq 0 np).
  Proof.
    unfold sum_ranks. apply map_ext_in. intros k Hk. apply in_seq in Hk.
    rewrite combine_self, !map_map. rewrite <- lsum_ranks. f_equal. apply map_ext. intros r.
    cbn [fst snd]. unfold vjp_value. rewrite entry_map_seq by lia. unfold local_values. rewrite map_map, combine_self, map_map. reflexivity.
  Qed.
  Lemma lsum_scaled {A} c (f : A -> cpx) l : lsum cC (map (fun a => rscal c (f a)) l) = rscal c (lsum cC (map f l)).
  Proof. rewrite !lsum_pair. unfold rscal. cbn [fst snd]. rewrite !rsum_scal. reflexivity. Qed.
  Lemma mean_local ranks : Forall (shape N n batch) ranks -> mean_all (map (local_values m conn) ranks) = caverage El (all_of ranks).
  Proof. exact (mean_all_average El ranks). Qed.
  Lemma grads_covariance total ranks : Forall (shape N n batch) ranks -> ranks <> [] -> total = length (all_of ranks) ->
    sum_ranks np (map (fun p => vjp_value m (concat (fst p))
        (map (fun e => rscal (/ INR total) (e - caverage El (all_of ranks))%C) (snd p))) (combine ranks (map (local_values m conn) ranks)))
    = map (fun k => covariance (D k) El (all_of ranks)) (seq 0 np).
  Proof.
    intros F Hr ->. rewrite (grads_is (fun e => rscal (/ INR (length (all_of ranks))) (e - caverage El (all_of ranks))%C)).
    apply map_ext. intros k. rewrite <- caverage_covariance.
    2:{ intros E0. apply (f_equal (@length nat)) in E0. rewrite (all_length ranks F) in E0. cbn in E0.
        destruct ranks; [contradiction|cbn in E0; nia]. }
    set (c := caverage El (all_of ranks)).
    rewrite (map_ext _ (fun s => rscal (/ INR (length (all_of ranks))) (conj (D k s) * (El s - c))%C)).
    - rewrite lsum_scaled. unfold caverage, average, Rdiv, rscal. rewrite fst_lsum_r, snd_lsum_r. f_equal; ring.
    - intros s. unfold rscal. cpx; ring.
  Qed.

  (** ** the steady state *)
  Lemma steady_grads ranks : Forall (shape N n batch) ranks ->
    map (fun k => (mean_all (map (fun p => map (fun q => conj (der_local m conn (fst q) k) * snd q)%C (combine (concat (fst p)) (snd p)))
         (combine ranks (map (local_values m conn) ranks)))
      - conj (entry (map (fun k => mean_all (map (fun r => map (D k) (concat r)) ranks)) (seq 0 np)) k)
        * mean_all (map (map (fun l => (cnorm2 l, 0))) (map (local_values m conn) ranks)))%C) (seq 0 np)
    = map (fun k => (caverage (fun s => conj (der_local m conn s k) * El s) (all_of ranks)
        - conj (caverage (D k) (all_of ranks)) * caverage (fun s => (cnorm2 (El s), 0)) (all_of ranks))%C) (seq 0 np).
  Proof.
    intros F. apply map_ext_in. intros k Hk. apply in_seq in Hk. rewrite entry_map_seq by lia.
    rewrite (mean_all_average (D k) ranks F).
    rewrite combine_self, map_map. rewrite (map_ext _ (fun r => map (fun s => conj (der_local m conn s k) * El s)%C (concat r))).
    2:{ intros r. cbn [fst snd]. unfold local_values. rewrite combine_self, map_map. reflexivity. }
    rewrite (mean_all_average (fun s => conj (der_local m conn s k) * El s)%C ranks F).
    rewrite map_map. rewrite (map_ext _ (fun r => map (fun s => (cnorm2 (El s), 0)) (concat r))).
    2:{ intros r. unfold local_values. rewrite map_map. reflexivity. }
    do 2 apply f_equal. exact (mean_all_average (fun s => (cnorm2 (El s), 0)) ranks F).
  Qed.
End Steps.
