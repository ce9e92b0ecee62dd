From Coq Require Import List ZArith QArith Qcanon Arith Lia.
From Verif Require Import MpiStats_Model MpiStats_Spec MpiStats_Proofs McStats_Model McStats_Spec McStats_Proofs McErr_Spec.
Import ListNotations.
Open Scope Qc_scope.

Lemma emean_ext E f g : (forall o, In o E -> f (snd o) = g (snd o)) -> emean E f = emean E g.
Proof. intros H. unfold emean. f_equal. apply map_ext_in. intros o Ho. rewrite H by exact Ho. reflexivity. Qed.
Lemma qsum_plus {A} (f g : A -> Qc) l : qsum (map (fun x => f x + g x) l) = qsum (map f l) + qsum (map g l).
Proof. induction l as [|a l IH]; cbn [map qsum]; [ring|]. rewrite IH. ring. Qed.
Lemma qsum_zero {A} (f : A -> Qc) l : (forall x, In x l -> f x = 0) -> qsum (map f l) = 0.
Proof. intros H. induction l as [|a l IH]; cbn [map qsum]; [reflexivity|]. rewrite H by (left; reflexivity). rewrite IH; [ring|]. intros x Hx. apply H. right. exact Hx. Qed.
Lemma emean_plus E f g : emean E (fun r => f r + g r) = emean E f + emean E g.
Proof. unfold emean. rewrite <- qsum_plus. f_equal. apply map_ext. intros; ring. Qed.
Lemma emean_scale E c f : emean E (fun r => c * f r) = c * emean E f.
Proof. unfold emean. rewrite <- qsum_scale. f_equal. apply map_ext. intros; ring. Qed.
Lemma emean_qsum {A} E (f : A -> list (list (list cplx)) -> Qc) l :
  emean E (fun r => qsum (map (fun a => f a r) l)) = qsum (map (fun a => emean E (f a)) l).
Proof.
  induction l as [|a l IH]; cbn [map qsum].
  - unfold emean. apply qsum_zero. intros; ring.
  - rewrite (emean_plus E (f a) (fun r => qsum (map (fun a => f a r) l))), IH. reflexivity.
Qed.
Lemma qsum_nth {A} (f : A -> Qc) l d : qsum (map f l) = qsum (map (fun i => f (nth i l d)) (seq 0 (length l))).
Proof.
  induction l as [|a l IH]; [reflexivity|]. cbn [length seq map qsum nth]. rewrite IH, <- seq_shift, map_map. reflexivity.
Qed.
Lemma csum_fst l : fst (csum l) = qsum (map fst l).
Proof. induction l as [|a l IH]; [reflexivity|]. cbn [csum map qsum]. rewrite <- IH. reflexivity. Qed.
Lemma csum_snd l : snd (csum l) = qsum (map snd l).
Proof. induction l as [|a l IH]; [reflexivity|]. cbn [csum map qsum]. rewrite <- IH. reflexivity. Qed.
Lemma csum_app' a b : csum (a ++ b) = cadd (csum a) (csum b).
Proof. apply injective_projections; unfold cadd; cbn [fst snd]; rewrite ?csum_fst, ?csum_snd, map_app; apply qsum_app. Qed.

(** the mean of all data is the mean of the means of chains of equal length *)
Lemma gmean_means L cs : (0 < L)%nat -> Forall (fun c => length c = L) cs -> cs <> [] -> gmean (concat cs) = gmean (map gmean cs).
Proof.
  intros HL F Ne. assert (HLn : nQc L <> 0) by (apply nQc_ne; lia).
  assert (Hn : nQc (length cs) <> 0) by (apply nQc_ne; destruct cs; [congruence|cbn; lia]).
  assert (C : csum (concat cs) = (nQc L * fst (csum (map gmean cs)), nQc L * snd (csum (map gmean cs)))).
  { clear Ne Hn. induction F as [|c cs Hc F IH]; cbn [concat map csum].
    - unfold c0. cbn [fst snd]. apply f_equal2; ring.
    - rewrite csum_app', IH. rewrite (csum_gmean c) by (intros ->; cbn in Hc; lia). rewrite Hc. unfold cadd. cbn [fst snd]. apply f_equal2; ring. }
  unfold gmean at 1 2. rewrite C, map_length, (concat_len L cs F), nQc_mul. unfold cdivr. cbn [fst snd]. apply f_equal2; field; split; assumption.
Qed.

(** |sum of deviations|^2 *)
Lemma mean_deviation mu (xs : list cplx) : xs <> [] ->
  nQc (length xs) * nQc (length xs) * cabs2 (csub (gmean xs) mu)
  = qsum (map (fun i => qsum (map (fun j => dot (csub (nth i xs c0) mu) (csub (nth j xs c0) mu)) (seq 0 (length xs)))) (seq 0 (length xs))).
Proof.
  intros Ne.
  assert (A : forall f : cplx -> Qc, (forall a b, f (csub a b) = f a - f b) ->
    qsum (map (fun i => f (csub (nth i xs c0) mu)) (seq 0 (length xs))) = qsum (map f xs) - nQc (length xs) * f mu).
  { intros f Hf. rewrite <- (qsum_nth (fun x => f (csub x mu)) xs c0).
    induction xs as [|x l IH]; [cbn; change (nQc 0) with 0; ring|]. cbn [map qsum length]. rewrite nQc_S.
    destruct l as [|y l]; [cbn [map qsum length]; change (nQc 0) with 0; rewrite Hf; ring|].
    rewrite IH by discriminate. rewrite Hf. ring. }
  set (n := length xs) in *.
  pose proof (A fst ltac:(reflexivity)) as A1. pose proof (A snd ltac:(reflexivity)) as A2. rewrite <- csum_fst in A1. rewrite <- csum_snd in A2.
  transitivity ((fst (csum xs) - nQc n * fst mu) * (fst (csum xs) - nQc n * fst mu)
     + (snd (csum xs) - nQc n * snd mu) * (snd (csum xs) - nQc n * snd mu)).
  - rewrite (csum_gmean xs Ne). fold n. unfold cabs2, csub. cbn [fst snd]. ring.
  - rewrite <- A1, <- A2.
    set (F := fun i => fst (csub (nth i xs c0) mu)). set (G := fun i => snd (csub (nth i xs c0) mu)).
    rewrite <- !qsum_scale, <- qsum_plus. f_equal. apply map_ext. intros i.
    unfold dot. fold (F i) (G i). rewrite (qsum_plus (fun j => F i * F j) (fun j => G i * G j)), !qsum_scale. ring.
Qed.
Lemma qsum_diag (f : nat -> Qc) i n : (i < n)%nat -> (forall j, (j < n)%nat -> j <> i -> f j = 0) -> qsum (map f (seq 0 n)) = f i.
Proof.
  intros Hi H. replace (seq 0 n) with (seq 0 i ++ i :: seq (S i) (n - S i)).
  - rewrite map_app, qsum_app. cbn [map qsum]. rewrite (qsum_zero f (seq 0 i)), (qsum_zero f (seq (S i) _)); [ring| |].
    + intros x Hx. apply in_seq in Hx. apply H; lia.
    + intros x Hx. apply in_seq in Hx. apply H; lia.
  - replace n with (i + S (n - S i))%nat at 2 by lia. rewrite seq_app. reflexivity.
Qed.

Section Error.
  Variables (n L bs k : nat) (E : chains_experiment) (mu : cplx).
  Notation m := (k * n)%nat.
  Hypothesis HS : Forall (fun o => same_shape n L (snd o) /\ length (snd o) = k) E.
  Hypothesis HU : chains_uncorrelated mu m E.
  Hypothesis Hm : (0 < m)%nat.
  Notation X := (fun r : list (list (list cplx)) => map gmean (concat r)).
  Lemma outcome o : In o E -> length (X (snd o)) = m /\ X (snd o) <> [] /\ gmean (concat (concat (snd o))) = gmean (X (snd o)).
  Proof.
    intros Ho. pose proof HS as HS'. rewrite Forall_forall in HS'. destruct (HS' o Ho) as [Sh Hk].
    destruct (shape_chains n L (snd o) Sh) as (F & Len & Ne). rewrite Hk in Len. split; [rewrite map_length; exact Len|].
    split; [destruct (concat (snd o)); [congruence|discriminate]|]. apply (gmean_means L); [apply Sh|exact F|exact Ne].
  Qed.
  Lemma mse : nQc m * nQc m * emean E (fun r => cabs2 (csub (gmean (concat (concat r))) mu))
    = emean E (fun r => csq mu (X r)).
  Proof.
    rewrite <- emean_scale.
    transitivity (qsum (map (fun i => emean E (fun r => dot (deviation mu i r) (deviation mu i r))) (seq 0 m))).
    - rewrite (emean_ext E _ (fun r => qsum (map (fun i => qsum (map (fun j => dot (deviation mu i r) (deviation mu j r)) (seq 0 m))) (seq 0 m)))).
      + rewrite (emean_qsum E (fun i r => qsum (map (fun j => dot (deviation mu i r) (deviation mu j r)) (seq 0 m)))).
        f_equal. apply map_ext_in. intros i Hi. apply in_seq in Hi.
        rewrite (emean_qsum E (fun j r => dot (deviation mu i r) (deviation mu j r))).
        apply (qsum_diag (fun j => emean E (fun r => dot (deviation mu i r) (deviation mu j r)))); [lia|].
        intros j Hj Hji. apply HU; lia.
      + intros o Ho. destruct (outcome o Ho) as (Len & Ne & G). rewrite G.
        rewrite <- Len, (mean_deviation mu (X (snd o)) Ne). f_equal. apply map_ext. intros i. f_equal. apply map_ext. intros j.
        unfold deviation. change c0 with (gmean []). rewrite !map_nth. reflexivity.
    - rewrite <- (emean_qsum E (fun i r => dot (deviation mu i r) (deviation mu i r))). apply emean_ext. intros o Ho.
      destruct (outcome o Ho) as (Len & Ne & _). unfold csq. rewrite (qsum_nth _ (X (snd o)) (gmean [])), Len. f_equal. apply map_ext.
      intros i. rewrite map_nth. reflexivity.
  Qed.
  Hypothesis Hbs : (0 < bs <= m)%nat.
  Hypothesis HV : Forall (fun o => variance (concat (snd o)) <> 0) E.
  Lemma error_mean : exists e,
    (forall o mine, In o E -> In mine (snd o) -> s_error2 (statistics bs (snd o) mine) = Fin (e (snd o))) /\
    emean E e = (1 - 1 / nQc m) * emean E (fun r => cabs2 (csub (gmean (concat (concat r))) mu)) /\
    forall o mine, In o E -> In mine (snd o) -> s_mean (statistics bs (snd o) mine) = gmean (concat (concat (snd o))).
  Proof.
    exists (fun r => means_variance (concat r) / nQc m). split; [|split].
    - intros o mine Ho Hi. pose proof HS as HS'. rewrite Forall_forall in HS'. destruct (HS' o Ho) as [Sh Hk].
      rewrite (distributed n L bs (snd o) Sh ltac:(lia) mine Hi). unfold stats_of. cbn [s_error2].
      destruct (shape_chains n L (snd o) Sh) as (F & Len & Ne). rewrite Hk in Len. unfold groups. rewrite Len.
      destruct (Nat.leb_spec bs m); [|lia]. pose proof HV as HV'. rewrite Forall_forall in HV'.
      destruct (Qc_eq_dec (variance (concat (snd o))) 0) as [Z|Z]; [destruct (HV' o Ho Z)|]. rewrite Len. reflexivity.
    - assert (Hn : nQc m <> 0) by (apply nQc_ne; lia).
      pose proof mse as M. set (MSE := emean E (fun r => cabs2 _)) in *.
      transitivity ((1 / (nQc m * nQc m)) * emean E (fun r => csq mu (X r)) + (- (1 / nQc m)) * MSE).
      + unfold MSE. rewrite <- !emean_scale, <- emean_plus. apply emean_ext. intros o Ho. destruct (outcome o Ho) as (Len & Ne & G).
        rewrite G, (csq_shift mu _ Ne), <- (gvar_csq _ Ne), Len. unfold means_variance. field. exact Hn.
      + rewrite <- M. field. exact Hn.
    - intros o mine Ho Hi. pose proof HS as HS'. rewrite Forall_forall in HS'. destruct (HS' o Ho) as [Sh Hk].
      rewrite (distributed n L bs (snd o) Sh ltac:(lia) mine Hi). reflexivity.
  Qed.
End Error.

(** ** an example *)
Definition ex_re (z : Z) : cplx := (Q2Qc (inject_Z z), 0).
Definition ex_chain (up : bool) : list cplx := if up then [ex_re 2; ex_re 0] else [ex_re 0; ex_re (-2)].
Definition ex_E : chains_experiment :=
  map (fun p => (Q2Qc (1 # 4), [[ex_chain (fst p); ex_chain (snd p)]])) [(true, true); (true, false); (false, true); (false, false)].
Lemma ex_E_main :
  Forall (fun o => same_shape 2 2 (snd o) /\ length (snd o) = 1%nat) ex_E /\ chains_uncorrelated (0, 0) (1 * 2) ex_E /\
  Forall (fun o => variance (concat (snd o)) <> 0) ex_E /\ emean ex_E (fun _ => 1) = 1 /\
  emean ex_E (fun r => cabs2 (csub (gmean (concat (concat r))) (0, 0))) = Q2Qc (1 # 2).
Proof.
  split; [|split; [|split; [|split]]].
  - apply Forall_forall. intros o Ho.
    repeat (destruct Ho as [<-|Ho]; [split; [repeat split; try lia; try discriminate; repeat constructor|reflexivity]|]). destruct Ho.
  - intros i j Hi Hj Hij. destruct i as [|[|i]]; [| |lia]; (destruct j as [|[|j]]; [| |lia]); try (exfalso; apply Hij; reflexivity);
      apply Qc_is_canon; vm_compute; reflexivity.
  - apply Forall_forall. intros o Ho.
    repeat (destruct Ho as [<-|Ho]; [intros C; apply (f_equal this) in C; vm_compute in C; discriminate|]). destruct Ho.
  - apply Qc_is_canon; vm_compute; reflexivity.
  - apply Qc_is_canon; vm_compute; reflexivity.
Qed.
