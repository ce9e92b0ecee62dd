(** Proofs behind C86. *)
From Coq Require Import List Arith Bool ZArith QArith Qcanon Qabs Lia Lqa.
From Verif Require Import Base BaseFacts Rings FloatCmp_Model FloatCmp_Spec FloatCmp_Proofs LatGen_Model LatGen_Look
  PointGp_Model PointGp_Spec PointGp_Lin.
Import ListNotations.
Open Scope nat_scope.

Ltac qring := repeat match goal with |- context [fsum qC ?n ?f] => generalize (fsum qC n f) end; cbn [T qC]; intros; ring.

(** ** construction *)
Lemma isclose_refl a : isclose_default a a = true.
Proof.
  apply Qle_bool_iff. assert (E : (this a - this a == 0)%Q) by ring. rewrite E. change (Qabs 0) with 0%Q.
  pose proof (Qabs_nonneg (this a)). assert (0 <= (1 # 100000) * Qabs (this a))%Q by (apply Qmult_le_0_compat; [discriminate|assumption]).
  apply Qle_trans with (0 + 0)%Q; [discriminate|]. apply Qplus_le_compat; [discriminate|assumption].
Qed.
Lemma allclose_meq n A B : meq n A B -> allclose n n A B = true.
Proof.
  intros H. apply forallb_forall. intros i Hi. apply forallb_forall. intros j Hj. apply in_seq in Hi, Hj.
  rewrite (H i j) by lia. apply isclose_refl.
Qed.
Lemma allclose_spec n m A B : allclose n m A B = true <->
  forall i j, i < n -> j < m -> (Qabs (this (A i j) - this (B i j)) <= (1 # 100000000) + (1 # 100000) * Qabs (this (B i j)))%Q.
Proof.
  unfold allclose. rewrite forallb_forall. split.
  - intros H i j Hi Hj. specialize (H i ltac:(apply in_seq; lia)). rewrite forallb_forall in H.
    specialize (H j ltac:(apply in_seq; lia)). now apply Qle_bool_iff.
  - intros H i Hi. apply forallb_forall. intros j Hj. apply in_seq in Hi, Hj. apply Qle_bool_iff. apply H; lia.
Qed.

Lemma construct_spec rows cols W w :
  match pg_symmetry rows cols W w with
  | Ok p => p_n p = rows /\ p_W p = W /\ rows = cols /\ nearly_orthogonal rows W /\
            match w with None => p_w p = (fun _ => 0%Qc) | Some (k, v) => k = rows /\ p_w p = v end
  | Err e => e = ValueError /\ (rows <> cols \/ ~ nearly_orthogonal rows W \/ match w with None => False | Some (k, _) => k <> rows end)
  end.
Proof.
  unfold pg_symmetry. destruct (Nat.eqb_spec rows cols) as [<-|N]; cbn [negb]; [|auto].
  pose proof (allclose_spec rows rows (mmul rows (tr W) W) eye) as A.
  destruct (allclose _ _ _ _); cbn [negb].
  - pose proof (proj1 A eq_refl) as A1. destruct w as [[k v]|].
    + destruct (Nat.eqb_spec k rows) as [->|N]; cbn; auto 10.
    + cbn. auto 10.
  - split; [reflexivity|]. right; left. intros C. apply A in C. discriminate.
Qed.
Lemma construct_ok n W v : orthogonal n W -> pg_symmetry n n W (Some (n, v)) = Ok (PGS n W v).
Proof. intros O. unfold pg_symmetry. rewrite Nat.eqb_refl. cbn [negb]. rewrite (allclose_meq n _ _ O). reflexivity. Qed.

(** ** composition *)
Lemma product_fields p q r : pg_product p q = Ok r ->
  p_n q = p_n p /\ r = PGS (p_n p) (mmul (p_n p) (p_W p) (p_W q)) (fun i => mvec (p_n p) (p_W p) (p_w q) i + p_w p i)%Qc.
Proof.
  unfold pg_product, pg_symmetry. destruct (Nat.eqb_spec (p_n p) (p_n q)) as [E|]; cbn [negb]; [|discriminate].
  rewrite !Nat.eqb_refl. cbn [negb]. destruct (allclose _ _ _ _); cbn [negb]; [|discriminate]. intros [= <-]. auto.
Qed.
Lemma product_act p q r x : pg_product p q = Ok r -> veq (p_n p) (act r x) (act p (act q x)).
Proof.
  intros H i Hi. apply product_fields in H. destruct H as [E ->]. unfold act. cbn [p_n p_W p_w].
  rewrite mvec_mmul, mvec_add, E. ring.
Qed.
Lemma tr_mmul n A B i j : tr (mmul n A B) i j = mmul n (tr B) (tr A) i j.
Proof. unfold tr, mmul. apply qs_ext. intros. ring. Qed.
Lemma orthogonal_mmul n A B : orthogonal n A -> orthogonal n B -> orthogonal n (mmul n A B).
Proof.
  intros HA HB i j Hi Hj.
  assert (E : mmul n (tr (mmul n A B)) (mmul n A B) i j = mmul n (mmul n (tr B) (tr A)) (mmul n A B) i j).
  { apply qs_ext. intros k Hk. now rewrite tr_mmul. }
  rewrite E, mmul_assoc.
  assert (E2 : meq n (mmul n (tr A) (mmul n A B)) B).
  { intros a b Ha Hb. rewrite <- mmul_assoc. rewrite (mmul_ext n _ eye B B HA) by (auto; intros ? ? ? ?; reflexivity).
    now apply mmul_eye_l. }
  rewrite (mmul_ext n (tr B) (tr B) _ B) by (auto; intros ? ? ? ?; reflexivity). now apply HB.
Qed.
Lemma product_closed p q : proper_map p -> proper_map q -> p_n p = p_n q -> exists r, pg_product p q = Ok r /\ p_n r = p_n p /\ proper_map r.
Proof.
  intros Hp Hq E. unfold pg_product. rewrite <- E, Nat.eqb_refl. cbn [negb].
  unfold proper_map in *. rewrite <- E in Hq. rewrite construct_ok by now apply orthogonal_mmul.
  eexists. split; [reflexivity|]. split; [reflexivity|]. cbn [p_n p_W]. now apply orthogonal_mmul.
Qed.
Lemma product_assoc p q r a b c d : pg_product p q = Ok a -> pg_product a r = Ok b -> pg_product q r = Ok c -> pg_product p c = Ok d ->
  p_n b = p_n d /\ meq (p_n b) (p_W b) (p_W d) /\ veq (p_n b) (p_w b) (p_w d).
Proof.
  intros A B C D. apply product_fields in A, B, C, D. destruct A as [A ->], B as [B ->], C as [C ->], D as [D ->]. cbn [p_n p_W p_w] in *.
  split; [reflexivity|]. rewrite A in *. split.
  - intros i j _ _. apply mmul_assoc.
  - intros i _. rewrite mvec_mmul, mvec_add. ring.
Qed.
Lemma e_product n a b : good n a -> good n b -> exists c, e_mul a b = Ok c /\ good n c /\ forall x, veq n (e_act c x) (e_act a (e_act b x)).
Proof.
  destruct a as [|p], b as [|q]; cbn; intros Ha Hb.
  - eexists; split; [reflexivity|]. split; [exact I|]. intros x i Hi. reflexivity.
  - eexists; split; [reflexivity|]. split; [exact Hb|]. intros x i Hi. reflexivity.
  - eexists; split; [reflexivity|]. split; [exact Ha|]. intros x i Hi. reflexivity.
  - destruct Ha as [<- Ha], Hb as [E Hb]. destruct (product_closed p q Ha Hb (eq_sym E)) as (r & R1 & R2 & R3).
    rewrite R1. cbn [bind]. eexists; split; [reflexivity|]. split; [cbn; auto|]. intros x. cbn. now apply product_act.
Qed.

(** ** preimage *)
Lemma preimage_mvec p x i : preimage p x i = mvec (p_n p) (tr (p_W p)) (fun k => x k - p_w p k)%Qc i.
Proof. unfold preimage, mvec, tr. apply qs_ext. intros. ring. Qed.
Lemma preimage_both p x : proper_map p -> veq (p_n p) (act p (preimage p x)) x /\ veq (p_n p) (preimage p (act p x)) x.
Proof.
  intros O. split; intros i Hi.
  - unfold act. rewrite (mvec_ext (p_n p) (p_W p) (p_W p) _ (mvec (p_n p) (tr (p_W p)) (fun k => x k - p_w p k)%Qc) i Hi) by (intros ? ?; try intros ? ?; try reflexivity; apply preimage_mvec).
    rewrite <- mvec_mmul. rewrite (mvec_ext (p_n p) _ eye _ (fun k => x k - p_w p k)%Qc i Hi (left_right _ _ _ O)) by (intros ? ?; reflexivity).
    rewrite mvec_eye by exact Hi. ring.
  - rewrite preimage_mvec.
    rewrite (mvec_ext (p_n p) (tr (p_W p)) (tr (p_W p)) _ (mvec (p_n p) (p_W p) x) i Hi) by (intros ? ?; try intros ? ?; try reflexivity; unfold act; ring).
    rewrite <- mvec_mmul. rewrite (mvec_ext (p_n p) _ eye x x i Hi O) by (intros ? ?; reflexivity). now apply mvec_eye.
Qed.
Lemma k_action_linear p x : veq (p_n p) (k_action p x) (fun i => act p x i - p_w p i)%Qc.
Proof. intros i Hi. unfold k_action, act, mvec, tr. rewrite (qs_ext _ (fun k => x k * p_W p i k)%Qc (fun k => p_W p i k * x k)%Qc) by (intros; ring). qring. Qed.

(** ** change of origin *)
Lemma change_fields p o : proper_map p ->
  change_origin p o = Ok (PGS (p_n p) (p_W p) (mvec (p_n p) (fun i j => eye i j - p_W p i j)%Qc o)).
Proof. intros O. unfold change_origin. now apply construct_ok. Qed.
Lemma eye_minus n A x i : i < n -> mvec n (fun i j => eye i j - A i j)%Qc x i = (x i - mvec n A x i)%Qc.
Proof.
  intros Hi. unfold mvec. rewrite (qs_ext n _ (fun k => eye i k * x k - A i k * x k)%Qc) by (intros; ring).
  rewrite qs_sub. now rewrite eye_l.
Qed.
Lemma change_origin_main p o : proper_map p -> exists q, change_origin p o = Ok q /\ p_n q = p_n p /\ p_W q = p_W p /\
  veq (p_n p) (act q o) o /\ forall x, veq (p_n p) (act q x) (fun i => o i + mvec (p_n p) (p_W p) (fun k => x k - o k)%Qc i)%Qc.
Proof.
  intros O. rewrite (change_fields p o O). eexists. split; [reflexivity|]. cbn [p_n p_W]. split; [reflexivity|]. split; [reflexivity|].
  assert (G : forall x, veq (p_n p) (act (PGS (p_n p) (p_W p) (mvec (p_n p) (fun i j => eye i j - p_W p i j)%Qc o)) x)
     (fun i => o i + mvec (p_n p) (p_W p) (fun k => x k - o k)%Qc i)%Qc).
  { intros x i Hi. unfold act. cbn [p_n p_W p_w]. rewrite eye_minus by exact Hi. rewrite mvec_sub. ring. }
  split; [|exact G]. intros i Hi. rewrite G by exact Hi. rewrite mvec_sub. ring.
Qed.
Lemma change_product p q o : proper_map p -> proper_map q -> p_n p = p_n q ->
  exists p' q' r r' s, change_origin p o = Ok p' /\ change_origin q o = Ok q' /\ pg_product p q = Ok r /\
    change_origin r o = Ok r' /\ pg_product p' q' = Ok s /\ forall x, veq (p_n p) (act s x) (act r' x).
Proof.
  intros Hp Hq E. destruct (change_origin_main p o Hp) as (p' & P1 & P2 & P3 & _ & P5).
  destruct (change_origin_main q o Hq) as (q' & Q1 & Q2 & Q3 & _ & Q5).
  destruct (product_closed p q Hp Hq E) as (r & R1 & R2 & R3).
  destruct (change_origin_main r o R3) as (r' & S1 & S2 & S3 & _ & S5).
  destruct (product_closed p' q') as (s & T1 & T2 & T3); [unfold proper_map; now rewrite P2, P3|unfold proper_map; now rewrite Q2, Q3|congruence|].
  exists p', q', r, r', s. do 5 (split; [assumption|]). intros x i Hi.
  rewrite (product_act p' q' s x T1) by now rewrite P2. rewrite P5 by exact Hi.
  rewrite R2 in S5. rewrite S5 by exact Hi. apply product_fields in R1. destruct R1 as [_ ->]. cbn [p_n p_W].
  rewrite mvec_mmul. f_equal. apply mvec_ext; [exact Hi|intros ? ? ? ?; reflexivity|]. intros k Hk.
  rewrite E in *. rewrite Q5 by exact Hk. ring.
Qed.
