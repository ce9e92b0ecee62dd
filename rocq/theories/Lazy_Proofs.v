(** * Proofs about lazy wrappers *)
From Coq Require Import ZArith List Bool Lia.
From Verif Require Import Base BaseFacts Scalar LocalOp_Spec LocalOp_Model LocalOp_Facts LocalOp_Laws LocalOp_Proofs LocalOp_Final
  Lazy_Model Lazy_Spec.
Import ListNotations.

Section P.
Variable S : scalars.
Hypothesis L : scalar_laws S.
Variable hs : list (list Z).
Variable herm : expr S -> bool.
Variable good : expr S -> Prop.
Hypothesis Hherm : forall e, good e -> herm e = true -> forall x y, configuration hs x -> configuration hs y ->
  denote S hs e x y = kconj S (denote S hs e y x).
Hypothesis GT : forall e, good e -> good (Transp S e).
Hypothesis GC : forall e, good e -> good (Conj S e).

(** the objects users can reach *)
Definition reach (o : op S) : Prop :=
  exists e, good e /\ (o = Conc S e \/ o = Tr S (Conc S e) \/ o = Ad S (Conc S e)).

Notation agree := (agree S hs).
Notation mof := (matrix_of S hs).

Lemma agree_refl f : agree f f. Proof. intros x y _ _; reflexivity. Qed.
Lemma agree_trans f g h : agree f g -> agree g h -> agree f h.
Proof. intros H1 H2 x y Hx Hy. rewrite H1, H2; auto. Qed.
Lemma agree_move m f g : agree f g -> agree (apply_move S m f) (apply_move S m g).
Proof. intros H x y Hx Hy. destruct m; cbn; rewrite H; auto. Qed.

Lemma move_ok m o : reach o -> exists o', run_move S herm m o = Ok o' /\ reach o' /\
  agree (mof o') (apply_move S m (mof o)).
Proof.
  intros (e & G & [-> | [-> | ->]]); destruct m; cbn [run_move dotT dotH conj_ transpose conjugate is_herm].
  - eexists. split; [reflexivity|]. split; [exists e; auto|]. apply agree_refl.
  - destruct (herm e) eqn:E.
    + eexists. split; [reflexivity|]. split; [exists e; auto|]. intros x y Hx Hy. cbn. apply Hherm; auto.
    + eexists. split; [reflexivity|]. split; [exists e; auto|]. apply agree_refl.
  - eexists. split; [reflexivity|]. split; [exists (Conj S e); auto|]. apply agree_refl.
  - eexists. split; [reflexivity|]. split; [exists e; auto|]. apply agree_refl.
  - eexists. split; [reflexivity|]. split; [exists (Conj S e); auto|]. apply agree_refl.
  - unfold conj_. cbn [conjugate is_herm]. destruct (herm e) eqn:E.
    + eexists. split; [reflexivity|]. split; [exists e; auto|]. intros x y Hx Hy. cbn. apply Hherm; auto.
    + eexists. split; [reflexivity|]. split; [exists e; auto|]. apply agree_refl.
  - eexists. split; [reflexivity|]. split; [exists (Conj S e); auto|].
    intros x y _ _. cbn. reflexivity.
  - eexists. split; [reflexivity|]. split; [exists e; auto|]. intros x y _ _. cbn. rewrite (k_conj_conj S L). reflexivity.
  - eexists. split; [reflexivity|]. split; [exists e; auto|]. intros x y _ _. cbn. rewrite (k_conj_conj S L). reflexivity.
Qed.

Lemma moved_agree ms : forall f g, agree f g -> agree (moved S ms f) (moved S ms g).
Proof. induction ms as [|m ms IH]; intros f g H; cbn; auto. apply IH, agree_move, H. Qed.

Lemma run_ok ms : forall o, reach o -> exists o', run S herm ms o = Ok o' /\ reach o' /\
  agree (mof o') (moved S ms (mof o)).
Proof.
  induction ms as [|m ms IH]; intros o R; cbn [run moved].
  - exists o. split; auto. split; auto. apply agree_refl.
  - destruct (move_ok m o R) as (o1 & E1 & R1 & A1). rewrite E1. cbn [bind].
    destruct (IH o1 R1) as (o2 & E2 & R2 & A2). exists o2. split; auto. split; auto.
    eapply agree_trans; [exact A2|]. apply moved_agree, A1.
Qed.

Lemma collect_ok o : reach o -> exists e, collect S herm o = Ok (Conc S e) /\ good e /\ agree (denote S hs e) (mof o).
Proof.
  intros (e & G & [-> | [-> | ->]]); unfold collect, conj_; cbn.
  - exists e. split; auto. split; auto. apply agree_refl.
  - exists (Transp S e). split; auto. split; auto. apply agree_refl.
  - exists (Conj S (Transp S e)). split; auto. split; auto. apply agree_refl.
Qed.

Hypothesis GM : forall a b, good a -> good b -> good (Matmul S a b).
Hypothesis Hvalid : forall z, In z (all_configs hs) -> configuration hs z.

Lemma agree_product f f' g g' : agree f f' -> agree g g' -> agree (product S hs f g) (product S hs f' g').
Proof.
  intros H1 H2 x y Hx Hy. unfold product. apply (sum_ext S). intros z Hz. rewrite H1, H2; auto.
Qed.

Lemma collect_sq e : good e ->
  exists e', collect S herm (Sq S (Conc S e)) = Ok (Conc S e') /\ good e' /\
    agree (denote S hs e') (mof (Sq S (Conc S e))).
Proof.
  intros G. unfold collect, conj_. cbn. destruct (herm e) eqn:E; cbn.
  - exists (Matmul S e e). split; auto. split; auto. cbn [matrix_of denote].
    change (fun x y => sum S (map (fun z => kmul S (denote S hs e x z) (denote S hs e z y)) (all_configs hs)))
      with (product S hs (denote S hs e) (denote S hs e)).
    apply agree_product; [|apply agree_refl]. intros x y Hx Hy. cbn. apply Hherm; auto.
  - exists (Matmul S (Conj S (Transp S e)) e). split; auto. split; auto. apply agree_refl.
Qed.

Variable same : op S -> op S -> bool.
Hypothesis Hsame : forall a b, same a b = true -> a = b.

Definition result_ok (o : op S) (M : matrix S) : Prop :=
  agree (mof o) M /\ exists e, collect S herm o = Ok (Conc S e) /\ good e /\ agree (denote S hs e) M.

Lemma sq_result e M : good e -> agree (mof (Sq S (Conc S e))) M -> result_ok (Sq S (Conc S e)) M.
Proof.
  intros G A. split; auto. destruct (collect_sq e G) as (e' & E & G' & A'). exists e'. split; auto. split; auto.
  eapply agree_trans; eauto.
Qed.

Lemma conc_result e M : good e -> agree (denote S hs e) M -> result_ok (Conc S e) M.
Proof. intros G A. split; auto. exists e. split; auto. Qed.

Lemma matmul_conc_ok a b M N : good a -> reach b -> agree (denote S hs a) M -> agree (mof b) N ->
  exists o, matmul_conc S herm same a b = Ok o /\ result_ok o (product S hs M N).
Proof.
  intros G R A B. unfold matmul_conc.
  assert (HSQ : forall N', agree (denote S hs a) N' -> herm a = true ->
     result_ok (Sq S (Conc S a)) (product S hs M N')).
  { intros N' A' E. apply sq_result; auto. cbn [matrix_of]. apply agree_product; auto.
    eapply agree_trans; [|exact A]. intros x y Hx Hy. cbn. symmetry. apply Hherm; auto. }
  destruct (same (Conc S a) b) eqn:Es; cbn [andb].
  1: apply Hsame in Es; subst b; destruct (herm a) eqn:Eh; [eexists; split; [reflexivity|]; apply HSQ; auto|].
  1:{ eexists. split; [reflexivity|]. apply conc_result; [apply GM; auto|].
    change (denote S hs (Matmul S a a)) with (product S hs (denote S hs a) (denote S hs a)).
    apply agree_product; auto. }
  destruct b as [y|p|p|p].
  - assert (Gy : good y) by (destruct R as (e & Ge & [E|[E|E]]); inversion E; subst; auto).
    eexists. split; [reflexivity|]. apply conc_result; [apply GM; auto|].
    change (denote S hs (Matmul S a y)) with (product S hs (denote S hs a) (denote S hs y)).
    apply agree_product; auto.
  - destruct (collect_ok _ R) as (y & E & Gy & Ay). rewrite E. cbn [bind].
    destruct (same (Conc S a) (Conc S y)) eqn:Es2; cbn [andb].
    1: apply Hsame in Es2; injection Es2 as <-; destruct (herm a) eqn:Eh.
    1: eexists; split; [reflexivity|]; apply HSQ; auto; eapply agree_trans; eauto.
    all: eexists; split; [reflexivity|]; apply conc_result; [apply GM; auto|];
      apply (agree_product (denote S hs a) M _ N); auto; eapply agree_trans; eauto.
  - destruct (collect_ok _ R) as (y & E & Gy & Ay). rewrite E. cbn [bind].
    destruct (same (Conc S a) (Conc S y)) eqn:Es2; cbn [andb].
    1: apply Hsame in Es2; injection Es2 as <-; destruct (herm a) eqn:Eh.
    1: eexists; split; [reflexivity|]; apply HSQ; auto; eapply agree_trans; eauto.
    all: eexists; split; [reflexivity|]; apply conc_result; [apply GM; auto|];
      apply (agree_product (denote S hs a) M _ N); auto; eapply agree_trans; eauto.
  - destruct R as (e & _ & [R|[R|R]]); discriminate.
Qed.

Lemma matmul_ok a b : reach a -> reach b ->
  exists o, matmul S herm same a b = Ok o /\ result_ok o (product S hs (mof a) (mof b)).
Proof.
  intros Ra Rb. unfold matmul.
  destruct (same a b && is_herm S herm a) eqn:Es.
  { apply andb_true_iff in Es. destruct Es as [Es Eh]. apply Hsame in Es. subst b.
    destruct Ra as (e & Ge & [E|[E|E]]); subst a; cbn in Eh; try discriminate.
    eexists. split; [reflexivity|]. apply sq_result; auto. cbn [matrix_of]. apply agree_product; [|apply agree_refl].
    intros x y Hx Hy. cbn. symmetry. apply Hherm; auto. }
  assert (HC : exists o, (let? c := collect S herm a in match c with Conc _ x => matmul_conc S herm same x b | _ => Err TypeError end) = Ok o /\
     result_ok o (product S hs (mof a) (mof b))).
  { destruct (collect_ok a Ra) as (x & E & Gx & Ax). rewrite E. cbn [bind].
    apply matmul_conc_ok; auto. apply agree_refl. }
  destruct a as [x|p|p|p]; [exact HC|exact HC| |exact HC].
  - destruct (same p b) eqn:Ep; auto. apply Hsame in Ep. subst b.
    destruct Ra as (e & Ge & [E|[E|E]]); inversion E; subst.
    eexists. split; [reflexivity|]. apply sq_result; auto. apply agree_refl.
Qed.
End P.

(** *** instantiation with local operators *)
Definition built_herm (S : scalars) depth hs (e : expr S) : bool :=
  match build S (Datatypes.S depth) hs e with Ok o => lo_herm S o | Err _ => false end.

Section I.
Variable S : scalars.
Hypothesis L : scalar_laws S.
Variable depth : nat.
Variable hs : list (list Z).
Hypothesis Hs : sorted_space hs.
Hypothesis NS : no_small S.
Hypothesis CE : close_exact S.

Lemma built_herm_ok e : valid_expr S hs e -> no_product S e \/ (exists d, uniform_space hs d) ->
  real_scalars S e -> built_herm S depth hs e = true ->
  forall x y, configuration hs x -> configuration hs y -> denote S hs e x y = kconj S (denote S hs e y x).
Proof.
  intros V P R H. unfold built_herm in H. destruct (build S (Datatypes.S depth) hs e) as [o|] eqn:E; [|discriminate].
  exact (expr_hermitian S L depth hs Hs NS e o CE V P R E H).
Qed.

Lemma lazy_moves e ms : valid_expr S hs e -> no_product S e \/ (exists d, uniform_space hs d) -> real_scalars S e ->
  exists o e', run S (built_herm S depth hs) ms (Conc S e) = Ok o /\
    agree S hs (matrix_of S hs o) (moved S ms (denote S hs e)) /\
    collect S (built_herm S depth hs) o = Ok (Conc S e') /\
    valid_expr S hs e' /\ agree S hs (denote S hs e') (moved S ms (denote S hs e)).
Proof.
  intros V P R.
  set (good := fun e => valid_expr S hs e /\ (no_product S e \/ (exists d, uniform_space hs d)) /\ real_scalars S e).
  assert (G : good e) by (unfold good; auto).
  assert (HH : forall e, good e -> built_herm S depth hs e = true -> forall x y, configuration hs x -> configuration hs y ->
     denote S hs e x y = kconj S (denote S hs e y x)) by (intros e0 (V0 & P0 & R0); apply built_herm_ok; auto).
  assert (GT : forall e, good e -> good (Transp S e)) by (intros e0 H; exact H).
  assert (GC : forall e, good e -> good (Conj S e)) by (intros e0 H; exact H).
  destruct (run_ok S L hs (built_herm S depth hs) good HH GC ms (Conc S e)) as (o & E & Ro & A).
  { exists e; auto. }
  destruct (collect_ok S hs (built_herm S depth hs) good GT GC o Ro) as (e' & E' & G' & A').
  exists o, e'. split; auto. split; auto. split; auto. split; [apply G'|].
  eapply agree_trans; eauto.
Qed.

Lemma lazy_products e1 e2 ms1 ms2 d same :
  (forall a b, same a b = true -> a = b) ->
  uniform_space hs d ->
  valid_expr S hs e1 -> real_scalars S e1 -> valid_expr S hs e2 -> real_scalars S e2 ->
  exists o1 o2 o e', run S (built_herm S depth hs) ms1 (Conc S e1) = Ok o1 /\
    run S (built_herm S depth hs) ms2 (Conc S e2) = Ok o2 /\
    matmul S (built_herm S depth hs) same o1 o2 = Ok o /\
    agree S hs (matrix_of S hs o) (product S hs (moved S ms1 (denote S hs e1)) (moved S ms2 (denote S hs e2))) /\
    collect S (built_herm S depth hs) o = Ok (Conc S e') /\ valid_expr S hs e' /\
    agree S hs (denote S hs e') (product S hs (moved S ms1 (denote S hs e1)) (moved S ms2 (denote S hs e2))).
Proof.
  intros Hsame U V1 R1 V2 R2.
  set (good := fun e => valid_expr S hs e /\ real_scalars S e).
  assert (HH : forall e, good e -> built_herm S depth hs e = true -> forall x y, configuration hs x -> configuration hs y ->
     denote S hs e x y = kconj S (denote S hs e y x)) by (intros e0 (V0 & R0); apply built_herm_ok; eauto).
  assert (GT : forall e, good e -> good (Transp S e)) by (intros e0 H; exact H).
  assert (GC : forall e, good e -> good (Conj S e)) by (intros e0 H; exact H).
  assert (GM : forall a b, good a -> good b -> good (Matmul S a b)).
  { intros a b [Ha1 Ha2] [Hb1 Hb2]. split; cbn; auto. }
  destruct (run_ok S L hs (built_herm S depth hs) good HH GC ms1 (Conc S e1)) as (o1 & E1 & Ro1 & A1).
  { exists e1; unfold good; auto. }
  destruct (run_ok S L hs (built_herm S depth hs) good HH GC ms2 (Conc S e2)) as (o2 & E2 & Ro2 & A2).
  { exists e2; unfold good; auto. }
  assert (HV : forall z, In z (all_configs hs) -> configuration hs z) by (intros z; apply all_configs_in).
  destruct (matmul_ok S hs (built_herm S depth hs) good HH GT GC GM HV same Hsame o1 o2 Ro1 Ro2) as (o & E & A & e' & Ec & Ge & Ae).
  exists o1, o2, o, e'. split; auto. split; auto. split; auto.
  assert (AP : agree S hs (product S hs (matrix_of S hs o1) (matrix_of S hs o2))
     (product S hs (moved S ms1 (denote S hs e1)) (moved S ms2 (denote S hs e2)))) by (apply agree_product; auto).
  split; [eapply agree_trans; eauto|]. split; auto. split; [apply Ge|]. eapply agree_trans; eauto.
Qed.
End I.
