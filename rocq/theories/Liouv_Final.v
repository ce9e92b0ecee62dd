(** * The Lindbladian: final statements *)
From Coq Require Import ZArith List Bool Lia Ring.
From Verif Require Import Base BaseFacts Scalar LocalOp_Spec LocalOp_Model LocalOp_Facts LocalOp_Laws LocalOp_Proofs LocalOp_Final
  Special_Model Special_Proofs Special_Final Lazy_Spec Lazy_Proofs Liouv_Model Liouv_Spec Liouv_Proofs.
Import ListNotations.

Section P.
Variable S : scalars.
Hypothesis L : scalar_laws S.
Variables im half : K S.
Variable hs : list (list Z).
Hypothesis Hs : sorted_space hs.
Notation K := (K S).
Notation "0" := (k0 S).
Notation "1" := (k1 S).
Infix "+" := (kadd S).
Infix "*" := (kmul S).
Notation "- x" := (kopp S x).
Infix "-" := (ksub S).
Add Ring Kring : (k_ring S L).
Notation row := (list (list Z * K)).
Notation sm := (sum S).
Notation all := (all_configs hs).

(** *** _compute_hnh *)
Lemma hnh_expr_ok H Ls x y :
  denote S hs (hnh_expr S im half H Ls) x y = hnh S im half hs (denote S hs H) (map (denote S hs) Ls) x y.
Proof.
  unfold hnh_expr, hnh.
  enough (E : forall h, denote S hs (fold_left (fun h l => Minus S h (Matmul S (Times S (Transp S (Conj S l)) (half * im)) l)) Ls h) x y =
    denote S hs h x y - half * im * sm (map (fun l => mul S hs (dag S l) l x y) (map (denote S hs) Ls))).
  { rewrite E. cbn [denote]. ring. }
  induction Ls as [|l Ls IH]; intros h; cbn [fold_left map].
  - change (sm []) with 0. ring.
  - rewrite IH. cbn [denote].
    change (sm (?a :: ?b)) with (a + sm b).
    assert (E : sm (map (fun z => kconj S (denote S hs l z x) * (half * im) * denote S hs l z y) all) =
      half * im * mul S hs (dag S (denote S hs l)) (denote S hs l) x y).
    { unfold mul, product, dag. rewrite <- (sum_mul_l S L). apply (sum_ext S). intros z _. cbn. ring. }
    rewrite E. change (sm (mul S hs (dag S (denote S hs l)) (denote S hs l) x y :: map (fun l0 => mul S hs (dag S l0) l0 x y) (map (denote S hs) Ls)))
      with (mul S hs (dag S (denote S hs l)) (denote S hs l) x y + sm (map (fun l0 => mul S hs (dag S l0) l0 x y) (map (denote S hs) Ls))). ring.
Qed.

Lemma hnh_valid H Ls : valid_expr S hs H -> Forall (valid_expr S hs) Ls -> valid_expr S hs (hnh_expr S im half H Ls).
Proof.
  intros VH VL. unfold hnh_expr.
  assert (V0 : valid_expr S hs (Times S H 1)) by exact VH. revert V0. generalize (Times S H 1).
  induction VL as [|l Ls Hl HL IH]; intros h V0; cbn [fold_left]; auto. apply IH. cbn. auto.
Qed.

(** *** batches *)
Variable hrow : list Z -> row.
Variable lrows : list (list Z -> row).
Definition flat_rows (f : list Z -> row) (xs : list (list Z)) : flat S :=
  (concat (map f xs), ends 0 (map (fun x => length (f x)) xs)).
Definition item_of (s : list Z * list Z) : item S :=
  (fst s, snd s, hrow (fst s), hrow (snd s), map (fun l => (l (fst s), l (snd s))) lrows).
Definition out_row (s : list Z * list Z) : row :=
  full_row S im (fst s) (snd s) (hrow (fst s)) (hrow (snd s)) (map (fun l => (l (fst s), l (snd s))) lrows).
Definition flats (samples : list (list Z * list Z)) : list (flat S * flat S) :=
  map (fun l => (flat_rows l (map fst samples), flat_rows l (map snd samples))) lrows.

Lemma item_s samples : map (i_s S) (map item_of samples) = samples.
Proof. rewrite map_map. rewrite <- (map_id samples) at 2. apply map_ext. intros []; reflexivity. Qed.
Lemma item_row s : i_row S im (item_of s) = out_row s.
Proof. reflexivity. Qed.

Lemma nth_jump_items j samples : (j < length lrows)%nat ->
  nth_jump S j (map item_of samples) =
  map (fun s => (nth j lrows (fun _ => []) (fst s), nth j lrows (fun _ => []) (snd s))) samples.
Proof.
  intros Hj. induction samples as [|s l IH]; cbn [map nth_jump]; auto. rewrite IH. f_equal.
  unfold i_l, item_of. cbn [snd].
  set (f := fun l : list Z -> row => (l (fst s), l (snd s))).
  rewrite (nth_indep _ ([], []) (f (fun _ => []))) by (rewrite map_length; auto). rewrite map_nth. reflexivity.
Qed.

Lemma reads_rows f (g : list Z * list Z -> list Z) samples :
  reads S (start S (flat_rows f (map g samples))) (map (fun s => f (g s)) samples).
Proof. unfold flat_rows. rewrite !map_map. split; cbn [fst snd start skipn]; auto. rewrite map_map. reflexivity. Qed.

Lemma jreads_rows samples :
  jreads S (length lrows) (map (fun q => (start S (fst q), start S (snd q))) (flats samples)) (map item_of samples).
Proof.
  split; [unfold flats; rewrite !map_length; auto|]. intros j d Hj.
  unfold flats. rewrite map_map. cbn [fst snd].
  set (f := fun l : list Z -> row => (start S (flat_rows l (map fst samples)), start S (flat_rows l (map snd samples)))).
  rewrite (nth_indep _ d (f (fun _ => []))) by (rewrite map_length; auto). rewrite map_nth.
  rewrite nth_jump_items, !map_map by auto. unfold f. cbn [fst snd]. split; apply reads_rows.
Qed.

Lemma flattened_ok size samples cap :
  (length (concat (map out_row samples)) <= cap)%nat ->
  liou_flattened S im size false samples (flat_rows hrow (map fst samples)) (flat_rows hrow (map snd samples)) (flats samples) cap =
  Ok (map snd (concat (map out_row samples)), map fst (concat (map out_row samples)),
      ends 0 (map (fun s => length (out_row s)) samples)).
Proof.
  intros HC. unfold liou_flattened. cbv zeta.
  assert (EM : map (i_row S im) (map item_of samples) = map out_row samples) by (rewrite map_map; reflexivity).
  destruct (loop_flat S im (map item_of samples) (length lrows)) with (i := 0%nat)
    (cr := start S (flat_rows hrow (map fst samples))) (cc := start S (flat_rows hrow (map snd samples)))
    (cls := map (fun q => (start S (fst q), start S (snd q))) (flats samples)) (off := 0%nat)
    (mels := repeat 0 cap) (xs := repeat (repeat 0%Z size) cap) (secs := @nil nat)
    as (m' & x' & E1 & E2 & E3).
  - apply Forall_forall. intros t Ht. apply in_map_iff in Ht. destruct Ht as (s & <- & _). unfold i_l, item_of. cbn [snd].
    apply map_length.
  - rewrite map_map. apply (reads_rows hrow fst).
  - rewrite map_map. apply (reads_rows hrow snd).
  - apply jreads_rows.
  - rewrite EM, repeat_length. exact HC.
  - rewrite !repeat_length. reflexivity.
  - rewrite item_s in E1. rewrite E1. cbn [bind fst snd]. rewrite EM in *. rewrite E2, E3. cbn [firstn app].
    rewrite map_map. reflexivity.
Qed.

Lemma padded_ok size samples cap :
  let pad := pad_size S (flat_rows hrow (map fst samples)) (flat_rows hrow (map snd samples)) (flats samples) in
  (0 < pad)%nat -> Forall (fun s => (length (out_row s) <= pad)%nat) samples -> (length samples * pad <= cap)%nat ->
  liou_flattened S im size true samples (flat_rows hrow (map fst samples)) (flat_rows hrow (map snd samples)) (flats samples) cap =
  Ok (concat (map (fun s => padded 0 pad (map snd (out_row s))) samples),
      concat (map (fun s => padded (repeat 0%Z size) pad (map fst (out_row s))) samples),
      map (fun k => ((k + 1) * pad)%nat) (seq 0 (length samples))).
Proof.
  intros pad Hp HF HC. unfold liou_flattened. cbv zeta. fold pad. clearbody pad.
  pose proof (loop_padded S im (map item_of samples) (length lrows) pad (repeat 0%Z size) Hp) as HL.
  specialize (HL) . assert (HFt : Forall (fun t => length (i_l S t) = length lrows /\ (length (i_row S im t) <= pad)%nat) (map item_of samples)).
  { apply Forall_forall. intros t Ht. apply in_map_iff in Ht. destruct Ht as (s & <- & Hin). split.
    - unfold i_l, item_of. cbn [snd]. apply map_length.
    - rewrite item_row. rewrite Forall_forall in HF. auto. }
  specialize (HL HFt 0%nat (start S (flat_rows hrow (map fst samples))) (start S (flat_rows hrow (map snd samples)))
    (map (fun q => (start S (fst q), start S (snd q))) (flats samples)) [] [] (cap - length samples * pad)%nat []).
  rewrite !map_map, !map_length in HL. cbn [length Nat.mul app] in HL.
  replace (length samples * pad + (cap - length samples * pad))%nat with cap in HL by lia.
  assert (ES : map (fun x => i_s S (item_of x)) samples = samples) by (rewrite <- map_map; apply item_s).
  rewrite ES in HL. rewrite HL; auto.
  - cbn [bind fst snd Nat.add].
    assert (HFst : forall B (f : list Z * K -> B) (z : B) (rest : list B),
      firstn (length samples * pad) (concat (map (fun s => padded z pad (map f (out_row s))) samples) ++ rest) =
      concat (map (fun s => padded z pad (map f (out_row s))) samples)).
    { intros B f z rest.
      assert (EL : length (concat (map (fun s => padded z pad (map f (out_row s))) samples)) = (length samples * pad)%nat).
      { clear - HF. induction HF as [|s l H1 H2 IH]; cbn [map concat length]; auto. rewrite app_length, IH. unfold padded.
        rewrite app_length, repeat_length, map_length. lia. }
      rewrite <- EL, firstn_app, Nat.sub_diag, firstn_all. cbn. apply app_nil_r. }
    change (fun x => padded 0 pad (map snd (i_row S im (item_of x)))) with (fun s => padded 0 pad (map snd (out_row s))).
    change (fun x => padded (repeat 0%Z size) pad (map fst (i_row S im (item_of x)))) with (fun s => padded (repeat 0%Z size) pad (map fst (out_row s))).
    rewrite !HFst. reflexivity.
  - apply (reads_rows hrow fst).
  - apply (reads_rows hrow snd).
  - apply jreads_rows.
Qed.

(** *** lengths *)
Definition jsum (ms : list nat) : nat := fold_right (fun m a => (m * m + a)%nat) O ms.

Lemma jump_len lr lc : length (jump_part S lr lc) = (length lr * length lc)%nat.
Proof. unfold jump_part. induction lr as [|r lr IH]; cbn [flat_map length]; auto. rewrite app_length, map_length, IH. lia. Qed.

Lemma out_row_len mh ms s :
  (length (hrow (fst s)) <= mh)%nat -> (length (hrow (snd s)) <= mh)%nat ->
  Forall2 (fun l m => (length (l (fst s) : row) <= m /\ length (l (snd s) : row) <= m)%nat) lrows ms ->
  (length (out_row s) <= jsum ms + 2 * mh)%nat.
Proof.
  intros H1 H2 H3. unfold out_row, full_row. rewrite !app_length. unfold row_part, col_part. rewrite !map_length.
  enough (length (flat_map (fun l => jump_part S (fst l) (snd l)) (map (fun l => (l (fst s), l (snd s))) lrows)) <= jsum ms)%nat by lia.
  induction H3 as [|l m ls ms [A B] H3 IH]; cbn [map flat_map jsum fold_right fst snd]; [cbn; lia|].
  rewrite app_length, jump_len. fold (jsum ms). nia.
Qed.

Lemma concat_bound mc samples : Forall (fun s => (length (out_row s) <= mc)%nat) samples ->
  (length (concat (map out_row samples)) <= mc * length samples)%nat.
Proof. induction 1 as [|s l H1 H2 IH]; cbn [map concat length]; [lia|]. rewrite app_length. nia. Qed.

(** *** the master equation in batches *)
Variable Hn : matrix S.
Variable Ls : list (matrix S).
Hypothesis HR : forall x, configuration hs x -> is_row S hs (Hn x) (hrow x).
Hypothesis LR : Forall2 (fun l f => forall x, configuration hs x -> is_row S hs (l x) (f x)) Ls lrows.

Lemma out_row_master s rho : configuration hs (fst s) -> configuration hs (snd s) ->
  contract S hs (out_row s) rho = master S im hs Hn Ls rho (fst s) (snd s).
Proof.
  intros C1 C2. unfold out_row. apply (full_row_ok S L im hs Hs); auto.
  clear HR. revert LR. generalize lrows. induction Ls as [|l ls IH]; intros fs HF; inversion HF; subst; constructor; cbn [fst snd]; auto.
Qed.

Lemma out_row_conf s p : configuration hs (fst s) -> configuration hs (snd s) -> In p (out_row s) ->
  configuration (hs ++ hs) (fst p).
Proof.
  intros C1 C2 Hp. assert (HA : forall a b, configuration hs a -> configuration hs b -> configuration (hs ++ hs) (a ++ b)).
  { intros a b Ha Hb. apply Forall2_app; auto. }
  unfold out_row, full_row in Hp. rewrite !in_app_iff in Hp. destruct Hp as [Hp|[Hp|Hp]].
  - unfold row_part in Hp. apply in_map_iff in Hp. destruct Hp as (q & <- & Hq). cbn. apply HA; auto. apply (proj1 (HR (fst s) C1)); auto.
  - unfold col_part in Hp. apply in_map_iff in Hp. destruct Hp as (q & <- & Hq). cbn. apply HA; auto.
    apply (proj1 (HR (snd s) C2)); auto.
  - apply in_flat_map in Hp. destruct Hp as (l & Hl & Hp). apply in_map_iff in Hl. destruct Hl as (f & <- & Hf).
    cbn [fst snd] in Hp. unfold jump_part in Hp. apply in_flat_map in Hp. destruct Hp as (r & Hr & Hp).
    apply in_map_iff in Hp. destruct Hp as (c & <- & Hc). cbn.
    assert (HX : exists l, forall x, configuration hs x -> is_row S hs (l x) (f x)).
    { clear - LR Hf. induction LR as [|l g ls gs Hl HF IH]; [destruct Hf|]. destruct Hf as [->|Hf]; eauto. }
    destruct HX as (l & HX). apply HA; [apply (proj1 (HX (fst s) C1))|apply (proj1 (HX (snd s) C2))]; auto.
Qed.
End P.

Section T.
Variable S : scalars.
Hypothesis L : scalar_laws S.
Variables im half : K S.
Variable hs : list (list Z).
Hypothesis Hs : sorted_space hs.
Notation "0" := (k0 S).
Notation "1" := (k1 S).
Infix "+" := (kadd S).
Infix "*" := (kmul S).
Notation "- x" := (kopp S x).
Infix "-" := (ksub S).
Add Ring Kring2 : (k_ring S L).
Notation sm := (sum S).
Notation all := (all_configs hs).

Lemma lind_batch Hn Ls hrow lrows mh ms size cap samples :
  (forall x, configuration hs x -> is_row S hs (Hn x) (hrow x) /\ (length (hrow x) <= mh)%nat) ->
  Forall2 (fun l f => forall x, configuration hs x -> is_row S hs (l x) (f x)) Ls lrows ->
  Forall2 (fun f m => forall x, configuration hs x -> (length (f x : list (list Z * K S)) <= m)%nat) lrows ms ->
  Forall (fun s => configuration hs (fst s) /\ configuration hs (snd s)) samples ->
  ((jsum ms + 2 * mh) * length samples <= cap)%nat ->
  exists rows,
    liou_flattened S im size false samples (flat_rows S hrow (map fst samples)) (flat_rows S hrow (map snd samples))
      (flats S lrows samples) cap =
      Ok (map snd (concat rows), map fst (concat rows), ends O (map (@length _) rows)) /\
    Forall2 (fun s row =>
      (forall p, In p row -> configuration (hs ++ hs) (fst p)) /\
      (forall rho, contract S hs row rho = master S im hs Hn Ls rho (fst s) (snd s)) /\
      (length row <= jsum ms + 2 * mh)%nat /\
      forall stale, length (hrow (fst s)) = length (hrow (snd s)) ->
        liou_get_conn S im (fst s) (snd s) (hrow (fst s)) (hrow (snd s))
          (map (fun f => (f (fst s), f (snd s))) lrows) stale = Ok row) samples rows.
Proof.
  intros HR LR LM HC Hcap. exists (map (out_row S im hrow lrows) samples).
  assert (HB : Forall (fun s => (length (out_row S im hrow lrows s) <= jsum ms + 2 * mh)%nat) samples).
  { eapply Forall_impl; [|exact HC]. intros s [C1 C2]. apply out_row_len; [apply HR; auto|apply HR; auto|].
    clear - LM C1 C2. induction LM; constructor; auto. }
  split.
  - rewrite flattened_ok; [rewrite map_map; reflexivity|].
    pose proof (concat_bound S im hrow lrows _ samples HB). lia.
  - apply Forall2_map_self. intros s Hin. rewrite Forall_forall in HC, HB. destruct (HC s Hin) as [C1 C2]. split; [|split; [|split]].
    + intros p Hp. eapply out_row_conf; eauto. intros x Hx. apply HR; auto.
    + intros rho. apply out_row_master; auto. intros x Hx. apply HR; auto.
    + auto.
    + intros stale E. apply get_conn_same; auto.
Qed.

(** *** trace *)
Hypothesis Him : im * im = - (1).
Hypothesis Hic : kconj S im = - im.
Hypothesis Hhalf : half + half = 1.
Hypothesis Hhc : kconj S half = half.

Lemma lind_trace H Ls rho :
  (forall x y, configuration hs x -> configuration hs y -> H x y = kconj S (H y x)) ->
  trace S hs (master S im hs (hnh S im half hs H Ls) Ls rho) = 0.
Proof.
  intros HH. unfold trace, master. rewrite !(sum_add S L), !(sum_mul_l S L).
  set (Hn := hnh S im half hs H Ls).
  set (G := fun x z => sm (map (fun l => mul S hs (dag S l) l x z) Ls)).
  assert (E1 : sm (map (fun x => mul S hs Hn rho x x) all) = sm (map (fun x => sm (map (fun z => Hn x z * rho z x) all)) all)) by reflexivity.
  assert (E2 : sm (map (fun x => mul S hs rho (dag S Hn) x x) all) =
     sm (map (fun x => sm (map (fun z => kconj S (Hn z x) * rho z x) all)) all)).
  { unfold mul, product, dag, apply_move. rewrite (sum_swap S L). apply (sum_ext S). intros x _. apply (sum_ext S).
    intros z _. ring. }
  assert (E3 : sm (map (fun x => sm (map (fun l => mul S hs (mul S hs l rho) (dag S l) x x) Ls)) all) =
     sm (map (fun x => sm (map (fun z => G x z * rho z x) all)) all)).
  { rewrite (sum_swap S L).
    rewrite (sum_ext S _ (fun l => sm (map (fun x => sm (map (fun z => mul S hs (dag S l) l x z * rho z x) all)) all))).
    2:{ intros l _. unfold mul, product, dag, apply_move.
        rewrite (sum_ext S _ (fun x => sm (map (fun w => sm (map (fun z => l x z * rho z w * kconj S (l x w)) all)) all))).
        2:{ intros x _. apply (sum_ext S). intros w _. symmetry. apply (sum_mul_r S L). }
        rewrite (sum_swap S L). apply (sum_ext S). intros w _.
        rewrite (sum_swap S L). apply (sum_ext S). intros z _.
        rewrite <- (sum_mul_r S L). apply (sum_ext S). intros x _. ring. }
    rewrite (sum_swap S L). apply (sum_ext S). intros x _. rewrite (sum_swap S L). apply (sum_ext S). intros z _.
    unfold G. rewrite <- (sum_mul_r S L). reflexivity. }
  rewrite E1, E2, E3, <- !(sum_mul_l S L), <- !(sum_add S L). apply (sum_zero S L). intros x Hx.
  rewrite <- !(sum_mul_l S L), <- !(sum_add S L). apply (sum_zero S L). intros z Hz.
  apply all_configs_in in Hx. apply all_configs_in in Hz.
  assert (EG : kconj S (G z x) = G x z).
  { unfold G. rewrite (conj_sum S L), map_map. apply (sum_ext S). intros l _. unfold mul, product, dag, apply_move.
    rewrite (conj_sum S L), map_map. apply (sum_ext S). intros w _. rewrite (k_conj_mul S L), (k_conj_conj S L). ring. }
  assert (EH : kconj S (Hn z x) = Hn x z + im * G x z).
  { unfold Hn, hnh. fold (G z x). fold (G x z).
    assert (Eq : forall a b, kconj S (a - b) = kconj S a - kconj S b).
    { intros a b. replace (a - b) with (a + - b) by ring. rewrite (k_conj_add S L), (conj_opp S L). ring. }
    rewrite Eq, !(k_conj_mul S L), Hic, Hhc, EG, <- (HH x z) by auto.
    transitivity (H x z - half * im * G x z + (half + half) * im * G x z); [ring|]. rewrite Hhalf. ring. }
  rewrite EH. transitivity ((im * im + 1) * (G x z * rho z x)); [ring|]. rewrite Him. ring.
Qed.
End T.

Lemma lind_local S (L : scalar_laws S) im half depth hs (Hs : sorted_space hs) (NS : no_small S) d H Ls o los xr xc hr hc ls
  j jx stale rho :
  uniform_space hs d -> valid_expr S hs H -> Forall (valid_expr S hs) Ls ->
  build S (Datatypes.S depth) hs (hnh_expr S im half H Ls) = Ok o ->
  Forall2 (fun l lo => build S (Datatypes.S depth) hs l = Ok lo) Ls los ->
  configuration hs xr -> configuration hs xc ->
  get_conn S hs o j jx xr = Ok hr -> get_conn S hs o j jx xc = Ok hc -> length hr = length hc ->
  Forall2 (fun lo p => get_conn S hs lo j jx xr = Ok (fst p) /\ get_conn S hs lo j jx xc = Ok (snd p)) los ls ->
  exists row, liou_get_conn S im xr xc hr hc ls stale = Ok row /\
    contract S hs row rho =
      master S im hs (hnh S im half hs (denote S hs H) (map (denote S hs) Ls)) (map (denote S hs) Ls) rho xr xc.
Proof.
  intros U VH VL B BL C1 C2 G1 G2 E GL. exists (full_row S im xr xc hr hc ls).
  split; [apply get_conn_same; auto|].
  assert (R : forall e o x l, valid_expr S hs e -> build S (Datatypes.S depth) hs e = Ok o -> configuration hs x ->
     get_conn S hs o j jx x = Ok l -> is_row S hs (denote S hs e x) l).
  { intros e o' x l V B' C G. pose proof (expr_row S L depth hs Hs NS e o' x j jx V (or_intror (ex_intro _ d U)) B' C) as HR.
    rewrite G in HR. exact HR. }
  assert (RH : forall x l, configuration hs x -> get_conn S hs o j jx x = Ok l ->
     is_row S hs (hnh S im half hs (denote S hs H) (map (denote S hs) Ls) x) l).
  { intros x l C G. destruct (R _ _ x l (hnh_valid S im half hs H Ls VH VL) B C G) as [R1 R2]. split; auto.
    intros y Hy. rewrite R2 by auto. apply hnh_expr_ok; auto. }
  apply (full_row_ok S L im hs Hs); auto.
  clear - VL BL GL R C1 C2. revert ls GL. induction BL as [|l lo Ls los HB BL IH]; intros ls GL; inversion GL as [|? p ? ls' [G1 G2] GL']; subst.
  - constructor.
  - inversion VL; subst. cbn [map]. constructor; auto. split; eapply R; eauto.
Qed.
