(** * Proofs about the Lindbladian *)
From Coq Require Import ZArith List Bool Lia Ring.
From Verif Require Import Base BaseFacts Scalar LocalOp_Spec LocalOp_Model LocalOp_Facts LocalOp_Laws LocalOp_Proofs
  Special_Model Special_Proofs Special_Final Lazy_Spec Liouv_Model Liouv_Spec.
Import ListNotations.

Section P.
Variable S : scalars.
Hypothesis L : scalar_laws S.
Variables im half : K S.
Variable hs : list (list Z).
Hypothesis Hs : sorted_space hs.
Notation K := (K S).
Notation "0" := (k0 S).
Notation "1" := (k1 S).
Infix "+" := (kadd S).
Infix "*" := (kmul S).
Notation "- x" := (kopp S x).
Infix "-" := (ksub S).
Add Ring Kring : (k_ring S L).
Notation row := (list (list Z * K)).
Notation sm := (sum S).

Lemma zdec (a b : list Z) : {a = b} + {a <> b}.
Proof. apply list_eq_dec, Z.eq_dec. Qed.

(** a row contracted with any function *)
Lemma row_contract f l g : is_row S hs f l ->
  sm (map (fun p => snd p * g (fst p)) l) = sm (map (fun z => f z * g z) (all_configs hs)).
Proof.
  intros [H1 H2].
  rewrite (sum_ext S _ (fun p => sm (map (fun z => (if zlist_eqb (fst p) z then snd p else 0) * g z) (all_configs hs)))).
  2:{ intros p Hp. rewrite (sum_single S L zdec _ (all_configs hs) (fst p)).
      - rewrite zlist_eqb_refl. reflexivity.
      - apply all_configs_nodup; auto.
      - apply all_configs_in. auto.
      - intros b _ Hb. rewrite (proj2 (zlist_eqb_false _ _) (fun E => Hb (eq_sym E))). ring. }
  rewrite (sum_swap S L). apply (sum_ext S). intros z Hz. rewrite (sum_mul_r S L).
  f_equal. apply H2. apply all_configs_in; auto.
Qed.

Lemma row_length x : configuration hs x -> length x = length hs.
Proof. intros H. apply configuration_length in H. auto. Qed.

Lemma split_l (a b : list Z) : length a = length hs -> firstn (length hs) (a ++ b) = a.
Proof. intros E. rewrite <- E, firstn_app, Nat.sub_diag, firstn_all. cbn. apply app_nil_r. Qed.
Lemma split_r (a b : list Z) : length a = length hs -> skipn (length hs) (a ++ b) = b.
Proof. intros E. rewrite <- E, skipn_app, Nat.sub_diag, skipn_all. reflexivity. Qed.

Definition full_row (xr xc : list Z) (hr hc : row) (ls : list (row * row)) : row :=
  row_part S im xc hr ++ col_part S im xr hc ++ flat_map (fun l => jump_part S (fst l) (snd l)) ls.

Lemma contract_app l m rho : contract S hs (l ++ m) rho = contract S hs l rho + contract S hs m rho.
Proof. unfold contract. rewrite map_app, (sum_app S L). reflexivity. Qed.

Lemma row_part_ok Hn xr xc hr rho : is_row S hs (Hn xr) hr -> configuration hs xc ->
  contract S hs (row_part S im xc hr) rho = - im * mul S hs Hn rho xr xc.
Proof.
  intros R Hc. unfold contract, row_part. rewrite map_map. cbn [fst snd].
  rewrite (sum_ext S _ (fun p => - im * (snd p * rho (fst p) xc))).
  2:{ intros p Hp. destruct R as [R _]. pose proof (row_length _ (R p Hp)) as E. rewrite split_l, split_r by auto. ring. }
  rewrite (sum_mul_l S L). f_equal. apply (row_contract (Hn xr) hr (fun z => rho z xc)). auto.
Qed.

Lemma col_part_ok Hn xr xc hc rho : is_row S hs (Hn xc) hc -> configuration hs xr ->
  contract S hs (col_part S im xr hc) rho = im * mul S hs rho (dag S Hn) xr xc.
Proof.
  intros R Hc. unfold contract, col_part. rewrite map_map. cbn [fst snd].
  rewrite (sum_ext S _ (fun p => im * (kconj S (snd p) * rho xr (fst p)))).
  2:{ intros p Hp. pose proof (row_length _ Hc) as E. rewrite split_l, split_r by auto. ring. }
  rewrite (sum_mul_l S L). f_equal.
  assert (RC : is_row S hs (fun z => kconj S (Hn xc z)) (map (fun p => (fst p, kconj S (snd p))) hc)).
  { destruct R as [R1 R2]. split.
    - intros p Hp. apply in_map_iff in Hp. destruct Hp as (q & <- & Hq). cbn. auto.
    - intros y Hy. rewrite <- R2 by auto. unfold weight. rewrite (conj_sum S L), !map_map. apply (sum_ext S).
      intros p _. cbn [fst snd]. destruct (zlist_eqb (fst p) y); auto. symmetry. apply (k_conj_0 S L). }
  pose proof (row_contract _ _ (fun z => rho xr z) RC) as E. rewrite map_map in E. cbn [fst snd] in E. rewrite E.
  unfold mul, product, dag. apply (sum_ext S). intros z _. cbn. ring.
Qed.

Lemma jump_part_ok l xr xc lr lc rho : is_row S hs (l xr) lr -> is_row S hs (l xc) lc ->
  contract S hs (jump_part S lr lc) rho = mul S hs (mul S hs l rho) (dag S l) xr xc.
Proof.
  intros Rr Rc. unfold contract, jump_part.
  rewrite flat_map_concat_map, concat_map, map_map, (sum_concat S L), map_map.
  rewrite (sum_ext S _ (fun r => snd r * sm (map (fun c => kconj S (snd c) * rho (fst r) (fst c)) lc))).
  2:{ intros r Hr. rewrite map_map. cbn [fst snd].
      rewrite (sum_ext S _ (fun c => snd r * (kconj S (snd c) * rho (fst r) (fst c)))).
      2:{ intros c Hc. destruct Rr as [Rr _]. pose proof (row_length _ (Rr r Hr)) as E. rewrite split_l, split_r by auto. ring. }
      apply (sum_mul_l S L). }
  pose proof (row_contract (l xr) lr (fun z => sm (map (fun c => kconj S (snd c) * rho z (fst c)) lc)) Rr) as E1.
  cbn beta in E1. rewrite E1. unfold mul at 1, product, mul, product, dag, apply_move.
  assert (EC : forall z, sm (map (fun c => kconj S (snd c) * rho z (fst c)) lc) =
     sm (map (fun w => kconj S (l xc w) * rho z w) (all_configs hs))).
  { intros z.
    assert (RC : is_row S hs (fun z => kconj S (l xc z)) (map (fun p => (fst p, kconj S (snd p))) lc)).
    { destruct Rc as [R1 R2]. split.
      - intros p Hp. apply in_map_iff in Hp. destruct Hp as (q & <- & Hq). cbn. auto.
      - intros y Hy. rewrite <- R2 by auto. unfold weight. rewrite (conj_sum S L), !map_map. apply (sum_ext S).
        intros p _. cbn [fst snd]. destruct (zlist_eqb (fst p) y); auto. symmetry. apply (k_conj_0 S L). }
    pose proof (row_contract _ _ (fun w => rho z w) RC) as E. rewrite map_map in E. exact E. }
  rewrite (sum_ext S _ (fun z => sm (map (fun w => l xr z * rho z w * kconj S (l xc w)) (all_configs hs)))).
  2:{ intros z _. rewrite EC, <- (sum_mul_l S L). apply (sum_ext S). intros w _. ring. }
  rewrite (sum_swap S L). apply (sum_ext S). intros w _. apply (sum_mul_r S L).
Qed.

Lemma full_row_ok Hn Ls xr xc hr hc ls rho :
  configuration hs xr -> configuration hs xc ->
  is_row S hs (Hn xr) hr -> is_row S hs (Hn xc) hc ->
  Forall2 (fun l p => is_row S hs (l xr) (fst p) /\ is_row S hs (l xc) (snd p)) Ls ls ->
  contract S hs (full_row xr xc hr hc ls) rho = master S im hs Hn Ls rho xr xc.
Proof.
  intros Hr Hc R1 R2 R3. unfold full_row, master. rewrite !contract_app.
  rewrite (row_part_ok Hn xr), (col_part_ok Hn xr xc) by auto.
  assert (EJ : contract S hs (flat_map (fun l => jump_part S (fst l) (snd l)) ls) rho =
     sm (map (fun l => mul S hs (mul S hs l rho) (dag S l) xr xc) Ls)).
  { induction R3 as [|l p Ls ls [A B] R3 IH]; cbn [flat_map map]; [reflexivity|].
    rewrite contract_app, IH, (jump_part_ok l xr xc) by auto. reflexivity. }
  rewrite EJ. ring.
Qed.

(** *** get_conn *)
Lemma get_conn_same xr xc hr hc ls stale : length hr = length hc ->
  liou_get_conn S im xr xc hr hc ls stale = Ok (full_row xr xc hr hc ls).
Proof. intros E. unfold liou_get_conn. rewrite E, Nat.eqb_refl. reflexivity. Qed.

(** *** the flattened kernel *)
Definition flat_of (rows : list row) : flat S := (concat rows, ends 0 (map (@length _) rows)).

Definition reads (c : cursor S) (rows : list row) : Prop :=
  skipn (snd c) (fst (fst c)) = concat rows /\ snd (fst c) = ends (snd c) (map (@length _) rows).

Lemma reads_start rows : reads (start S (flat_of rows)) rows.
Proof. split; reflexivity. Qed.

Lemma reads_take c r rows : reads c (r :: rows) -> fst (take_cur S c) = r /\ reads (snd (take_cur S c)) rows.
Proof.
  intros [H1 H2]. destruct c as [[fl secs] p]. cbn [fst snd] in *. unfold take_cur. cbn [fst snd].
  rewrite H2. cbn [map ends hd tl]. split.
  - unfold slice. rewrite H1. replace (p + length r - p)%nat with (length r) by lia.
    cbn [concat]. rewrite firstn_app, Nat.sub_diag, firstn_all. cbn. apply app_nil_r.
  - split; cbn [fst snd]; auto. rewrite <- skipn_skipn', H1. cbn [concat].
    rewrite skipn_app, Nat.sub_diag, skipn_all. reflexivity.
Qed.

Definition item : Type := (list Z * list Z * row * row * list (row * row))%type.
Definition i_s (t : item) : list Z * list Z := fst (fst (fst t)).
Definition i_r (t : item) : row := snd (fst (fst t)).
Definition i_c (t : item) : row := snd (fst t).
Definition i_l (t : item) : list (row * row) := snd t.
Definition i_row (t : item) : row := full_row (fst (i_s t)) (snd (i_s t)) (i_r t) (i_c t) (i_l t).

Fixpoint nth_jump (j : nat) (ts : list item) : list (row * row) :=
  match ts with [] => [] | t :: ts => nth j (i_l t) ([], []) :: nth_jump j ts end.

Definition jreads (nj : nat) (cls : list (cursor S * cursor S)) (ts : list item) : Prop :=
  length cls = nj /\ forall j d, (j < nj)%nat ->
    reads (fst (nth j cls d)) (map fst (nth_jump j ts)) /\ reads (snd (nth j cls d)) (map snd (nth_jump j ts)).

Lemma jreads_take nj cls t ts : jreads nj cls (t :: ts) -> length (i_l t) = nj ->
  map (fun p => (fst (fst p), fst (snd p))) (map (fun p => (take_cur S (fst p), take_cur S (snd p))) cls) = i_l t /\
  jreads nj (map (fun p => (snd (fst p), snd (snd p))) (map (fun p => (take_cur S (fst p), take_cur S (snd p))) cls)) ts.
Proof.
  intros [E H] Et. rewrite !map_map. cbn [fst snd].
  split.
  - apply (nth_ext _ _ ([], []) ([], [])); [rewrite map_length; congruence|].
    intros j Hj. rewrite map_length in Hj.
    set (f := fun x : cursor S * cursor S => (fst (take_cur S (fst x)), fst (take_cur S (snd x)))).
    assert (Hc : exists d : cursor S * cursor S, True) by (exists (([], [], O), ([], [], O)); auto).
    destruct Hc as [d _].
    rewrite (nth_indep _ ([], []) (f d)) by (rewrite map_length; auto). rewrite map_nth. unfold f.
    destruct (H j d) as [A B]; [lia|]. cbn [nth_jump map] in A, B.
    apply reads_take in A. apply reads_take in B. destruct A as [-> _], B as [-> _].
    rewrite <- surjective_pairing. reflexivity.
  - split; [rewrite map_length; auto|]. intros j d Hj.
    set (f := fun x : cursor S * cursor S => (snd (take_cur S (fst x)), snd (take_cur S (snd x)))).
    rewrite (nth_indep _ d (f d)) by (rewrite map_length; lia). rewrite map_nth. unfold f. cbn [fst snd].
    destruct (H j d Hj) as [A B]. cbn [nth_jump map] in A, B.
    apply reads_take in A. apply reads_take in B. destruct A as [_ A], B as [_ B]. auto.
Qed.

Lemma jump_concat (ls : list (row * cursor S * (row * cursor S))) :
  flat_map (fun p => jump_part S (fst (fst p)) (fst (snd p))) ls =
  flat_map (fun l => jump_part S (fst l) (snd l)) (map (fun p => (fst (fst p), fst (snd p))) ls).
Proof. induction ls as [|p ls IH]; cbn; auto. rewrite IH. reflexivity. Qed.

Lemma loop_flat ts nj : Forall (fun t => length (i_l t) = nj) ts ->
  forall i cr cc cls off mels xs secs,
  reads cr (map i_r ts) -> reads cc (map i_c ts) -> jreads nj cls ts ->
  (off + length (concat (map i_row ts)) <= length mels)%nat -> length mels = length xs ->
  exists m' x', liou_loop S im 0 i (map i_s ts) cr cc cls off mels xs secs =
    Ok ((off + length (concat (map i_row ts)))%nat, m', x', secs ++ ends off (map (fun t => length (i_row t)) ts)) /\
    firstn (off + length (concat (map i_row ts))) m' = firstn off mels ++ map snd (concat (map i_row ts)) /\
    firstn (off + length (concat (map i_row ts))) x' = firstn off xs ++ map fst (concat (map i_row ts)).
Proof.
  induction 1 as [|t ts Ht HF IH]; intros i cr cc cls off mels xs secs R1 R2 R3 HL E; cbn [liou_loop map concat length ends].
  - exists mels, xs. rewrite Nat.add_0_r, !app_nil_r. auto.
  - destruct (i_s t) as [xr xc] eqn:Es. cbn [map] in R1, R2.
    destruct (reads_take _ _ _ R1) as [A1 B1]. destruct (reads_take _ _ _ R2) as [A2 B2].
    destruct (jreads_take nj cls t ts R3 Ht) as [A3 B3].
    rewrite jump_concat, A3, A1, A2.
    change (row_part S im xc (i_r t) ++ col_part S im xr (i_c t) ++ flat_map (fun l => jump_part S (fst l) (snd l)) (i_l t))
      with (full_row xr xc (i_r t) (i_c t) (i_l t)).
    assert (Er : i_row t = full_row xr xc (i_r t) (i_c t) (i_l t)) by (unfold i_row; rewrite Es; reflexivity).
    rewrite <- Er. cbn [map concat] in HL. rewrite app_length in *.
    rewrite put_row_ok by lia. cbn [bind fst snd Nat.eqb].
    destruct (IH (i + 1)%nat (snd (take_cur S cr)) (snd (take_cur S cc))
      (map (fun p => (snd (fst p), snd (snd p))) (map (fun p => (take_cur S (fst p), take_cur S (snd p))) cls))
      (off + length (i_row t))%nat (splice mels (map snd (i_row t)) off) (splice xs (map fst (i_row t)) off)
      (secs ++ [(off + length (i_row t))%nat])) as (m' & x' & E1 & E2 & E3); auto.
    + rewrite splice_length; rewrite ?map_length; lia.
    + rewrite (splice_length mels), (splice_length xs); rewrite ?map_length; lia.
    + exists m', x'. rewrite E1, <- app_assoc. cbn [app]. rewrite !map_app.
      assert (F : forall A (m l : list A) b, length l = length (i_row t) -> firstn (off + length (i_row t)) (splice m l off) ++ b =
         firstn off m ++ l ++ b \/ (length m < off + length (i_row t))%nat).
      { intros A m l b Hl. destruct (Nat.lt_ge_cases (length m) (off + length (i_row t))); [auto|left].
        rewrite <- Hl, firstn_splice by lia. rewrite <- app_assoc. reflexivity. }
      replace (off + (length (i_row t) + length (concat (map i_row ts))))%nat
        with (off + length (i_row t) + length (concat (map i_row ts)))%nat by lia.
      split; [reflexivity|]. rewrite E2, E3. split.
      * destruct (F _ mels (map snd (i_row t)) (map snd (concat (map i_row ts)))) as [F1|F1]; [apply map_length|exact F1|lia].
      * destruct (F _ xs (map fst (i_row t)) (map fst (concat (map i_row ts)))) as [F1|F1]; [apply map_length|exact F1|lia].
Qed.

(** *** padded *)
Lemma zero_range_ok a m n : forall k, (forall i, (k <= i)%nat -> nth i (a ++ repeat 0 m) 0 = 0) ->
  zero_range S (a ++ repeat 0 m) k n = a ++ repeat 0 m.
Proof.
  induction n as [|n IH]; intros k Hk; cbn [zero_range]; auto.
  assert (E : upd (a ++ repeat 0 m) k 0 = a ++ repeat 0 m).
  { apply (nth_ext _ _ 0 0); [apply upd_length|]. intros j Hj. rewrite upd_length in Hj.
    destruct (Nat.eq_dec j k) as [->|Hn]; [rewrite nth_upd_same; auto; symmetry; apply Hk; lia|].
    apply nth_upd_other; auto. }
  rewrite E. apply IH. intros i Hi. apply Hk. lia.
Qed.

Lemma loop_padded ts nj pad zx : (0 < pad)%nat ->
  Forall (fun t => length (i_l t) = nj /\ (length (i_row t) <= pad)%nat) ts ->
  forall i cr cc cls pm px r secs,
  reads cr (map i_r ts) -> reads cc (map i_c ts) -> jreads nj cls ts ->
  length pm = (i * pad)%nat -> length px = (i * pad)%nat ->
  liou_loop S im pad i (map i_s ts) cr cc cls (i * pad) (pm ++ repeat 0 (length ts * pad + r))
    (px ++ repeat zx (length ts * pad + r)) secs =
  Ok (((i + length ts) * pad)%nat,
      pm ++ concat (map (fun t => padded 0 pad (map snd (i_row t))) ts) ++ repeat 0 r,
      px ++ concat (map (fun t => padded zx pad (map fst (i_row t))) ts) ++ repeat zx r,
      secs ++ map (fun k => ((i + k + 1) * pad)%nat) (seq 0 (length ts))).
Proof.
  intros Hp. induction 1 as [|t ts [Ht Hl] HF IH]; intros i cr cc cls pm px r secs R1 R2 R3 Lm Lx; cbn [liou_loop map concat length seq].
  - rewrite Nat.add_0_r, app_nil_r. reflexivity.
  - destruct (i_s t) as [xr xc] eqn:Es. cbn [map] in R1, R2.
    destruct (reads_take _ _ _ R1) as [A1 B1]. destruct (reads_take _ _ _ R2) as [A2 B2].
    destruct (jreads_take nj cls t ts R3 Ht) as [A3 B3].
    rewrite jump_concat, A3, A1, A2.
    change (row_part S im xc (i_r t) ++ col_part S im xr (i_c t) ++ flat_map (fun l => jump_part S (fst l) (snd l)) (i_l t))
      with (full_row xr xc (i_r t) (i_c t) (i_l t)).
    assert (Er : i_row t = full_row xr xc (i_r t) (i_c t) (i_l t)) by (unfold i_row; rewrite Es; reflexivity).
    rewrite <- Er.
    rewrite put_row_ok by (rewrite ?app_length, ?repeat_length, ?Lm, ?Lx; nia). cbn [bind fst snd].
    assert (E : forall A (z : A) p l, length p = (i * pad)%nat -> (length l <= pad)%nat ->
      splice (p ++ repeat z (Datatypes.S (length ts) * pad + r)) l (i * pad) =
      (p ++ padded z pad l) ++ repeat z (length ts * pad + r)).
    { intros A z p l Hp' Hl'. unfold splice. rewrite firstn_app, <- Hp', Nat.sub_diag, firstn_all.
      cbn [firstn]. rewrite app_nil_r, skipn_app, skipn_all2 by lia. cbn [app].
      rewrite skipn_repeat. unfold padded. rewrite <- !app_assoc, <- repeat_app. do 3 f_equal. nia. }
    rewrite !E by (rewrite ?map_length; auto). rewrite (proj2 (Nat.eqb_neq pad 0)) by lia.
    assert (EZ : forall n, zero_range S ((pm ++ padded 0 pad (map snd (i_row t))) ++ repeat 0 (length ts * pad + r))
       (i * pad + length (i_row t)) n = (pm ++ padded 0 pad (map snd (i_row t))) ++ repeat 0 (length ts * pad + r)).
    { intros n. unfold padded. rewrite <- !app_assoc, <- repeat_app, app_assoc. apply zero_range_ok.
      intros j Hj. rewrite app_nth2 by (rewrite app_length, map_length; lia).
      match goal with |- nth ?a (repeat 0 ?b) 0 = 0 => destruct (Nat.lt_ge_cases a b) as [Hlt|Hge] end.
      - apply nth_repeat.
      - apply nth_overflow. rewrite repeat_length. exact Hge. }
    rewrite EZ. replace ((i + 1) * pad)%nat with ((i + 1) * pad)%nat by lia.
    assert (PL : forall A (z : A) l, (length l <= pad)%nat -> length (padded z pad l) = pad).
    { intros A z l Hl'. unfold padded. rewrite app_length, repeat_length. lia. }
    rewrite IH; auto.
    + rewrite <- !app_assoc. cbn [app].
      replace ((i + 1 + length ts) * pad)%nat with ((i + Datatypes.S (length ts)) * pad)%nat by lia.
      rewrite <- (seq_shift (length ts) 0), map_map.
      rewrite (map_ext (fun k => (i + 1 + k + 1) * pad)%nat (fun k => (i + Datatypes.S k + 1) * pad)%nat) by (intros; f_equal; lia).
      replace ((i + 0 + 1) * pad)%nat with ((i + 1) * pad)%nat by lia. reflexivity.
    + rewrite app_length, PL by (rewrite map_length; auto). nia.
    + rewrite app_length, PL by (rewrite map_length; auto). nia.
Qed.
End P.
