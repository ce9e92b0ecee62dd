(** * What the kernel of LocalOperator.get_conn writes *)
From Coq Require Import ZArith List Bool Lia Permutation Sorting.Sorted Ring.
From Verif Require Import Base BaseFacts Hilbert_Model HilbertOps_Model Scalar LocalOp_Model LocalOp_Spec LocalOp_Facts.
Import ListNotations.

Section Kernel.
Variable S : scalars.
Hypothesis L : scalar_laws S.
Notation K := (K S).
Notation "0" := (k0 S).
Infix "+" := (kadd S).
Infix "*" := (kmul S).
Add Ring Kring : (k_ring S L).

Lemma bset_ok {A} (a b : list A) v :
  b <> [] -> bset (a ++ b) (length a) v = Ok (a ++ v :: tl b).
Proof.
  intros H. destruct b as [|y b]; [congruence|]. unfold bset. rewrite app_length. simpl length.
  destruct (Nat.ltb_spec (length a) (length a + Datatypes.S (length b))); [|lia].
  f_equal. replace (length a) with (length a + 0)%nat at 1 by lia. rewrite upd_app_r. auto.
Qed.

Lemma bget_ok {A} (l : list A) i d : (i < length l)%nat -> bget l i = Ok (nth i l d).
Proof.
  intros H. unfold bget. rewrite (nth_error_nth' l d H). auto.
Qed.

Definition put_row (x : list Z) (act : list nat) (row : list (K * list Z)) : list (list Z) :=
  map (fun p => put_sites x act (snd p)) row.

Lemma write_conns_spec x act row : forall A junk AX junkx c,
  length A = c -> length AX = c -> (length row <= length junk)%nat -> (length row <= length junkx)%nat ->
  write_conns S x act row c (A ++ junk) (AX ++ junkx) =
  Ok ((c + length row)%nat, A ++ map fst row ++ skipn (length row) junk,
      AX ++ put_row x act row ++ skipn (length row) junkx).
Proof.
  induction row as [|[m x'] row IH]; intros A junk AX junkx c HA HAX Hj Hjx.
  - simpl. rewrite Nat.add_0_r. auto.
  - destruct junk as [|j junk]; [simpl in Hj; lia|].
    destruct junkx as [|jx junkx]; [simpl in Hjx; lia|].
    cbn [write_conns]. rewrite <- HA at 1. rewrite bset_ok by congruence. cbn [bind tl].
    rewrite <- HAX at 1. rewrite bset_ok by congruence. cbn [bind tl].
    change (m :: junk) with ([m] ++ junk). rewrite app_assoc.
    change (put_sites x act x' :: junkx) with ([put_sites x act x'] ++ junkx).
    rewrite (app_assoc AX).
    rewrite IH.
    + cbn [length map put_row skipn]. rewrite <- !app_assoc. cbn [app fst snd].
      replace (c + 1 + length row)%nat with (c + Datatypes.S (length row))%nat by lia. auto.
    + rewrite app_length. simpl. lia.
    + rewrite app_length. simpl. lia.
    + simpl in Hj. lia.
    + simpl in Hjx. lia.
Qed.

(** the first element, if any, receives the addition *)
Definition addhead (d : K) (l : list K) : list K :=
  match l with [] => [] | h :: t => (h + d) :: t end.

Lemma addhead_length d l : length (addhead d l) = length l.
Proof. destruct l; auto. Qed.

(** the local rows that belong to a configuration: diagonal entry and connections *)
Definition pick (diags : list (list K)) (conns : list (list (list (K * list Z))))
  (rows : list nat) (i : nat) : K * list (K * list Z) :=
  (nth (nth i rows O) (nth i diags []) 0, nth (nth i rows O) (nth i conns []) []).

(** contents written for a list of picked rows, starting from [body] *)
Fixpoint body_out (body : list K) (ps : list (K * list (K * list Z))) : list K :=
  match ps with
  | [] => body
  | (d, row) :: ps' => body_out (addhead d body ++ map fst row) ps'
  end.
Fixpoint body_outx (x : list Z) (body : list (list Z)) (acts : list (list nat))
  (ps : list (K * list (K * list Z))) : list (list Z) :=
  match acts, ps with
  | act :: acts', (_, row) :: ps' => body_outx x (body ++ put_row x act row) acts' ps'
  | _, _ => body
  end.
Definition n_off (ps : list (K * list (K * list Z))) : nat :=
  list_sum (map (fun p => length (snd p)) ps).

(** rows within the local matrices *)
Inductive picked : list (list nat) -> list (list K) -> list (list (list (K * list Z))) ->
  list nat -> list (K * list (K * list Z)) -> Prop :=
| picked_nil : picked [] [] [] [] []
| picked_cons act acts dg dgs cn cns r rs ps :
    (r < length dg)%nat -> (r < length cn)%nat -> picked acts dgs cns rs ps ->
    picked (act :: acts) (dg :: dgs) (cn :: cns) (r :: rs)
           ((nth r dg 0, nth r cn []) :: ps).

Lemma picked_count acts dgs cns rs ps :
  picked acts dgs cns rs ps -> count_terms S cns rs = Ok (n_off ps).
Proof.
  induction 1; simpl; auto. rewrite (bget_ok cn r []) by auto. simpl. rewrite IHpicked. simpl.
  auto.
Qed.

Lemma bget_mid {A} (pre m : list A) d : m <> [] -> bget (pre ++ m) (length pre) = Ok (hd d m).
Proof.
  intros H. destruct m; [congruence|]. unfold bget. rewrite nth_error_app2 by lia.
  rewrite Nat.sub_diag. auto.
Qed.

Lemma write_terms_spec x acts dgs cns rs ps :
  picked acts dgs cns rs ps ->
  forall pre body junk prex bodyx junkx,
  length prex = length pre -> length bodyx = length body -> length junkx = length junk ->
  (n_off ps <= length junk)%nat -> (acts = [] \/ 0 < length body + length junk)%nat ->
  exists junk' junkx', length junk' = (length junk - n_off ps)%nat /\
    length junkx' = (length junk - n_off ps)%nat /\
    write_terms S x (length pre) acts dgs cns rs (length pre + length body)
      (pre ++ body ++ junk) (prex ++ bodyx ++ junkx) =
    Ok ((length pre + length body + n_off ps)%nat, pre ++ body_out body ps ++ junk',
        prex ++ body_outx x bodyx acts ps ++ junkx').
Proof.
  induction 1 as [|act acts dg dgs cn cns r rs ps Hd Hc HP IH];
    intros pre body junk prex bodyx junkx E1 E2 E3 Hn Hpos.
  - exists junk, junkx. unfold n_off; simpl. rewrite Nat.sub_0_r, Nat.add_0_r. auto.
  - cbn [write_terms]. rewrite (bget_ok dg r 0) by auto. cbn [bind].
    assert (Hne : body ++ junk <> []).
    { destruct Hpos as [Hp|Hp]; [discriminate|]. destruct body; [|discriminate].
      destruct junk; [|discriminate]. simpl in Hp; lia. }
    rewrite (bget_mid pre _ 0) by auto. cbn [bind].
    rewrite bset_ok by auto. cbn [bind].
    rewrite (bget_ok cn r []) by auto. cbn [bind].
    set (d := nth r dg 0). set (row := nth r cn []).
    assert (EB : pre ++ (hd 0 (body ++ junk) + d) :: tl (body ++ junk)
                 = (pre ++ addhead d body) ++ (match body with [] => addhead d junk | _ => junk end)).
    { rewrite <- app_assoc. f_equal. destruct body as [|b body].
      - destruct junk as [|j junk]; [exfalso; apply Hne; auto|]. auto.
      - auto. }
    rewrite EB. set (junk1 := match body with [] => addhead d junk | _ => junk end).
    assert (Hj1 : length junk1 = length junk) by (unfold junk1; destruct body; rewrite ?addhead_length; auto).
    unfold n_off in Hn. cbn [map snd list_sum fold_right] in Hn. fold row in Hn.
    change (fold_right Nat.add 0%nat (map (fun p => length (snd p)) ps)) with (n_off ps) in Hn.
    rewrite (app_assoc prex).
    rewrite write_conns_spec; try (rewrite ?app_length, ?addhead_length; lia).
    cbn [bind fst snd].
    destruct (IH pre (addhead d body ++ map fst row) (skipn (length row) junk1)
                 prex (bodyx ++ put_row x act row) (skipn (length row) junkx))
      as (j' & jx' & L1 & L2 & W); auto.
    + unfold put_row. rewrite !app_length, !map_length, addhead_length. lia.
    + rewrite !skipn_length. lia.
    + rewrite skipn_length. lia.
    + destruct acts; [auto|]. right. rewrite !app_length, !map_length, addhead_length, skipn_length.
      destruct Hpos as [Hp|Hp]; [discriminate|]. lia.
    + exists j', jx'. unfold n_off. cbn [map snd list_sum fold_right]. fold row.
      change (fold_right Nat.add 0%nat (map (fun p => length (snd p)) ps)) with (n_off ps).
      rewrite skipn_length, Hj1 in L1, L2.
      split; [lia|]. split; [lia|].
      rewrite !app_length, !map_length, addhead_length in W.
      rewrite <- !app_assoc in W. rewrite <- !app_assoc.
      replace (length pre + length body + length row)%nat with
        (length pre + (length body + length row))%nat by lia.
      rewrite W. cbn [body_out body_outx]. fold d row. do 3 f_equal. lia.
Qed.

Lemma body_out_length ps body : length (body_out body ps) = (length body + n_off ps)%nat.
Proof.
  revert body; induction ps as [|[d row] ps IH]; intros; simpl.
  - unfold n_off; simpl; lia.
  - rewrite IH, app_length, addhead_length, map_length. unfold n_off; simpl. lia.
Qed.

Lemma picked_len acts dgs cns rs ps :
  picked acts dgs cns rs ps ->
  length dgs = length acts /\ length cns = length acts /\ length rs = length acts /\
  length ps = length acts.
Proof. induction 1; simpl; intuition. Qed.

Lemma body_outx_length x ps : forall acts body, length ps = length acts ->
  length (body_outx x body acts ps) = (length body + n_off ps)%nat.
Proof.
  induction ps as [|[d row] ps IH]; intros acts body H; destruct acts; try discriminate; simpl.
  - unfold n_off; simpl; lia.
  - rewrite IH by (simpl in H; lia). unfold put_row. rewrite app_length, map_length.
    unfold n_off; simpl. lia.
Qed.

(** ** the batch *)
Definition row_ok (hs : list (list Z)) (o : lop S) (x : list Z)
  (ps : list (K * list (K * list Z))) : Prop :=
  picked (lo_act S o) (lo_diag S o) (lo_conn S o) (rows_of S hs o x) ps.

Definition row_mels (o : lop S) (ps : list (K * list (K * list Z))) : list K :=
  body_out (if lo_nzd S o then [lo_const S o] else []) ps.
Definition row_xs (o : lop S) (x : list Z) (ps : list (K * list (K * list Z))) : list (list Z) :=
  body_outx x (if lo_nzd S o then [x] else []) (lo_act S o) ps.
Definition row_n (o : lop S) (ps : list (K * list (K * list Z))) : nat :=
  ((if lo_nzd S o then 1 else 0) + n_off ps)%nat.

Lemma row_mels_length o ps : length (row_mels o ps) = row_n o ps.
Proof. unfold row_mels, row_n. rewrite body_out_length. destruct (lo_nzd S o); auto. Qed.

Lemma row_xs_length hs o x ps : row_ok hs o x ps -> length (row_xs o x ps) = row_n o ps.
Proof.
  intros H. apply picked_len in H. unfold row_xs, row_n. rewrite body_outx_length by tauto.
  destruct (lo_nzd S o); auto.
Qed.

Lemma count_conn_ok hs o x ps : row_ok hs o x ps -> count_conn S hs o x = Ok (row_n o ps).
Proof. intros H. unfold count_conn. rewrite (picked_count _ _ _ _ _ H). auto. Qed.

(** one row of the batch *)
Lemma write_row hs o x ps : row_ok hs o x ps ->
  forall pre junk prex junkx,
  length prex = length pre -> length junkx = length junk ->
  (row_n o ps <= length junk)%nat -> (lo_act S o = [] \/ 0 < length junk)%nat ->
  exists junk' junkx', length junk' = (length junk - row_n o ps)%nat /\
    length junkx' = (length junk - row_n o ps)%nat /\
    (let? st0 :=
        if lo_nzd S o then
          let? mels := bset (pre ++ junk) (length pre) (lo_const S o) in
          let? xp := bset (prex ++ junkx) (length pre) x in
          Ok (length pre + 1, mels, xp)%nat
        else Ok (length pre, pre ++ junk, prex ++ junkx) in
     write_terms S x (length pre) (lo_act S o) (lo_diag S o) (lo_conn S o)
       (rows_of S hs o x) (fst (fst st0)) (snd (fst st0)) (snd st0)) =
    Ok ((length pre + row_n o ps)%nat, pre ++ row_mels o ps ++ junk',
        prex ++ row_xs o x ps ++ junkx').
Proof.
  intros H pre junk prex junkx E1 E2 Hn Hpos. unfold row_n, row_mels, row_xs in *.
  destruct (lo_nzd S o).
  - destruct junk as [|j junk]; [simpl in Hn; lia|].
    destruct junkx as [|jx junkx]; [simpl in E2; lia|].
    rewrite bset_ok by congruence. cbn [bind tl].
    assert (EX : bset (prex ++ jx :: junkx) (length pre) x = Ok (prex ++ x :: junkx))
      by (rewrite <- E1; rewrite bset_ok by congruence; auto).
    rewrite EX. cbn [bind tl fst snd].
    destruct (write_terms_spec x _ _ _ _ _ H pre [lo_const S o] junk prex [x] junkx)
      as (j' & jx' & L1 & L2 & W); simpl in *; auto; try lia.
    exists j', jx'. split; [lia|]. split; [lia|]. rewrite W. do 3 f_equal. lia.
  - cbn [bind fst snd].
    destruct (write_terms_spec x _ _ _ _ _ H pre [] junk prex [] junkx)
      as (j' & jx' & L1 & L2 & W); simpl in *; auto; try lia.
    exists j', jx'. split; [lia|]. split; [lia|].
    rewrite !Nat.add_0_r in W. rewrite W. auto.
Qed.

(** the rows of a batch *)
Definition batch_ok (hs : list (list Z)) (o : lop S) (xs : list (list Z))
  (pss : list (list (K * list (K * list Z)))) : Prop := Forall2 (row_ok hs o) xs pss.

(** no write outside the buffers happens if the last row has an entry *)
Definition last_row_nonempty (o : lop S) (pss : list (list (K * list (K * list Z)))) : Prop :=
  lo_act S o = [] \/ pss = [] \/ (0 < row_n o (last pss []))%nat.

Lemma write_batch_flat hs o xs pss : batch_ok hs o xs pss -> last_row_nonempty o pss ->
  forall pre junk prex junkx sections,
  length prex = length pre -> length junkx = length junk ->
  length junk = list_sum (map (row_n o) pss) ->
  write_batch S hs o None xs (length pre) (pre ++ junk) (prex ++ junkx) sections =
  Ok (pre ++ concat (map (row_mels o) pss),
      prex ++ concat (map (fun p => row_xs o (fst p) (snd p)) (combine xs pss)), sections).
Proof.
  intros H. induction H as [|x ps xs pss Hx HF IH]; intros HL pre junk prex junkx sections E1 E2 Hj.
  - simpl in *. destruct junk; [|discriminate]. destruct junkx; [|discriminate]. auto.
  - cbn [write_batch]. cbv zeta.
    assert (HLn : lo_act S o = [] \/ (0 < length junk)%nat).
    { destruct HL as [HL|[HL|HL]]; [auto|discriminate|]. right. rewrite Hj.
      clear -HL. revert ps HL. induction pss as [|b pss IHl]; intros ps HL.
      - simpl in *. lia.
      - change (last (ps :: b :: pss) []) with (last (b :: pss) []) in HL.
        apply IHl in HL. simpl in *. lia. }
    simpl in Hj.
    destruct (write_row hs o x ps Hx pre junk prex junkx) as (j' & jx' & L1 & L2 & W); auto; [lia|].
    match type of W with (let? st0 := ?A in ?B) = _ => destruct A as [st0|e] eqn:EA end;
      [|discriminate].
    cbn [bind] in W. cbn [bind]. rewrite W. cbn [bind fst snd].
    rewrite (app_assoc pre), (app_assoc prex).
    replace (length pre + row_n o ps)%nat with (length (pre ++ row_mels o ps))
      by (rewrite app_length, row_mels_length; auto).
    rewrite IH; auto.
    + cbn [map concat combine fst snd]. rewrite <- !app_assoc. auto.
    + destruct HL as [HL|[HL|HL]]; [left; auto|discriminate|].
      destruct pss; [right; left; auto|]. right; right. auto.
    + rewrite !app_length, row_mels_length. rewrite (row_xs_length hs o x ps Hx). lia.
    + lia.
    + lia.
Qed.

Lemma batch_counts hs o xs pss : batch_ok hs o xs pss ->
  sequence (map (count_conn S hs o) xs) = Ok (map (row_n o) pss).
Proof.
  induction 1; simpl; auto. rewrite (count_conn_ok _ _ _ _ H). simpl. rewrite IHForall2. auto.
Qed.

Lemma flattened_ok hs o xs pss junk junkx :
  batch_ok hs o xs pss -> last_row_nonempty o pss ->
  get_conn_flattened S hs o false junk junkx xs =
  Ok (concat (map (row_mels o) pss),
      concat (map (fun p => row_xs o (fst p) (snd p)) (combine xs pss)),
      cumsum 0 (map (row_n o) pss)).
Proof.
  intros H HL. unfold get_conn_flattened. rewrite (batch_counts _ _ _ _ H). cbn [bind].
  pose proof (write_batch_flat hs o xs pss H HL []
    (map junk (seq 0 (list_sum (map (row_n o) pss)))) []
    (map junkx (seq 0 (list_sum (map (row_n o) pss)))) (cumsum 0 (map (row_n o) pss))) as W.
  cbn [app length] in W. apply W; auto; rewrite !map_length, !seq_length; auto.
Qed.

(** ** padded *)
Lemma fill_rows_spec l m x : forall A junk AX junkx c,
  length A = c -> length AX = c -> (l <= length junk)%nat -> (l <= length junkx)%nat ->
  fill_rows S l m x c (A ++ junk) (AX ++ junkx) =
  (A ++ repeat m l ++ skipn l junk, AX ++ repeat x l ++ skipn l junkx).
Proof.
  induction l; intros A junk AX junkx c HA HAX Hj Hjx; [reflexivity|].
  destruct junk as [|j junk]; [simpl in Hj; lia|].
  destruct junkx as [|jx junkx]; [simpl in Hjx; lia|].
  cbn [fill_rows]. replace (upd (A ++ j :: junk) c m) with ((A ++ [m]) ++ junk).
  2:{ rewrite <- HA. replace (length A) with (length A + 0)%nat by lia. rewrite upd_app_r.
      rewrite <- app_assoc. auto. }
  replace (upd (AX ++ jx :: junkx) c x) with ((AX ++ [x]) ++ junkx).
  2:{ rewrite <- HAX. replace (length AX) with (length AX + 0)%nat by lia. rewrite upd_app_r.
      rewrite <- app_assoc. auto. }
  rewrite IHl; try (rewrite app_length; simpl; lia); try (simpl in *; lia).
  cbn [repeat skipn]. rewrite <- !app_assoc. auto.
Qed.

Definition pad_mels (o : lop S) (mx : nat) (ps : list (K * list (K * list Z))) : list K :=
  row_mels o ps ++ repeat 0 (mx - row_n o ps).
Definition pad_xs (o : lop S) (mx : nat) (x : list Z) (ps : list (K * list (K * list Z)))
  : list (list Z) := row_xs o x ps ++ repeat x (mx - row_n o ps).

Lemma pad_mels_length o mx ps : (row_n o ps <= mx)%nat -> length (pad_mels o mx ps) = mx.
Proof. intros. unfold pad_mels. rewrite app_length, row_mels_length, repeat_length. lia. Qed.
Lemma pad_xs_length hs o mx x ps : row_ok hs o x ps -> (row_n o ps <= mx)%nat ->
  length (pad_xs o mx x ps) = mx.
Proof.
  intros. unfold pad_xs. rewrite app_length, (row_xs_length hs), repeat_length by auto. lia.
Qed.

Lemma write_batch_pad hs o xs pss mx : batch_ok hs o xs pss ->
  (lo_act S o = [] \/ 0 < mx)%nat ->
  Forall (fun ps => row_n o ps <= mx)%nat pss ->
  forall pre junk prex junkx sections,
  length prex = length pre -> length junkx = length junk ->
  length junk = (length xs * mx)%nat ->
  write_batch S hs o (Some mx) xs (length pre) (pre ++ junk) (prex ++ junkx) sections =
  Ok (pre ++ concat (map (pad_mels o mx) pss),
      prex ++ concat (map (fun p => pad_xs o mx (fst p) (snd p)) (combine xs pss)),
      sections ++ cumsum (length pre) (map (fun _ => mx) pss)).
Proof.
  intros H Hmx HB.
  induction H as [|x ps xs pss Hx HF IH]; intros pre junk prex junkx sections E1 E2 Hj.
  - simpl in *. destruct junk; [|discriminate]. destruct junkx; [|discriminate].
    rewrite (app_nil_r sections). auto.
  - cbn [write_batch]. cbv zeta. inversion HB; subst. simpl in Hj.
    destruct (write_row hs o x ps Hx pre junk prex junkx) as (j' & jx' & L1 & L2 & W); auto; [lia| |].
    { destruct Hmx; [auto|right; lia]. }
    match type of W with (let? st0 := ?A in ?B) = _ => destruct A as [st0|e] eqn:EA end;
      [|discriminate].
    cbn [bind] in W. cbn [bind]. rewrite W. cbn [bind fst snd].
    replace (length pre + row_n o ps - length pre)%nat with (row_n o ps) by lia.
    rewrite (app_assoc pre), (app_assoc prex).
    assert (Hf : (mx - row_n o ps <= length j')%nat) by lia.
    rewrite fill_rows_spec; try lia;
      try (rewrite app_length, ?row_mels_length, ?(row_xs_length hs o x ps Hx); lia).
    cbn [fst snd].
    replace (length pre + row_n o ps + (mx - row_n o ps))%nat with
      (length (pre ++ pad_mels o mx ps)) by (rewrite app_length, pad_mels_length; lia).
    replace ((pre ++ row_mels o ps) ++ repeat 0 (mx - row_n o ps) ++ skipn (mx - row_n o ps) j')
      with ((pre ++ pad_mels o mx ps) ++ skipn (mx - row_n o ps) j')
      by (unfold pad_mels; rewrite <- !app_assoc; auto).
    replace ((prex ++ row_xs o x ps) ++ repeat x (mx - row_n o ps) ++ skipn (mx - row_n o ps) jx')
      with ((prex ++ pad_xs o mx x ps) ++ skipn (mx - row_n o ps) jx')
      by (unfold pad_xs; rewrite <- !app_assoc; auto).
    rewrite IH; auto.
    + cbn [map concat combine fst snd cumsum]. rewrite <- !app_assoc.
      rewrite !app_length, pad_mels_length by auto. cbn [app]. auto.
    + rewrite !app_length, pad_mels_length, (pad_xs_length hs) by auto. lia.
    + rewrite !skipn_length. lia.
    + rewrite skipn_length. lia.
Qed.

Lemma list_max_ge l x : In x l -> (x <= list_max l)%nat.
Proof.
  intros H. pose proof (list_max_le l (list_max l)) as E.
  destruct E as [E _]. specialize (E (le_n _)). rewrite Forall_forall in E. auto.
Qed.

Lemma padded_flat_ok hs o xs pss junk junkx :
  batch_ok hs o xs pss ->
  let mx := list_max (map (row_n o) pss) in
  (lo_act S o = [] \/ xs = [] \/ 0 < mx)%nat ->
  get_conn_flattened S hs o true junk junkx xs =
  Ok (concat (map (pad_mels o mx) pss),
      concat (map (fun p => pad_xs o mx (fst p) (snd p)) (combine xs pss)),
      cumsum 0 (map (fun _ => mx) pss)).
Proof.
  intros H mx Hmx. unfold get_conn_flattened. rewrite (batch_counts _ _ _ _ H). cbn [bind].
  fold mx.
  destruct xs as [|x xs].
  { inversion H; subst. simpl. auto. }
  pose proof (write_batch_pad hs o (x :: xs) pss mx H) as W.
  specialize (W ltac:(destruct Hmx as [?|[?|?]]; [auto|discriminate|auto])).
  assert (HB : Forall (fun ps => row_n o ps <= mx)%nat pss).
  { apply Forall_forall. intros ps Hps. apply list_max_ge. apply in_map. auto. }
  specialize (W HB [] (map junk (seq 0 (length (x :: xs) * mx))) []
                (map junkx (seq 0 (length (x :: xs) * mx))) []).
  cbn [app length] in W. apply W; auto; rewrite !map_length, !seq_length; auto.
Qed.

Lemma chunks_concat {A} n (ll : list (list A)) : (0 < n)%nat ->
  Forall (fun l => length l = n) ll -> forall fuel, (length ll <= fuel)%nat ->
  chunks fuel n (concat ll) = ll.
Proof.
  intros Hn. induction 1; intros fuel Hf; simpl.
  - destruct fuel; auto.
  - destruct fuel; [simpl in Hf; lia|]. simpl.
    destruct (x ++ concat l) eqn:E.
    + apply app_eq_nil in E. destruct E; subst. simpl in *. lia.
    + rewrite <- E. rewrite firstn_app, skipn_app. rewrite H. rewrite Nat.sub_diag.
      rewrite (firstn_all2 x) by lia. rewrite (skipn_all2 x) by lia.
      simpl. rewrite app_nil_r. f_equal. apply IHForall. simpl in Hf. lia.
Qed.

Lemma padded_ok hs o xs pss junk junkx :
  batch_ok hs o xs pss -> xs <> [] ->
  let mx := list_max (map (row_n o) pss) in (0 < mx)%nat ->
  get_conn_padded S hs o junk junkx xs =
  Ok (map (fun p => pad_xs o mx (fst p) (snd p)) (combine xs pss), map (pad_mels o mx) pss).
Proof.
  intros H Hne mx Hmx. unfold get_conn_padded.
  rewrite (padded_flat_ok hs o xs pss junk junkx H) by auto. fold mx. cbn [bind fst snd].
  assert (HB : Forall (fun ps => row_n o ps <= mx)%nat pss).
  { apply Forall_forall. intros ps Hps. apply list_max_ge. apply in_map. auto. }
  destruct pss as [|ps pss]; [inversion H; subst; congruence|].
  cbn [map cumsum Nat.add]. destruct mx as [|mx'] eqn:Emx; [lia|].
  assert (HF : Forall (fun l => length l = Datatypes.S mx') (map (pad_mels o (Datatypes.S mx')) (ps :: pss))).
  { apply Forall_map. eapply Forall_impl; [|exact HB]. intros. apply pad_mels_length; auto. }
  assert (HX : Forall (fun l => length l = Datatypes.S mx')
            (map (fun p => pad_xs o (Datatypes.S mx') (fst p) (snd p)) (combine xs (ps :: pss)))).
  { apply Forall_map. clear -H HB. revert HB. induction H; simpl; intros HB; constructor; inversion HB; subst; auto.
    simpl. apply (pad_xs_length hs); auto. }
  assert (HK : length (concat (map (pad_mels o (Datatypes.S mx')) (ps :: pss)))
               = (length (ps :: pss) * Datatypes.S mx')%nat).
  { clear -HF. revert HF. generalize (ps :: pss). induction l; simpl; intros HF; auto.
    inversion HF; subst. rewrite app_length, IHl by auto. lia. }
  fold (map (pad_mels o (Datatypes.S mx')) (ps :: pss)) in *.
  change (pad_mels o (Datatypes.S mx') ps :: map (pad_mels o (Datatypes.S mx')) pss)
    with (map (pad_mels o (Datatypes.S mx')) (ps :: pss)).
  rewrite HK. f_equal. f_equal.
  - apply chunks_concat; auto; try lia. rewrite map_length, combine_length. nia.
  - apply chunks_concat; auto; try lia. rewrite map_length. nia.
Qed.

Lemma get_conn_ok hs o x ps junk junkx :
  row_ok hs o x ps -> (lo_act S o = [] \/ 0 < row_n o ps)%nat ->
  get_conn S hs o junk junkx x = Ok (combine (row_xs o x ps) (row_mels o ps)).
Proof.
  intros H Hp. unfold get_conn.
  rewrite (flattened_ok hs o [x] [ps] junk junkx).
  - cbn [bind fst snd map concat combine]. rewrite !app_nil_r. auto.
  - constructor; auto.
  - destruct Hp; [left; auto|right; right; auto].
Qed.

Lemma n_conn_cumsum l a : n_conn_from_sections a (cumsum a l) = l.
Proof.
  revert a. induction l; intros; simpl; auto. f_equal; [lia|]. apply IHl.
Qed.

Lemma n_conn_ok hs o xs pss junk junkx :
  batch_ok hs o xs pss -> last_row_nonempty o pss ->
  n_conn S hs o junk junkx xs = Ok (map (row_n o) pss).
Proof.
  intros H HL. unfold n_conn. rewrite (flattened_ok hs o xs pss) by auto. cbn [bind snd].
  rewrite n_conn_cumsum. auto.
Qed.

(** ** the weight of a row *)
Definition off_pairs (x : list Z) (acts : list (list nat)) (ps : list (K * list (K * list Z)))
  : list (list Z * K) :=
  concat (map (fun q => map (fun p => (put_sites x (fst q) (snd p), fst p)) (snd (snd q)))
              (combine acts ps)).

Lemma combine_app' {A B} (a1 a2 : list A) (b1 b2 : list B) :
  length a1 = length b1 -> combine (a1 ++ a2) (b1 ++ b2) = combine a1 b1 ++ combine a2 b2.
Proof.
  revert b1. induction a1; destruct b1; simpl; intros; try discriminate; auto.
  f_equal. auto.
Qed.

Lemma combine_map_pair {A B C} (f : A -> B) (g : A -> C) l :
  combine (map f l) (map g l) = map (fun a => (f a, g a)) l.
Proof. induction l; simpl; f_equal; auto. Qed.

Lemma body_out_head ps : forall d off,
  body_out (d :: off) ps =
  (d + sum S (map fst ps)) :: off ++ concat (map (fun p => map fst (snd p)) ps).
Proof.
  induction ps as [|[e row] ps IH]; intros d off.
  - simpl. unfold sum; simpl. rewrite app_nil_r. f_equal. ring.
  - cbn [body_out addhead app]. rewrite IH. cbn [map fst snd concat].
    rewrite <- app_assoc. f_equal. unfold sum; simpl. ring.
Qed.

Lemma addhead_zero l : addhead 0 l = l.
Proof. destruct l; simpl; auto. f_equal. ring. Qed.

Lemma body_out_zero ps : forall off, Forall (fun p => fst p = 0) ps ->
  body_out off ps = off ++ concat (map (fun p => map fst (snd p)) ps).
Proof.
  induction ps as [|[e row] ps IH]; intros off HF.
  - simpl. rewrite app_nil_r. auto.
  - inversion HF; subst. simpl in H1; subst. cbn [body_out]. rewrite addhead_zero, IH by auto.
    cbn [map snd concat]. rewrite app_assoc. auto.
Qed.

Lemma body_outx_eq x ps : forall acts body, length ps = length acts ->
  body_outx x body acts ps =
  body ++ concat (map (fun q => put_row x (fst q) (snd (snd q))) (combine acts ps)).
Proof.
  induction ps as [|[e row] ps IH]; intros acts body H; destruct acts; try discriminate.
  - simpl. rewrite app_nil_r. auto.
  - cbn [body_outx combine map concat fst snd]. rewrite IH by (simpl in H; lia).
    rewrite <- app_assoc. auto.
Qed.

Lemma off_pairs_combine x acts ps : length ps = length acts ->
  combine (concat (map (fun q => put_row x (fst q) (snd (snd q))) (combine acts ps)))
          (concat (map (fun p => map fst (snd p)) ps)) = off_pairs x acts ps.
Proof.
  unfold off_pairs. revert acts. induction ps as [|[e row] ps IH]; intros acts H;
    destruct acts; try discriminate; auto.
  cbn [combine map concat fst snd]. unfold put_row at 1.
  rewrite combine_app' by (rewrite !map_length; auto). rewrite combine_map_pair.
  f_equal. apply IH. simpl in H. lia.
Qed.

(** a configuration's list: one diagonal pair, then the connected ones *)
Lemma row_pairs hs o x ps :
  row_ok hs o x ps ->
  (lo_nzd S o = true \/ (lo_const S o = 0 /\ Forall (fun p => fst p = 0) ps)) ->
  combine (row_xs o x ps) (row_mels o ps) =
  (if lo_nzd S o then [(x, lo_const S o + sum S (map fst ps))] else []) ++
  off_pairs x (lo_act S o) ps.
Proof.
  intros H Hz. destruct (picked_len _ _ _ _ _ H) as (_ & _ & _ & HL).
  unfold row_xs, row_mels. rewrite body_outx_eq by auto.
  destruct (lo_nzd S o) eqn:E.
  - rewrite body_out_head. cbn [app]. cbn [combine]. f_equal. apply off_pairs_combine; auto.
  - destruct Hz as [Hz|[_ Hz]]; [discriminate|]. rewrite body_out_zero by auto.
    cbn [app]. apply off_pairs_combine; auto.
Qed.

Lemma weight_app a b y : weight S (a ++ b) y = weight S a y + weight S b y.
Proof. unfold weight. rewrite map_app. apply sum_app; auto. Qed.

Lemma weight_concat ll y : weight S (concat ll) y = sum S (map (fun l => weight S l y) ll).
Proof.
  induction ll; simpl; auto. rewrite weight_app, IHll. auto.
Qed.

End Kernel.
