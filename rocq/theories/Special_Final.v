(** * Statements of C21 and C22 *)
From Coq Require Import ZArith List Bool Lia.
From Verif Require Import Base BaseFacts Scalar LocalOp_Spec LocalOp_Model LocalOp_Facts
  Special_Model Special_Spec Special_Proofs Special_Bose.
Import ListNotations.
Open Scope Z_scope.

Lemma Forall2_map_self {A B} (R : A -> B -> Prop) (f : A -> B) l :
  (forall a, In a l -> R a (f a)) -> Forall2 R l (map f l).
Proof.
  induction l as [|a l IH]; intros H; cbn [map]; [apply Forall2_nil|].
  apply Forall2_cons; [apply H; left; auto|]. apply IH. intros; apply H; right; auto.
Qed.

Lemma ising_batch S (L : scalar_laws S) (o : ising S) junk junkx xs :
  edges_ok (is_n S o) (is_edges S o) -> is_edges S o <> [] ->
  Forall (configuration (spins (is_n S o))) xs ->
  exists rows,
    ising_flattened S o junk junkx xs =
      Ok (map snd (concat rows), map fst (concat rows), ends 0 (map (@length _) rows)) /\
    Forall2 (fun x row =>
      is_row S (spins (is_n S o))
        (element S (spins (is_n S o)) (k0 S)
           (ising_terms S (is_n S o) (is_edges S o) (is_h S o) (is_J S o)) x) row /\
      length row = ising_max_conn_size S o /\
      exists dg, row = (x, dg) :: map (fun j => (upd x j (- nth j x 0), kopp S (is_h S o)))
                                      (seq 0 (is_n S o))) xs rows.
Proof.
  intros He Hne HF. exists (map (ising_row S o) xs). split.
  - rewrite (ising_flattened_ok S o); auto. rewrite map_map. reflexivity.
  - apply Forall2_map_self. intros x Hin. rewrite Forall_forall in HF. specialize (HF x Hin).
    pose proof (configuration_length _ _ HF) as Lx. rewrite spins_length in Lx.
    split; [apply ising_row_ok; auto|]. split; [apply ising_row_length; auto|].
    unfold ising_row. rewrite Lx. eexists. reflexivity.
Qed.

Lemma bh_one S (L : scalar_laws S) rt (o : bose S) mels xp x :
  edges_ok (bh_n S o) (bh_edges S o) ->
  length mels = length xp -> (bh_max_conn S o <= length mels)%nat ->
  configuration (occupations (bh_n S o) (bh_nmax S o)) x ->
  exists row, bh_get_conn S rt o mels xp x = Ok row /\
    is_row S (occupations (bh_n S o) (bh_nmax S o))
      (bh_element S rt (bh_n S o) (bh_edges S o) (bh_Uh S o) (bh_V S o) (bh_J S o) (bh_mu S o) x) row /\
    (length row <= bh_max_conn S o)%nat /\
    forall p, In p row ->
      Forall (fun v => 0 <= v <= bh_nmax S o) (fst p) /\ zsum (fst p) = zsum x.
Proof.
  intros He E HL Hx. exists (bh_row S rt o x). split; [apply bh_get_conn_ok; auto|].
  pose proof (bh_row_ok S L rt o He x Hx) as HR. split; auto. split; [apply bh_row_length; auto|].
  intros p Hp. split.
  - destruct HR as [HR _]. specialize (HR p Hp). apply occ_iff in HR. destruct HR as [HR1 HR2].
    apply Forall_forall. intros v Hv. destruct (In_nth _ _ 0 Hv) as (i & Hi & <-). apply HR2. lia.
  - apply bh_row_sum with (rt := rt) (o := o); auto. apply occ_iff in Hx. tauto.
Qed.

Lemma bh_flat S rt (o : bose S) mels xp junk junkx xs :
  bh_edges S o <> [] -> length mels = length xp -> (bh_max_conn S o <= length mels)%nat ->
  exists rows mels' xp',
    bh_flattened S rt o false mels xp junk junkx xs =
      Ok ((map snd (concat rows), map fst (concat rows), ends 0 (map (@length _) rows)), (mels', xp')) /\
    length mels' = length xp' /\ (bh_max_conn S o <= length mels')%nat /\
    Forall2 (fun x row => forall m x', length m = length x' -> (bh_max_conn S o <= length m)%nat ->
               bh_get_conn S rt o m x' x = Ok row) xs rows.
Proof.
  intros Hne E HL. destruct (bh_flattened_ok S rt o mels xp junk junkx xs Hne E) as (m' & x' & E1 & E2 & E3).
  exists (map (bh_row S rt o) xs), m', x'. rewrite E1, map_map. split; [reflexivity|].
  split; [auto|]. split; [lia|]. apply Forall2_map_self. intros x _ m x1 H1 H2. apply bh_get_conn_ok; auto.
Qed.

Lemma map_repeat' {A B} (f : A -> B) a k : map f (repeat a k) = repeat (f a) k.
Proof. induction k; cbn; congruence. Qed.

Lemma concat_map_map {A B} (f : A -> B) (g : list Z -> list A) xs :
  map f (concat (map g xs)) = concat (map (fun x => map f (g x)) xs).
Proof. rewrite concat_map, map_map. reflexivity. Qed.

Lemma ends_const mc xs : forall c b, c = (b * mc)%nat ->
  ends c (map (fun _ : list Z => mc) xs) = map (fun k => ((b + k + 1) * mc)%nat) (seq 0 (length xs)).
Proof.
  induction xs as [|x xs IH]; intros c b E; cbn [map ends length seq]; auto.
  rewrite (IH _ (Datatypes.S b)) by lia. rewrite <- (seq_shift (length xs) 0), map_map.
  f_equal; [subst; lia|]. apply map_ext. intros k. f_equal. lia.
Qed.

Lemma bh_pad S rt (o : bose S) mels xp junk junkx xs :
  bh_edges S o <> [] -> length mels = length xp -> (bh_max_conn S o <= length mels)%nat ->
  exists rows mels' xp',
    let zero := (repeat 0 (bh_n S o), k0 S) in
    let full := map (fun row => row ++ repeat zero (bh_max_conn S o - length row)) rows in
    bh_flattened S rt o true mels xp junk junkx xs =
      Ok ((map snd (concat full), map fst (concat full),
           ends 0 (map (fun _ => bh_max_conn S o) xs)), (mels', xp')) /\
    length mels' = length xp' /\ (bh_max_conn S o <= length mels')%nat /\
    Forall2 (fun x row => forall m x', length m = length x' -> (bh_max_conn S o <= length m)%nat ->
               bh_get_conn S rt o m x' x = Ok row) xs rows.
Proof.
  intros Hne E HL. destruct (bh_padded_ok S rt o mels xp junk junkx xs Hne E) as (m' & x' & E1 & E2 & E3).
  exists (map (bh_row S rt o) xs), m', x'. cbv zeta. rewrite E1, map_map.
  split; [|split; [auto|split; [lia|]; apply Forall2_map_self; intros x _ m x1 H1 H2; apply bh_get_conn_ok; auto]].
  assert (EM : forall B (f : list Z * K S -> B) (z : B), f (repeat 0 (bh_n S o), k0 S) = z ->
    map f (concat (map (fun x => bh_row S rt o x ++ repeat (repeat 0 (bh_n S o), k0 S) (bh_max_conn S o - length (bh_row S rt o x))) xs)) =
    concat (map (fun x => padded z (bh_max_conn S o) (map f (bh_row S rt o x))) xs)).
  { intros B f z <-. rewrite concat_map_map. f_equal. apply map_ext. intros x. unfold padded.
    rewrite map_app, map_repeat', map_length. reflexivity. }
  rewrite (EM _ snd (k0 S)), (EM _ fst (repeat 0 (bh_n S o))) by reflexivity.
  rewrite (ends_const (bh_max_conn S o) xs 0%nat 0%nat) by reflexivity. reflexivity.
Qed.

Lemma bh_sym S (L : scalar_laws S) rt n edges Uh V J mu x y : length x = length y ->
  bh_element S rt n edges Uh V J mu x y = bh_element S rt n edges Uh V J mu y x.
Proof.
  intros E. exact (bh_symmetric S L rt (mkBose S n 0 edges Uh Uh V J mu) Uh x y E).
Qed.
