From Coq Require Import List Arith ZArith QArith Qround Bool Reals Lra Lia Ring Permutation.
From Verif Require Import Base Rings ARNN_Model ARNN_Proofs ToArray_Model Estim_Model Estim_Spec Estim_Proofs
  Group_Model Group_Spec Group_Proofs Symm_Model Symm_Spec Symm_Proofs Ansatz_Model Ansatz_Spec Ansatz_Proofs LegRbm_Model LegRbm_Spec.
Import ListNotations.
Open Scope R_scope.
Open Scope nat_scope.

(** ** lists *)
Lemma at_map {A} (f : A -> cpx) l d i : (i < length l) -> at_ (map f l) i = f (nth i l d).
Proof. intros H. unfold at_. rewrite (nth_indep _ _ (f d)) by (rewrite map_length; exact H). apply map_nth. Qed.
Lemma at_map_seq f n i : i < n -> at_ (map f (seq 0 n)) i = f i.
Proof. intros H. rewrite (at_map f _ 0) by (rewrite seq_length; exact H). now rewrite seq_nth by exact H. Qed.
Lemma nth_map_seq {A} (d : A) f n i : i < n -> nth i (map f (seq 0 n)) d = f i.
Proof.
  intros H. rewrite (nth_indep _ _ (f 0)) by (now rewrite map_length, seq_length). rewrite map_nth, seq_nth by exact H. reflexivity.
Qed.
Lemma grid_length {A} (f : nat -> nat -> A) n h : length (flat_map (fun i => map (f i) (seq 0 h)) (seq 0 n)) = n * h.
Proof.
  assert (G : forall l, length (flat_map (fun i => map (f i) (seq 0 h)) l) = length l * h).
  { induction l as [|x l IH]; [reflexivity|]. cbn [flat_map length]. rewrite app_length, map_length, seq_length, IH. lia. }
  rewrite G, seq_length. reflexivity.
Qed.
Lemma grid_nth {A} (d : A) (f : nat -> nat -> A) n h i j : i < n -> j < h ->
  nth (i * h + j) (flat_map (fun i => map (f i) (seq 0 h)) (seq 0 n)) d = f i j.
Proof.
  intros Hi Hj.
  assert (G : forall n s i, i < n -> nth (i * h + j) (flat_map (fun i => map (f i) (seq 0 h)) (seq s n)) d = f (s + i) j).
  { clear n i Hi. induction n as [|n IH]; intros s i Hi; [lia|]. cbn [seq flat_map]. destruct i as [|i].
    - rewrite app_nth1 by (rewrite map_length, seq_length; lia). cbn [Nat.mul Nat.add].
      rewrite (nth_indep _ _ (f s 0)) by (rewrite map_length, seq_length; exact Hj). rewrite map_nth, seq_nth by exact Hj.
      rewrite Nat.add_0_r. reflexivity.
    - rewrite app_nth2 by (rewrite map_length, seq_length; lia). rewrite map_length, seq_length.
      replace (S i * h + j - h) with (i * h + j) by lia. rewrite IH by lia. f_equal. lia. }
  rewrite G by exact Hi. reflexivity.
Qed.
Lemma at_app2 l m i k : length l = k -> at_ (l ++ m) (k + i) = at_ m i.
Proof. intros <-. unfold at_. rewrite app_nth2 by lia. f_equal. lia. Qed.
Lemma at_app1 l m i : i < length l -> at_ (l ++ m) i = at_ l i.
Proof. intros H. unfold at_. now rewrite app_nth1. Qed.

(** ** the logarithm of the hyperbolic cosine *)
Lemma sign_cases r : (sign r = 1%R /\ 0 < r)%R \/ (sign r = (-1)%R /\ r < 0)%R \/ (sign r = 0%R /\ r = 0%R).
Proof. unfold sign. destruct (Rlt_dec 0 r); [now left|]. destruct (Rlt_dec r 0); [now right; left|]. right; right. split; [reflexivity|lra]. Qed.
Lemma leg_scaled x : amplitude (option_map (fun l => (rsub cC x (ln 2, 0%R)) + l)%C (clog ((1, 0)%R + cexp (rscal (-2) x))%C)) = ccosh x.
Proof.
  rewrite amplitude_map, clog_exp. unfold ccosh. rewrite !rscal_emb.
  replace (cexp (x - (ln 2, 0%R))%C) with (cexp x * emb (1 / 2))%C.
  2:{ replace (x - (ln 2, 0%R))%C with (x + (- ln 2, 0)%R)%C by (cpx; rg). rewrite cexp_mul, cexp_real. f_equal. f_equal.
      rewrite exp_Ropp, exp_ln by lra. field. }
  replace (cexp (ropp cC x)) with (cexp x * cexp (emb (-2) * x))%C.
  2:{ rewrite <- cexp_mul. f_equal. unfold emb. cpx; rg. }
  change (1%R, 0%R) with (r1 cC). rg.
Qed.
Lemma leg_amplitude z : amplitude (leg_log_cosh z) = ccosh (rscal (sign (fst z)) z).
Proof. unfold leg_log_cosh. cbv zeta. apply leg_scaled. Qed.
Lemma ccosh_zero : ccosh (0, 0)%R = (1, 0)%R.
Proof. unfold ccosh. replace (ropp cC (0, 0)%R) with (r0 cC) by (cpx; rg). change (0, 0)%R with (r0 cC). rewrite cexp_0. unfold rscal. cpx; lra. Qed.
Lemma leg_ok z : off_axis z -> amplitude (leg_log_cosh z) = ccosh z.
Proof.
  intros H. rewrite leg_amplitude. destruct (sign_cases (fst z)) as [[-> _]|[[-> _]|[-> E]]].
  - f_equal. unfold rscal. destruct z. cbn. f_equal; lra.
  - rewrite <- (ccosh_opp z). f_equal. unfold rscal. cpx; lra.
  - destruct H as [H|H]; [contradiction|]. f_equal. unfold rscal. destruct z as [u v]. cbn [fst snd] in *. subst. f_equal; lra.
Qed.
Lemma leg_axis z : fst z = 0%R -> amplitude (leg_log_cosh z) = (1, 0)%R.
Proof.
  intros H. rewrite leg_amplitude, H. replace (sign 0) with 0%R.
  2:{ destruct (sign_cases 0) as [[_ ?]|[[_ ?]|[-> _]]]; [lra|lra|reflexivity]. }
  replace (rscal 0 z) with ((0, 0)%R : cpx) by (unfold rscal; f_equal; lra). apply ccosh_zero.
Qed.

(** ** the full parameters *)
Lemma c_hidden_doc c : c_hidden c = doc_hidden c.
Proof. reflexivity. Qed.
Definition idx (c : rcfg) (q : nat) : nat :=
  match c_sym c with None => q | Some rows => nth q (der_rows c rows) 0 end.
Definition off_b (c : rcfg) := len_if (c_vis c) (c_n c).
Definition off_w (c : rcfg) := off_b c + len_if (c_hid c) (c_hidden c).
Lemma n_bare_off c : n_bare c = off_w c + c_n c * c_hidden c.
Proof. unfold n_bare, off_w, off_b. lia. Qed.
Lemma n_par_off c : n_par c = size_a c + size_b c + c_n c * c_feat c.
Proof.
  unfold n_par, size_a, size_b, n_bare, c_hidden. destruct (c_sym c), (c_vis c), (c_hid c); cbn [len_if]; lia.
Qed.
Lemma der_rows_parts c rows : c_sym c = Some rows -> exists A B G, der_rows c rows = A ++ B ++ G /\ length A = off_b c /\ length B = len_if (c_hid c) (c_hidden c)
   /\ length G = c_n c * c_hidden c
   /\ (forall i, c_vis c = true -> i < c_n c -> nth i A 0 = 0)
   /\ (forall j, c_hid c = true -> j < c_hidden c -> nth j B 0 = size_a c + j / length rows)
   /\ (forall i j, i < c_n c -> j < c_hidden c -> nth (i * c_hidden c + j) G 0 = size_a c + size_b c + (nth i (nth (j mod length rows) rows []) 0 * c_feat c + j / length rows)).
Proof.
  intros HS. unfold der_rows, off_b. cbv zeta. eexists _, _, _. split; [reflexivity|].
  split; [destruct (c_vis c); [now rewrite map_length, seq_length|reflexivity]|].
  split; [destruct (c_hid c); [now rewrite map_length, seq_length|reflexivity]|].
  split; [apply (grid_length (fun i j => _))|].
  assert (Sa : len_if (c_vis c) 1 = size_a c) by (unfold size_a; rewrite HS; reflexivity).
  assert (Sb : len_if (c_hid c) (c_feat c) = size_b c) by (unfold size_b; destruct (c_hid c); reflexivity).
  rewrite Sa, Sb. split; [|split].
  - intros i -> Hi. now rewrite nth_map_seq.
  - intros j -> Hj. rewrite nth_map_seq by exact Hj. lia.
  - intros i j Hi Hj. rewrite (grid_nth 0 (fun i j => j / length rows + c_feat c * nth i (nth (j mod length rows) rows []) 0 + (size_a c + size_b c))) by assumption. lia.
Qed.
Lemma idx_a c i : c_vis c = true -> i < c_n c -> idx c i = match c_sym c with None => i | Some _ => 0 end.
Proof.
  intros Hv Hi. unfold idx. destruct (c_sym c) as [rows|] eqn:HS; [|reflexivity].
  destruct (der_rows_parts c rows HS) as (A & B & G & -> & LA & LB & LG & HA & HB & HG).
  rewrite app_nth1 by (rewrite LA; unfold off_b; rewrite Hv; exact Hi). auto.
Qed.
Lemma idx_b c j : c_hid c = true -> j < c_hidden c -> idx c (off_b c + j) = size_a c + match c_sym c with None => j | Some rows => j / length rows end.
Proof.
  intros Hv Hj. unfold idx. destruct (c_sym c) as [rows|] eqn:HS.
  2:{ unfold off_b, size_a. rewrite HS. reflexivity. }
  destruct (der_rows_parts c rows HS) as (A & B & G & -> & LA & LB & LG & HA & HB & HG).
  rewrite app_nth2 by lia. rewrite LA. replace (off_b c + j - off_b c) with j by lia.
  rewrite app_nth1 by (rewrite LB, Hv; exact Hj). auto.
Qed.
Lemma idx_w c i j : i < c_n c -> j < c_hidden c -> idx c (off_w c + (i * c_hidden c + j)) =
  size_a c + size_b c + match c_sym c with None => i * c_feat c + j | Some rows => nth i (nth (j mod length rows) rows []) 0 * c_feat c + j / length rows end.
Proof.
  intros Hi Hj. unfold idx. destruct (c_sym c) as [rows|] eqn:HS.
  2:{ unfold off_w, off_b, size_a, size_b, c_hidden. rewrite HS. destruct (c_hid c), (c_vis c); reflexivity. }
  destruct (der_rows_parts c rows HS) as (A & B & G & -> & LA & LB & LG & HA & HB & HG).
  unfold off_w. rewrite app_nth2 by lia. rewrite LA. rewrite app_nth2 by lia. rewrite LB.
  replace (off_b c + len_if (c_hid c) (c_hidden c) + (i * c_hidden c + j) - off_b c - len_if (c_hid c) (c_hidden c)) with (i * c_hidden c + j) by lia. auto.
Qed.

(** reading the full parameters made from [p] *)
Lemma expand_parts c p rows : c_sym c = Some rows -> exists A B G, expand c p = A ++ B ++ G /\ length A = off_b c /\ length B = len_if (c_hid c) (c_hidden c)
   /\ length G = c_n c * c_hidden c
   /\ (forall i, c_vis c = true -> i < c_n c -> at_ A i = at_ p 0)
   /\ (forall j, c_hid c = true -> j < c_hidden c -> at_ B j = at_ p (size_a c + j / length rows))
   /\ (forall i j, i < c_n c -> j < c_hidden c -> at_ G (i * c_hidden c + j) = at_ p (size_a c + size_b c + (nth i (nth (j mod length rows) rows []) 0 * c_feat c + j / length rows))).
Proof.
  intros HS. unfold expand. rewrite HS. unfold set_bare, off_b. cbv zeta. eexists _, _, _. split; [reflexivity|].
  split; [destruct (c_vis c); [now rewrite map_length, seq_length|reflexivity]|].
  split; [destruct (c_hid c); [now rewrite map_length, seq_length|reflexivity]|].
  split; [apply (grid_length (fun i j => _))|].
  assert (Sa : len_if (c_vis c) 1 = size_a c) by (unfold size_a; rewrite HS; reflexivity).
  assert (Sb : len_if (c_hid c) (c_feat c) = size_b c) by (unfold size_b; destruct (c_hid c); reflexivity).
  rewrite Sa, Sb. split; [|split].
  - intros i -> Hi. now rewrite at_map_seq.
  - intros j -> Hj. now rewrite at_map_seq.
  - intros i j Hi Hj. unfold at_ at 1.
    rewrite (grid_nth (0, 0)%R (fun i j => at_ p (size_a c + size_b c + (nth i (nth (j mod length rows) rows []) 0 * c_feat c + j / length rows)))) by assumption.
    reflexivity.
Qed.
Lemma full_a c p i : c_vis c = true -> i < c_n c -> at_ (expand c p) i = at_ p (idx c i).
Proof.
  intros Hv Hi. rewrite idx_a by assumption. destruct (c_sym c) as [rows|] eqn:HS; [|unfold expand; now rewrite HS].
  destruct (expand_parts c p rows HS) as (A & B & G & -> & LA & LB & LG & HA & HB & HG).
  rewrite at_app1 by (rewrite LA; unfold off_b; rewrite Hv; exact Hi). auto.
Qed.
Lemma full_b c p j : c_hid c = true -> j < c_hidden c -> at_ (expand c p) (off_b c + j) = at_ p (idx c (off_b c + j)).
Proof.
  intros Hv Hj. destruct (c_sym c) as [rows|] eqn:HS; [|unfold expand, idx; now rewrite HS].
  rewrite idx_b by assumption. rewrite HS. destruct (expand_parts c p rows HS) as (A & B & G & -> & LA & LB & LG & HA & HB & HG).
  rewrite at_app2 by exact LA. rewrite at_app1 by (rewrite LB, Hv; exact Hj). auto.
Qed.
Lemma full_w c p i j : i < c_n c -> j < c_hidden c -> at_ (expand c p) (off_w c + (i * c_hidden c + j)) = at_ p (idx c (off_w c + (i * c_hidden c + j))).
Proof.
  intros Hi Hj. destruct (c_sym c) as [rows|] eqn:HS; [|unfold expand, idx; now rewrite HS].
  rewrite idx_w by assumption. rewrite HS. destruct (expand_parts c p rows HS) as (A & B & G & -> & LA & LB & LG & HA & HB & HG).
  unfold off_w. rewrite <- Nat.add_assoc. rewrite at_app2 by exact LA. rewrite at_app2 by exact LB. auto.
Qed.

Definition opt_ext (n : nat) (a b : option (nat -> cpx)) : Prop :=
  match a, b with None, None => True | Some a, Some b => forall i, i < n -> a i = b i | _, _ => False end.
Lemma doc_a_ok c p : opt_ext (c_n c) (bare_a c (expand c p)) (doc_a c p).
Proof.
  unfold bare_a, doc_a. destruct (c_vis c) eqn:Hv; [|exact I]. intros i Hi. rewrite full_a, idx_a by assumption. reflexivity.
Qed.
Lemma doc_b_ok c p : opt_ext (c_hidden c) (bare_b c (expand c p)) (doc_b c p).
Proof.
  unfold bare_b, doc_b. destruct (c_hid c) eqn:Hv; [|exact I]. intros i Hi. change (len_if (c_vis c) (c_n c)) with (off_b c).
  rewrite full_b, idx_b by assumption. reflexivity.
Qed.
Lemma doc_w_ok c p i j : i < c_n c -> j < c_hidden c -> bare_w c (expand c p) i j = doc_w c p i j.
Proof.
  intros Hi Hj. unfold bare_w. change (len_if (c_vis c) (c_n c) + len_if (c_hid c) (c_hidden c)) with (off_w c).
  rewrite full_w, idx_w by assumption. unfold doc_w. destruct (c_sym c); reflexivity.
Qed.
Lemma theta_ext n h W W' b b' s s' j : (forall i j, i < n -> j < h -> W i j = W' i j) -> opt_ext h b b' -> (forall i, i < n -> s i = s' i) -> j < h ->
  theta n W b s j = theta n W' b' s' j.
Proof.
  intros HW Hb Hs Hj. unfold theta. f_equal.
  - apply (fsum_ext cC). intros i Hi. now rewrite HW, Hs by assumption.
  - destruct b, b'; cbn in Hb; try contradiction; auto.
Qed.
Lemma visible_ext n a a' s s' : opt_ext n a a' -> (forall i, i < n -> s i = s' i) -> visible n a s = visible n a' s'.
Proof.
  intros Ha Hs. unfold visible. destruct a, a'; cbn in Ha; try contradiction; auto. apply (fsum_ext cC). intros i Hi. now rewrite Ha, Hs by assumption.
Qed.
Lemma dense_doc c p s j : j < c_hidden c ->
  dense (c_n c) (bare_w c (expand c p)) (bare_b c (expand c p)) (row_fn s) j = unit_input c p s j.
Proof.
  intros Hj. rewrite dense_theta. unfold unit_input. apply (theta_ext (c_n c) (c_hidden c)); auto using doc_b_ok.
  intros i k Hi Hk. now apply doc_w_ok.
Qed.

(** ** values *)
Lemma cast_holds d z : holds d z -> cast d z = z.
Proof. unfold holds, cast. destruct d; try reflexivity. destruct z as [u v]. cbn. intros H. now rewrite H. Qed.
Lemma cast_map d l : Forall (holds d) l -> map (cast d) l = l.
Proof. induction 1; cbn [map]; [reflexivity|]. rewrite cast_holds by assumption. now f_equal. Qed.
Lemma cast_rows d x : Forall (Forall (holds d)) x -> map (map (cast d)) x = x.
Proof. induction 1; cbn [map]; [reflexivity|]. rewrite cast_map by assumption. now f_equal. Qed.
Lemma set_ok m p m' : set_parameters m p = Ok m' -> Forall (holds (c_type (m_cfg m))) p ->
  length p = n_par (m_cfg m) /\ m' = RMach (m_cfg m) p (expand (m_cfg m) p).
Proof.
  unfold set_parameters. destruct (Nat.eqb_spec (length p) (n_par (m_cfg m))); [|discriminate]. cbn [negb].
  intros [= <-] H. rewrite cast_map by exact H. auto.
Qed.
Lemma set_total m p : length p = n_par (m_cfg m) -> Forall (holds (c_type (m_cfg m))) p ->
  set_parameters m p = Ok (RMach (m_cfg m) p (expand (m_cfg m) p)).
Proof. intros H F. unfold set_parameters. rewrite H, Nat.eqb_refl. cbn [negb]. now rewrite cast_map. Qed.

Definition hid_val (c : rcfg) (p : list cpx) (s : list cpx) : logval :=
  lsum_log (map (fun j => leg_log_cosh (unit_input c p s j)) (seq 0 (doc_hidden c))).
Definition row_val (c : rcfg) (p : list cpx) (s : list cpx) : logval :=
  if c_vis c then ladd (hid_val c p s) (Some (visible (c_n c) (doc_a c p) (row_fn s))) else hid_val c p s.
Lemma hid_is c p s : hidden leg_log_cosh (c_n c) (c_hidden c) (bare_w c (expand c p)) (bare_b c (expand c p)) (row_fn s) = hid_val c p s.
Proof.
  unfold hidden, hid_val. rewrite c_hidden_doc. f_equal. apply map_ext_in. intros j Hj. apply in_seq in Hj. rewrite dense_doc by (rewrite c_hidden_doc; lia). reflexivity.
Qed.
Lemma log_val_is c p x out : Forall (Forall (holds (c_type c))) x ->
  log_val (RMach c p (expand c p)) 2 x out = Ok (map (row_val c p) x, if out then Some (map (hid_val c p) x) else None).
Proof.
  intros Hx. unfold log_val. cbn [Nat.eqb negb m_cfg m_bare]. cbv zeta. rewrite cast_rows by exact Hx. f_equal. f_equal.
  - unfold row_val. pose proof (doc_a_ok c p) as Ha. unfold bare_a in *. destruct (c_vis c) eqn:Hv.
    + apply map_ext. intros s. rewrite hid_is. do 2 f_equal. unfold doc_a in *. rewrite Hv in *.
      rewrite dot_visible. apply visible_ext; [exact Ha|reflexivity].
    + apply map_ext. intros s. apply hid_is.
  - destruct out; [|reflexivity]. f_equal. apply map_ext. intros s. apply hid_is.
Qed.
Lemma hid_amplitude c p s : (forall j, j < doc_hidden c -> off_axis (unit_input c p s j)) ->
  amplitude (hid_val c p s) = cprod (doc_hidden c) (fun j => ccosh (unit_input c p s j)).
Proof. intros H. unfold hid_val. rewrite amplitude_sum. apply cprod_ext. intros j Hj. apply leg_ok, H, Hj. Qed.
Lemma row_amplitude c p s : (forall j, j < doc_hidden c -> off_axis (unit_input c p s j)) ->
  amplitude (row_val c p s) = doc_amplitude c p s.
Proof.
  intros H. unfold row_val, doc_amplitude, boltzmann. change (fun i => nth i s (0%R, 0%R)) with (row_fn s).
  change (fun j => ccosh (theta (c_n c) (doc_w c p) (doc_b c p) (row_fn s) j)) with (fun j => ccosh (unit_input c p s j)).
  destruct (c_vis c) eqn:Hv.
  - rewrite amplitude_ladd, hid_amplitude by exact H. cbn [amplitude]. rg.
  - rewrite hid_amplitude by exact H. unfold visible, doc_a. rewrite Hv. change (cexp (0%R, 0%R)) with (cexp (r0 cC)). rewrite cexp_0. rg.
Qed.
Lemma real_off_axis c p s j : c_type c = PFloat -> Forall (holds PFloat) p -> Forall (holds PFloat) s -> off_axis (unit_input c p s j).
Proof.
  intros _ Hp Hs. right. 
  assert (R : forall l i, Forall (holds PFloat) l -> snd (nth i l (0%R, 0%R)) = 0%R).
  { intros l i F. destruct (nth_in_or_default i l (0%R, 0%R)) as [Hin|E]; [|rewrite E; reflexivity].
    rewrite Forall_forall in F. exact (F _ Hin eq_refl). }
  unfold unit_input. apply (theta_real (c_n c)).
  - intros i k. unfold isreal, doc_w, entries. destruct (c_sym c); apply R, Hp.
  - intros b Hb i. unfold doc_b in Hb. destruct (c_hid c); [|discriminate]. injection Hb as <-. apply R, Hp.
  - intros i. apply R, Hs.
Qed.
