(** * Proofs about the numpy Jastrow machine: products with the Jacobian, norms, files, and what goes wrong *)
From Coq Require Import List Arith ZArith Bool Reals Lia Lra Permutation.
From Verif Require Import Base Rings ARNN_Model ARNN_Proofs ToArray_Model Estim_Model Estim_Proofs Group_Spec Symm_Spec Ansatz_Model Ansatz_Proofs LegRbm_Model LegRbm_Spec
  LegRbm_Proofs LegRbm_Sym Little_Char LegJas_Model LegJas_Spec LegJas_Table LegJas_Proofs.
Import ListNotations.
Open Scope R_scope.
Open Scope nat_scope.
Open Scope list_scope.

(** ** Theorems about the values *)
Lemma plain_value n vis d junk m p m' x out : construct n vis ANone d junk = Ok m -> jset m p = Ok m' -> Forall (holds d) p -> rows_ok n d x ->
  exists buf, jlog_val m' n x out = Ok (map (fun s => jastrow_log n (fun i j => par p (shift vis n + pair_rank n i j)) (bias_of vis p) (par s)) x, buf).
Proof.
  intros HC HS HP HX. destruct (construct_wf _ _ _ _ _ _ HC) as (W & _ & EM & EN).
  rewrite (value n vis d m p m' x out W HS HP HX). eexists. f_equal. f_equal.
  apply map_ext. intros s. unfold jastrow_log. f_equal. apply pair_sum_ext. intros i j Hij. rewrite EM, (proj1 (plain_rank n i j Hij)). reflexivity.
Qed.
Lemma symm_value n vis rows d junk m : construct n vis (ATable rows) d junk = Ok m -> permutation_group n rows ->
  exists k c, numbers_classes n rows k c /\ jn_par m = shift vis n + k /\
   forall p m' x out, jset m p = Ok m' -> Forall (holds d) p -> rows_ok n d x ->
   exists buf, jlog_val m' n x out = Ok (map (fun s => jastrow_log n (fun i j => par p (shift vis n + c i j)) (bias_of vis p) (par s)) x, buf).
Proof.
  intros HC HG. destruct (construct_wf _ _ _ _ _ _ HC) as (W & _ & EG & _).
  destruct (gen_symm_ok n rows HG) as (c & k & EG' & NC). rewrite EG in EG'. inversion EG'; subst c k.
  exists (j_nsym m), (j_map m). split; [exact NC|]. split; [exact (wf_par n vis d m W)|].
  intros p m' x out HS HP HX. rewrite (value n vis d m p m' x out W HS HP HX). eexists. reflexivity.
Qed.
Lemma gradient n vis am d junk m p m' x out : construct n vis am d junk = Ok m -> jset m p = Ok m' -> Forall (holds d) p -> rows_ok n d x ->
  jder_log m' n x = jder_log m n x /\
  Forall (fun r => length r = jn_par m) (jder_log m n x) /\
  exists buf, jlog_val m' n x out = Ok (map (fun r => fsum cC (jn_par m) (fun k => rmul cC (par p k) (par r k))) (jder_log m n x), buf).
Proof.
  intros HC HS HP HX. destruct (construct_wf _ _ _ _ _ _ HC) as (W & _ & _). pose proof (wf_par n vis d m W) as NP.
  assert (L : length p = shift vis n + j_nsym m).
  { rewrite <- NP. destruct (Nat.eq_dec (length p) (jn_par m)) as [E|E]; [exact E|]. rewrite (set_wrong m p E) in HS. discriminate. }
  pose proof W as (W1 & W2 & _). split; [|split].
  - unfold jder_log. rewrite (proj2 (der_log_set n vis d m p m' [] W HS)). apply map_ext. intros s. apply (der_log_set n vis d m p m' s W HS).
  - apply Forall_forall. intros r Hr. unfold jder_log in Hr. apply in_map_iff in Hr. destruct Hr as (s & <- & _). rewrite NP. apply (der_length n vis d m s W).
  - rewrite (value n vis d m p m' x out W HS HP HX). eexists. f_equal. f_equal.
    unfold jder_log. rewrite W2, (rows_cast n d x HX), map_map. apply map_ext. intros s. rewrite NP. exact (linear_row n vis d m p s W L).
Qed.
Lemma invariance n rows d junk m p m' x g : construct n false (ATable rows) d junk = Ok m -> permutation_group n rows -> jset m p = Ok m' ->
  Forall (holds d) p -> rows_ok n d x -> In g rows ->
  jlog_val m' n (map (permuted (0, 0)%R g) x) false = jlog_val m' n x false.
Proof.
  intros HC HG HS HP HX Hg. destruct (symm_value n false rows d junk m HC HG) as (k & c & NC & _ & HV).
  destruct (HV p m' x false HS HP HX) as (b1 & E1).
  assert (HX' : rows_ok n d (map (permuted (0, 0)%R g) x)).
  { apply Forall_forall. intros s' Hs'. apply in_map_iff in Hs'. destruct Hs' as (s & <- & Hs). destruct (proj1 (Forall_forall _ _) HX s Hs) as [L H].
    split; [unfold permuted; rewrite map_length; apply perm_len; exact (row_perm n rows HG g Hg)|].
    unfold permuted. apply Forall_forall. intros z Hz. apply in_map_iff in Hz. destruct Hz as (q & <- & Hq).
    apply (proj1 (Forall_forall _ _) H). apply nth_In. exact (eq_ind_r (fun k => q < k) (perm_lt n g q (row_perm n rows HG g Hg) Hq) L). }
  pose proof (proj1 (construct_wf _ _ _ _ _ _ HC)) as W.
  rewrite (value n false d m p m' _ false W HS HP HX'), (value n false d m p m' x false W HS HP HX). f_equal. f_equal.
  rewrite map_map. apply map_ext_in. intros s Hs. destruct (proj1 (Forall_forall _ _) HX s Hs) as [L _].
  destruct (construct_wf _ _ _ _ _ _ HC) as (_ & _ & EG & _). destruct (gen_symm_ok n rows HG) as (c' & k' & EG' & NC'). rewrite EG in EG'. inversion EG'; subst c' k'.
  unfold bias_of, shift. exact (invariant_row n rows (j_nsym m) (j_map m) (fun q => par p (0 + q)) g s HG NC' Hg L).
Qed.
Lemma out_buffer n am d junk m p m' x : construct n false am d junk = Ok m -> jset m p = Ok m' -> Forall (holds d) p -> rows_ok n d x ->
  exists v, jlog_val m' n x true = Ok (v, Some v).
Proof.
  intros HC HS HP HX. pose proof (proj1 (construct_wf _ _ _ _ _ _ HC)) as W.
  rewrite (value n false d m p m' x true W HS HP HX). eexists. unfold bias_of. reflexivity.
Qed.

(** ** Parameters and constructor *)
Lemma params n vis am d junk m p : construct n vis am d junk = Ok m -> Forall (holds d) p ->
  (length p = jn_par m -> exists m', jset m p = Ok m' /\ jget m' = p /\ jn_par m' = jn_par m) /\
  (length p <> jn_par m -> jset m p = Err ValueError) /\ length (jget m) = jn_par m.
Proof.
  intros HC HP. destruct (construct_wf _ _ _ _ _ _ HC) as (W & _ & _). pose proof (wf_par n vis d m W) as NP. split; [|split].
  - intros L. rewrite NP in L. destruct (set_wf n vis d m p W HP L) as (m' & E & W' & _ & EN & EG & _). exists m'. split; [exact E|]. split; [exact EG|].
    rewrite (wf_par n vis d m' W'), NP, EN. reflexivity.
  - apply set_wrong.
  - destruct W as (_ & _ & _ & LJ & LA). unfold jget, jn_par. rewrite app_length, LJ. destruct (j_a m); cbn; lia.
Qed.
Lemma plain_count n vis d junk m : construct n vis ANone d junk = Ok m -> 2 * jn_par m = n * (n - 1) + 2 * shift vis n.
Proof.
  intros HC. destruct (construct_wf _ _ _ _ _ _ HC) as (W & _ & _ & EN). rewrite (wf_par n vis d m W), EN.
  assert (E : 2 * (n * (n - 1) / 2) = n * (n - 1)).
  { symmetry. apply Nat.div_exact; [lia|]. destruct (Nat.Even_or_Odd n) as [[q ->]|[q ->]].
    - rewrite <- Nat.mul_assoc, Nat.mul_comm, Nat.mod_mul; lia.
    - replace ((2 * q + 1) * (2 * q + 1 - 1)) with (((2 * q + 1) * q) * 2) by (replace (2 * q + 1 - 1) with (2 * q) by lia; lia). apply Nat.mod_mul. lia. }
  lia.
Qed.
Lemma constructor n vis am d junk :
  (d = POther -> construct n vis am d junk = Err TypeError) /\
  (d <> POther -> n < 2 -> construct n vis am d junk = Err ValueError) /\
  (d <> POther -> 2 <= n -> am = ANone -> exists m, construct n vis am d junk = Ok m) /\
  (d <> POther -> 2 <= n -> forall rows, am = ATable rows -> Forall (fun r => length r = n /\ Forall (fun k => k < n) r) rows -> rows <> [] ->
     exists m, construct n vis am d junk = Ok m) /\
  (d <> POther -> 2 <= n -> forall rows, am = ATable rows -> rows = [] \/ Exists (fun r => length r <> n) rows -> construct n vis am d junk = Err RuntimeError).
Proof.
  split; [intros ->; reflexivity|].
  assert (U : d <> POther -> construct n vis am d junk = if n <? 2 then Err ValueError else construct n vis am d junk).
  { intros H. destruct (n <? 2) eqn:E; [|reflexivity]. unfold construct. rewrite E. destruct d; congruence. }
  split; [intros H L; rewrite (U H); destruct (Nat.ltb_spec n 2); [reflexivity|lia]|].
  assert (B : forall a, d <> POther -> 2 <= n -> construct n vis a d junk = (let? t := match a with
        | ANone => Ok (plain_table n)
        | ATable rows => if negb (forallb (fun r => length r =? n) rows && (0 <? length rows)) then Err RuntimeError else gen_symm n rows
        | AFalse | ABad => Err RuntimeError end in
      let '(W, k) := t in Ok (JMach n d W k (if vis then Some (map (fun i => cast d (junk i)) (seq 0 n)) else None) (repeat czero k)))).
  { intros a H L. unfold construct. destruct (Nat.ltb_spec n 2); [lia|]. destruct d; congruence || reflexivity. }
  split; [|split].
  - intros H L ->. rewrite (B _ H L). cbn [bind]. destruct (plain_table n). eexists. reflexivity.
  - intros H L rows -> HR NE. rewrite (B _ H L).
    assert (E : forallb (fun r => length r =? n) rows && (0 <? length rows) = true).
    { apply andb_true_iff. split; [apply forallb_forall; intros r Hr; apply Nat.eqb_eq; apply (proj1 (Forall_forall _ _) HR r Hr)|].
      destruct rows; [congruence|reflexivity]. }
    rewrite E. cbn [negb]. destruct (gen_symm_total n rows) as (c & k & EG & _). rewrite EG. cbn [bind]. eexists. reflexivity.
  - intros H L rows -> HR. rewrite (B _ H L).
    assert (E : forallb (fun r => length r =? n) rows && (0 <? length rows) = false).
    { apply andb_false_iff. destruct HR as [->|HR]; [right; reflexivity|]. left. apply not_true_is_false. intros F.
      apply Exists_exists in HR. destruct HR as (r & Hr & NE). apply NE. apply Nat.eqb_eq. exact (proj1 (forallb_forall _ _) F r Hr). }
    rewrite E. reflexivity.
Qed.
Lemma fresh n am d junk m x : construct n false am d junk = Ok m -> rows_ok n d x -> jlog_val m n x false = Ok (map (fun _ => (0, 0)%R) x, None).
Proof.
  intros HC HX. destruct (construct_wf _ _ _ _ _ _ HC) as ((W1 & W2 & W3 & W4 & W5) & _).
  assert (EJ : j_J m = repeat czero (j_nsym m)).
  { unfold construct in HC. destruct d; [| |discriminate].
    all: destruct (n <? 2); [discriminate|]; destruct (match am with ANone => _ | _ => _ end) as [[W k]|e]; cbn [bind] in HC; [|discriminate]; inversion HC; reflexivity. }
  assert (Z : forall k i, at_ (repeat czero k) i = (0, 0)%R) by (induction k; intros [|i]; cbn; auto; apply IHk).
  unfold jlog_val. rewrite W1, W2, Nat.ltb_irrefl, (rows_cast n d x HX). cbn [andb].
  destruct (j_a m) as [a|]; [destruct W5; discriminate|]. f_equal. f_equal. apply map_ext. intros s. unfold two_body.
  rewrite (lsum_pairs (fun i j => rmul cC (rmul cC (at_ s i) (at_ (j_J m) (j_map m i j))) (at_ s j)) n). unfold pair_sum.
  apply (fsum_zero cC cC_laws). intros i Hi. apply (fsum_zero cC cC_laws). intros j Hj. destruct (i <? j); [|reflexivity]. rewrite EJ, Z. cpx; ring.
Qed.
Lemma too_long m w x out : j_n m < w -> x <> [] -> jlog_val m w x out = Err Fault.
Proof.
  intros H NE. unfold jlog_val. apply Nat.ltb_lt in H. rewrite H. destruct x; [congruence|]. reflexivity.
Qed.

(** ** Products with the Jacobian *)
Lemma row_sum_nth npar rows c f k : k < npar -> par (row_sum npar rows c f) k = fsum cC (length rows) (fun b => rmul cC (f (at_ (nth b rows []) k)) (at_ c b)).
Proof. intros H. unfold par, row_sum. exact (nth_map_seq _ _ npar k H). Qed.
Lemma conj_fsum n (f : nat -> cpx) : rconj cC (fsum cC n f) = fsum cC n (fun i => rconj cC (f i)).
Proof. induction n; cbn [fsum]; [cpx; ring|]. rewrite <- IHn. cpx; ring. Qed.
Lemma vjp_main n vis am d junk m q mq x vec l : construct n vis am d junk = Ok m -> jset m q = Ok mq -> Forall (holds d) q -> rows_ok n d x ->
  vjp (jn_par m) (jder_log m n x) vec true = Ok l ->
  length l = jn_par m /\
  vjp (jn_par m) (jder_log m n x) vec false = Ok (map (rconj cC) l) /\
  exists v, jlog_val mq n x false = Ok (v, None) /\
  fsum cC (jn_par m) (fun k => rmul cC (par q k) (rconj cC (par l k))) = fsum cC (length x) (fun b => rmul cC (rconj cC (par vec b)) (par v b)).
Proof.
  intros HC HS HP HX HV. unfold vjp in *. destruct (negb (length (jder_log m n x) =? length vec)) eqn:EL; [discriminate|]. inversion HV; subst l. clear HV.
  apply negb_false_iff, Nat.eqb_eq in EL.
  assert (LX : length (jder_log m n x) = length x) by (unfold jder_log; rewrite !map_length; reflexivity).
  split; [unfold row_sum; rewrite map_length; apply seq_length|]. split.
  - f_equal. unfold row_sum. rewrite map_map. apply map_ext. intros k. rewrite conj_fsum. apply (fsum_ext cC). intros b Hb.
    unfold at_ at 2. rewrite (nth_indep _ (0, 0)%R (rconj cC (0, 0)%R)) by (rewrite map_length; lia).
    rewrite (map_nth (rconj cC)). unfold at_. cpx; ring.
  - destruct (gradient n vis am d junk m q mq x false HC HS HP HX) as (_ & _ & buf & EV).
    assert (EB : buf = None).
    { pose proof (proj1 (construct_wf _ _ _ _ _ _ HC)) as W. rewrite (value n vis d m q mq x false W HS HP HX) in EV. inversion EV. reflexivity. }
    subst buf. eexists. split; [exact EV|].
    rewrite (fsum_ext cC (jn_par m) _ (fun k => fsum cC (length x) (fun b => rmul cC (rmul cC (par q k) (at_ (nth b (jder_log m n x) []) k)) (rconj cC (par vec b))))).
    + rewrite (fsum_swap cC cC_laws). apply (fsum_ext cC). intros b Hb.
      unfold par at 4. rewrite (nth_indep _ (0, 0)%R (fsum cC (jn_par m) (fun k => rmul cC (par q k) (par [] k)))) by (rewrite map_length, LX; exact Hb).
      rewrite (map_nth (fun r => fsum cC (jn_par m) (fun k => rmul cC (par q k) (par r k)))).
      rewrite <- (fsum_scal cC cC_laws). apply (fsum_ext cC). intros k Hk. unfold at_, par. rg.
    + intros k Hk. rewrite row_sum_nth by exact Hk. rewrite conj_fsum, LX, <- (fsum_scal cC cC_laws). apply (fsum_ext cC). intros b Hb.
      unfold at_, par. cpx; ring.
Qed.
Lemma vjp_wrong npar jac vec c : length jac <> length vec -> vjp npar jac vec c = Err ValueError.
Proof. intros H. unfold vjp. apply Nat.eqb_neq in H. rewrite H. reflexivity. Qed.
Lemma vjp3_bad npar jac vec c b2 : 2 <= b2 -> Forall (fun sl => length sl = b2) jac -> length vec = length jac * b2 -> vjp3 npar jac vec c = Err ValueError.
Proof.
  intros H HF HL. unfold vjp3. destruct jac as [|s jac]; [reflexivity|]. cbn [length] in *.
  destruct (Nat.eqb_spec (S (length jac)) (length vec)); [nia|reflexivity].
Qed.
Lemma vjp3_one npar jac vec c : jac <> [] -> vjp3 npar (map (fun r => [r]) jac) vec c = vjp npar jac vec c.
Proof.
  intros NE. unfold vjp3, vjp. destruct jac as [|r jac]; [congruence|]. cbn [map length]. rewrite map_length.
  destruct (negb (S (length jac) =? length vec)); [reflexivity|]. cbn [seq flat_map nth]. rewrite app_nil_r, map_map. cbn [nth]. rewrite map_id.
  destruct c; reflexivity.
Qed.

(** ** The vector of amplitudes *)
Lemma amp_norm z : cnorm2 (cexp z) = (exp (2 * fst z))%R.
Proof.
  destruct z as [a b]. unfold cnorm2, cexp. cbn [fst snd]. pose proof (sin2_cos2 b) as S2. unfold Rsqr in S2.
  replace (2 * a)%R with (a + a)%R by ring. rewrite exp_plus.
  transitivity (exp a * exp a * (sin b * sin b + cos b * cos b))%R; [ring|]. rewrite S2. ring.
Qed.
Lemma amp_mod z : modulus (cexp z) = exp (fst z).
Proof.
  unfold modulus. rewrite amp_norm. replace (2 * fst z)%R with (fst z + fst z)%R by ring. rewrite exp_plus. apply sqrt_square. left. apply exp_pos.
Qed.
Lemma shifted c z : cexp (fst z - c, snd z)%R = (fst (cexp z) * exp (- c), snd (cexp z) * exp (- c))%R.
Proof. unfold cexp. cbn [fst snd]. unfold Rminus. rewrite exp_plus. f_equal; ring. Qed.
Lemma norm_pos logs : logs <> [] -> (0 < norm2 (amps logs))%R.
Proof.
  intros H. unfold norm2, amps. destruct logs as [|z l]; [congruence|]. cbn [map]. unfold rsum. cbn [fold_right]. fold (rsum (map cnorm2 (map cexp l))).
  rewrite amp_norm. pose proof (exp_pos (2 * fst z)). assert (0 <= rsum (map cnorm2 (map cexp l)))%R.
  { clear. induction l as [|z l IH]; cbn; [lra|]. rewrite amp_norm. pose proof (exp_pos (2 * fst z)). unfold rsum in IH. lra. }
  lra.
Qed.
Lemma norm_shift c logs : norm2 (map (fun z => cexp (fst z - c, snd z)%R) logs) = (norm2 (amps logs) * (exp (- c) * exp (- c)))%R.
Proof.
  unfold norm2, amps. induction logs as [|z l IH]; [cbn; ring|]. cbn [map]. unfold rsum in *. cbn [fold_right]. rewrite IH, shifted. unfold cnorm2. cbn [fst snd]. ring.
Qed.
Lemma array_norm logs : logs <> [] -> machine_array true logs true =
  Ok (map (fun z => (fst z / sqrt (norm2 (amps logs)), snd z / sqrt (norm2 (amps logs))))%R (amps logs)).
Proof.
  intros H. unfold machine_array. destruct logs as [|z0 l0] eqn:E; [congruence|]. rewrite <- E in *. f_equal. set (c := rmax (map fst logs)).
  pose proof (norm_shift c logs) as NS. unfold norm2 in NS at 1. rewrite NS. pose proof (norm_pos logs H) as NP.
  rewrite sqrt_mult by (try (left; exact NP); pose proof (exp_pos (-c)); nra). rewrite sqrt_square by (left; apply exp_pos).
  set (N := norm2 (amps logs)) in *. unfold amps. rewrite !map_map. apply map_ext. intros z. rewrite shifted. cbn [fst snd].
  pose proof (exp_pos (- c)). pose proof (sqrt_lt_R0 _ NP). f_equal; field; split; lra.
Qed.
Lemma rmax_ge l x : In x l -> (x <= rmax l)%R.
Proof.
  induction l as [|a l IH]; intros H; [destruct H|]. destruct l as [|b l]; [destruct H as [->|[]]; cbn; lra|].
  change (rmax (a :: b :: l)) with (Rmax a (rmax (b :: l))). destruct H as [->|H]; [apply Rmax_l|]. eapply Rle_trans; [apply IH, H|apply Rmax_r].
Qed.
Lemma rmax_in l : l <> [] -> In (rmax l) l.
Proof.
  induction l as [|a l IH]; intros H; [congruence|]. destruct l as [|b l]; [left; reflexivity|].
  change (rmax (a :: b :: l)) with (Rmax a (rmax (b :: l))). unfold Rmax. destruct (Rle_dec a (rmax (b :: l))); [right; apply IH; discriminate|left; reflexivity].
Qed.
Lemma array_plain logs : logs <> [] -> exists c l, (0 < c)%R /\ machine_array true logs false = Ok l /\
  l = map (fun z => (c * fst z, c * snd z))%R (amps logs) /\ Forall (fun z => modulus z <= 1)%R l /\ Exists (fun z => modulus z = 1%R) l.
Proof.
  intros H. unfold machine_array. destruct logs as [|z0 l0] eqn:E; [congruence|]. rewrite <- E in *. set (c := rmax (map fst logs)).
  exists (exp (- c)), (map (fun z => cexp (fst z - c, snd z)%R) logs). split; [apply exp_pos|]. split; [reflexivity|]. split; [|split].
  - unfold amps. rewrite map_map. apply map_ext. intros z. rewrite shifted. f_equal; ring.
  - apply Forall_forall. intros y Hy. apply in_map_iff in Hy. destruct Hy as (z & <- & Hz). rewrite amp_mod. cbn [fst].
    assert (fst z <= c)%R by (apply rmax_ge, in_map; exact Hz). rewrite <- exp_0. destruct (Req_dec (fst z - c) 0) as [->|NE]; [lra|]. left. apply exp_increasing. lra.
  - apply Exists_exists. assert (HI : In c (map fst logs)) by (apply rmax_in; rewrite E; discriminate). apply in_map_iff in HI. destruct HI as (z & EZ & Hz).
    exists (cexp (fst z - c, snd z)%R). split; [apply in_map_iff; exists z; auto|]. rewrite amp_mod. cbn [fst]. rewrite EZ. replace (c - c)%R with 0%R by ring. apply exp_0.
Qed.
Lemma log_norm_main logs order : logs <> [] -> log_norm true logs order = Ok (ln (rsum (map (fun z => Rpower (modulus z) order) (amps logs)))).
Proof.
  intros H. unfold log_norm. destruct logs as [|z0 l0] eqn:E; [congruence|]. rewrite <- E in *. f_equal. set (c := rmax (map fst logs)).
  assert (S1 : rsum (map (fun z => exp (order * (fst z - c))) logs) = (rsum (map (fun z => Rpower (modulus z) order) (amps logs)) * exp (- (c * order)))%R).
  { generalize c as e. intros e. clear. unfold amps. induction logs as [|z l IH]; [cbn; ring|]. cbn [map]. unfold rsum in *. cbn [fold_right]. rewrite IH, Rmult_plus_distr_r. f_equal.
    rewrite amp_mod. unfold Rpower. rewrite ln_exp, <- exp_plus. f_equal. ring. }
  assert (P : (0 < rsum (map (fun z => Rpower (modulus z) order) (amps logs)))%R).
  { rewrite E. unfold amps, rsum. cbn [map fold_right]. assert (G : forall l, (0 <= fold_right Rplus 0 (map (fun z => Rpower (modulus z) order) (map cexp l)))%R).
    { induction l; cbn [map fold_right]; [lra|]. assert (0 < Rpower (modulus (cexp a)) order)%R by apply exp_pos. lra. }
    pose proof (G l0). assert (0 < Rpower (modulus (cexp z0)) order)%R by apply exp_pos. lra. }
  rewrite S1, ln_mult, ln_exp by (auto using exp_pos). ring.
Qed.
Lemma not_indexable logs b order : machine_array false logs b = Err RuntimeError /\ log_norm false logs order = Err RuntimeError.
Proof. split; reflexivity. Qed.

(** ** Files *)
Lemma save_load (bytes : Type) (encode : list cpx -> bytes) (decode : bytes -> option (list cpx)) (empty : bytes)
  n vis am d junk junk' m0 m1 p m old :
  (forall q, decode (encode q) = Some q) -> construct n vis am d junk = Ok m0 -> construct n vis am d junk' = Ok m1 ->
  Forall (holds d) p -> jset m0 p = Ok m ->
  snd (save bytes encode empty true old m) = None /\ load bytes decode m1 (last (fst (save bytes encode empty true old m)) old) = Ok m.
Proof.
  intros HD H0 H1 HP HS. split; [reflexivity|]. cbn [save negb fst last]. unfold load. rewrite HD.
  destruct (construct_wf _ _ _ _ _ _ H0) as (W0 & _ & T0), (construct_wf _ _ _ _ _ _ H1) as (W1 & _ & T1).
  assert (ET : j_map m0 = j_map m1 /\ j_nsym m0 = j_nsym m1).
  { destruct am as [| |rows|]; try contradiction.
    - destruct T0 as [-> ->], T1 as [-> ->]. auto.
    - destruct T0 as [E0 _], T1 as [E1 _]. rewrite E0 in E1. inversion E1. auto. }
  destruct ET as [EM EN].
  assert (L : length p = shift vis n + j_nsym m0).
  { rewrite <- (wf_par n vis d m0 W0). destruct (Nat.eq_dec (length p) (jn_par m0)) as [E|E]; [exact E|]. rewrite (set_wrong m0 p E) in HS. discriminate. }
  destruct (set_wf n vis d m0 p W0 HP L) as (m' & E & W' & EM' & EN' & EG & EJ & EA). rewrite HS in E. inversion E; subst m'. clear E.
  rewrite EN in L. destruct (set_wf n vis d m1 p W1 HP L) as (m' & E & W'' & EM'' & EN'' & EG' & EJ' & EA').
  rewrite EG. rewrite (proj2 (proj2 (params n vis am d junk' m1 p H1 HP))), (wf_par n vis d m1 W1), L, Nat.eqb_refl. cbn [negb].
  rewrite E. f_equal. destruct W' as (A1 & A2 & _), W'' as (B1 & B2 & _). destruct m, m'. cbn in *. congruence.
Qed.
Lemma load_other (bytes : Type) (decode : bytes -> option (list cpx)) n vis am d junk m f q :
  construct n vis am d junk = Ok m -> decode f = Some q -> length q <> jn_par m -> load bytes decode m f = Err ValueError.
Proof.
  intros HC HD HL. unfold load. rewrite HD. rewrite (proj2 (proj2 (params n vis am d junk m [] HC (Forall_nil _)))).
  apply Nat.eqb_neq in HL. rewrite HL. reflexivity.
Qed.

(** ** What goes wrong *)
Definition c1 : cpx := (1, 0)%R.
Definition c0 : cpx := (0, 0)%R.
Definition nojunk : nat -> cpx := fun _ => c0.
Lemma h_any z : holds PComplex z.
Proof. intros E. discriminate. Qed.
Lemma h_all l : Forall (holds PComplex) l.
Proof. apply Forall_forall. intros; apply h_any. Qed.
Lemma doc_bad : exists m m' p v, construct 2 false ANone PComplex nojunk = Ok m /\ jset m p = Ok m' /\ jlog_val m' 2 [[c1; c1]] false = Ok ([v], None) /\
  cexp v <> cexp (jastrow_doc 2 (fun i j => if i =? j then c0 else par p 0) (fun _ => c0) (par [c1; c1])).
Proof.
  eexists. eexists. exists [c1]. eexists. split; [reflexivity|]. split; [reflexivity|]. split; [reflexivity|].
  intros E. apply (f_equal modulus) in E. rewrite !amp_mod in E. apply exp_inv in E. revert E.
  cbn. lra.
Qed.
Lemma swap_group : permutation_group 2 [[0; 1]; [1; 0]].
Proof.
  split; [|split].
  - constructor; [apply Permutation_refl|]. constructor; [apply perm_swap|constructor].
  - split; [discriminate|]. split.
    + intros p [<-|[<-|[]]]; [exists [0; 1]|exists [1; 0]]; (split; [cbn; auto|split; reflexivity]).
    + intros p q p' [<-|[<-|[]]] [<-|[<-|[]]] [E1 E2]; unfold times, permuted in *; cbn [map nth] in E1;
      destruct p' as [|a [|b [|c r]]]; try discriminate; cbn in E1, E2; inversion E1; subst; cbn; auto.
  - constructor; [intros [E|[]]; discriminate|]. constructor; [intros []|constructor].
Qed.
Lemma bias_bad : exists m m' p, construct 2 true (ATable [[0; 1]; [1; 0]]) PComplex nojunk = Ok m /\ jset m p = Ok m' /\
  permutation_group 2 [[0; 1]; [1; 0]] /\
  jlog_val m' 2 [permuted (0, 0)%R [1; 0] [c1; c0]] false <> jlog_val m' 2 [[c1; c0]] false.
Proof.
  eexists. eexists. exists [c1; c0; c0]. split; [reflexivity|]. split; [reflexivity|]. split; [exact swap_group|].
  cbn. intros E. inversion E. lra.
Qed.
Lemma out_bad : exists m m' p v b, construct 2 true ANone PComplex nojunk = Ok m /\ jset m p = Ok m' /\ jlog_val m' 2 [[c1; c0]] true = Ok (v, Some b) /\ v <> b.
Proof.
  eexists. eexists. exists [c1; c0; c0]. eexists. eexists. split; [reflexivity|]. split; [reflexivity|]. split; [reflexivity|].
  cbn. intros E. inversion E. lra.
Qed.
Lemma fresh_bad : exists junk junk' m m', construct 2 true ANone PComplex junk = Ok m /\ construct 2 true ANone PComplex junk' = Ok m' /\
  jlog_val m 2 [[c1; c0]] false <> jlog_val m' 2 [[c1; c0]] false.
Proof.
  exists nojunk, (fun _ => c1). eexists. eexists. split; [reflexivity|]. split; [reflexivity|]. cbn. intros E. inversion E. lra.
Qed.
Lemma width_bad : exists m m' p v, construct 3 false ANone PComplex nojunk = Ok m /\ jset m p = Ok m' /\ jlog_val m' 2 [[c1; c1]] false = Ok (v, None).
Proof. eexists. eexists. exists [c1; c1; c1]. eexists. split; [reflexivity|]. split; reflexivity. Qed.
Lemma crash_bad (bytes : Type) (encode : list cpx -> bytes) (decode : bytes -> option (list cpx)) (empty : bytes) old m m1 :
  decode empty = None -> exists f, In f (fst (save bytes encode empty true old m)) /\ load bytes decode m1 f = Err ValueError.
Proof. intros H. exists empty. split; [cbn; auto|]. unfold load. rewrite H. reflexivity. Qed.
