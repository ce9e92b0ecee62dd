(** * Proofs for C121 *)
From Coq Require Import String List Bool Arith Lia Reals Lra.
From Verif Require Import Base BaseFacts TorchM_Model TorchM_Spec.
Import ListNotations.
Open Scope nat_scope.

Definition flat (m : tmodule) : list R := flat_map p_data (trainable m).

Lemma flat_length m : length (flat m) = count m.
Proof.
  unfold flat, count. induction (trainable m) as [|p l IH]; [reflexivity|]. cbn. rewrite app_length. lia.
Qed.

Lemma assign_ok m : forall v, length v = count m ->
  exists m', assign m v = Ok m' /\ flat m' = v /\ same_layout m m' /\ untrained_kept m m'.
Proof.
  induction m as [|p m IH]; intros v L.
  - exists []. destruct v; [|discriminate L]. repeat split; constructor.
  - unfold count, trainable in L. cbn [filter] in L. cbn [assign]. destruct (p_grad p) eqn:G.
    + cbn in L. fold (trainable m) in L. fold (count m) in L.
      assert (length (firstn (length (p_data p)) v) = length (p_data p)) as Lf by (rewrite firstn_length; lia).
      rewrite Lf, Nat.eqb_refl.
      destruct (IH (skipn (length (p_data p)) v)) as (m' & E & F & S & U); [rewrite skipn_length; lia|].
      rewrite E. eexists. split; [reflexivity|]. split; [|split].
      * unfold flat, trainable. cbn. fold (trainable m'). fold (flat m'). rewrite F. apply firstn_skipn.
      * constructor; [|exact S]. cbn. auto.
      * constructor; [|exact U]. intros H. congruence.
    + fold (trainable m) in L. fold (count m) in L.
      destruct (IH v L) as (m' & E & F & S & U). rewrite E. eexists. split; [reflexivity|].
      split; [|split; constructor; auto].
      unfold flat, trainable. cbn [filter]. rewrite G. exact F.
Qed.

Lemma layout_count m m' : same_layout m m' -> count m = count m'.
Proof.
  induction 1 as [|p q m m' (_ & G & L) H IH]; [reflexivity|].
  unfold count, trainable in *. cbn [filter]. rewrite <- G. destruct (p_grad p); cbn [map fold_right]; [rewrite L, IH; reflexivity|exact IH].
Qed.

Lemma set_get t v : t_npar t = count (t_module t) -> length v = t_npar t ->
  exists t', set_parameters t v = Ok t' /\ parameters t' = map (fun z => (fst z, 0%R)) v /\
    same_layout (t_module t) (t_module t') /\ untrained_kept (t_module t) (t_module t') /\
    t_npar t' = count (t_module t').
Proof.
  intros C L. unfold set_parameters. rewrite L, Nat.eqb_refl. cbn [negb].
  destruct (assign_ok (t_module t) (map fst v)) as (m' & E & F & S & U); [rewrite map_length; transitivity (t_npar t); [exact L|exact C]|].
  rewrite E. eexists. split; [reflexivity|]. cbn [t_module t_npar]. split; [|split; [exact S|split; [exact U|]]].
  - unfold parameters. cbn [t_module]. change (flat_map p_data (trainable m')) with (flat m'). rewrite F, map_map. reflexivity.
  - rewrite C. now apply layout_count.
Qed.

Lemma assign_flat m : assign m (flat m) = Ok m.
Proof.
  induction m as [|p m IH]; [reflexivity|]. cbn [assign]. unfold flat, trainable. cbn [filter].
  destruct (p_grad p) eqn:G.
  - cbn [flat_map]. fold (trainable m). fold (flat m).
    rewrite firstn_app, Nat.sub_diag, firstn_all, firstn_O, app_nil_r, Nat.eqb_refl.
    rewrite skipn_app, Nat.sub_diag, skipn_all. cbn [app skipn]. rewrite IH. cbn. rewrite <- G.
    destruct p; reflexivity.
  - fold (trainable m). fold (flat m). now rewrite IH.
Qed.
Lemma get_set t : t_npar t = count (t_module t) -> set_parameters t (parameters t) = Ok t.
Proof.
  intros C. unfold set_parameters, parameters. rewrite map_length. fold (flat (t_module t)).
  rewrite flat_length, C, Nat.eqb_refl. cbn [negb]. rewrite map_map. cbn.
  rewrite map_id, assign_flat. cbn. rewrite <- C. destruct t; reflexivity.
Qed.
Lemma set_wrong t v : length v <> t_npar t -> set_parameters t v = Err ValueError.
Proof. intros H. unfold set_parameters. apply Nat.eqb_neq in H. now rewrite H. Qed.

Lemma load_ok t u : same_layout (t_module t) (t_module u) -> NoDup (map p_name (t_module u)) ->
  t_npar t = t_npar u -> load t (state_dict u) = Ok u.
Proof.
  intros S Nd En. unfold load, state_dict. rewrite map_length.
  assert (length (t_module t) = length (t_module u)) as L by (clear -S; induction S; cbn; lia).
  rewrite L, Nat.eqb_refl. cbn [negb].
  assert (forall m m', same_layout m m' -> (forall q, In q m' -> In q (t_module u)) ->
    sequence (map (fun p =>
       match find (fun e => String.eqb (fst e) (p_name p))
                  (map (fun p => (p_name p, p_data p)) (t_module u)) with
       | Some e => if Nat.eqb (length (snd e)) (length (p_data p))
                   then Ok (mkParam (p_name p) (p_grad p) (snd e)) else Err RuntimeError
       | None => Err RuntimeError
       end) m) = Ok m') as H.
  { clear L S. induction 1 as [|p q m m' (E1 & E2 & E3) H IH]; intros Hi; [reflexivity|].
    assert (find (fun e => String.eqb (fst e) (p_name p))
              (map (fun p => (p_name p, p_data p)) (t_module u)) = Some (p_name q, p_data q)) as F.
    { rewrite E1. specialize (Hi q (or_introl eq_refl)). clear -Nd Hi.
      induction (t_module u) as [|r l IH]; [contradiction|]. cbn in Nd. inversion_clear Nd as [|? ? Nr Nd'].
      cbn. destruct Hi as [->|Hi]; [now rewrite String.eqb_refl|].
      destruct (String.eqb (p_name r) (p_name q)) eqn:E; [|auto].
      apply String.eqb_eq in E. exfalso. apply Nr. rewrite E. now apply in_map. }
    cbn [map sequence]. rewrite F. cbn [fst snd]. rewrite E3, Nat.eqb_refl. cbn [bind].
    rewrite IH by (intros; apply Hi; right; assumption). cbn. rewrite E1, E2. destruct q; reflexivity. }
  rewrite (H _ _ S) by auto. cbn. rewrite En. destruct u; reflexivity.
Qed.

(** ** derivatives *)
Section Der.
Variables dre dim : nat -> nat -> R.

Lemma backpack_same ns np : der_log_backpack dre dim ns np = der_log dre dim ns np.
Proof.
  unfold der_log_backpack, der_log, batch_grad. generalize (seq 0 ns). intros l.
  induction l as [|n l IH]; [reflexivity|]. cbn. rewrite IH. f_equal.
  generalize (seq 0 np). intros ks. induction ks as [|k ks IHk]; [reflexivity|]. cbn. now rewrite IHk.
Qed.

Lemma entry_der ns np n k : n < ns -> k < np -> entry (der_log dre dim ns np) n k = (dre n k, dim n k).
Proof.
  intros Hn Hk. unfold entry, der_log.
  set (row := fun n => map (fun k => (dre n k, dim n k)) (seq 0 np)).
  rewrite (nth_indep _ [] (row 0)) by now rewrite map_length, seq_length.
  rewrite (map_nth row), seq_nth by auto. unfold row. cbn [plus].
  rewrite (nth_indep _ (0, 0)%R (dre n 0, dim n 0)) by now rewrite map_length, seq_length.
  rewrite (map_nth (fun k => (dre n k, dim n k))), seq_nth by auto. reflexivity.
Qed.

Lemma csum_ext n f g : (forall i, i < n -> f i = g i) -> csum n f = csum n g.
Proof. induction n; intros H; [reflexivity|]. cbn. rewrite IHn, (H n) by (intros; apply H || lia; lia). reflexivity. Qed.
Lemma csum_parts n f : csum n f = (rsum n (fun i => fst (f i)), rsum n (fun i => snd (f i))).
Proof. induction n; [reflexivity|]. cbn. rewrite IHn. reflexivity. Qed.
Lemma csum_conj n f : cconj (csum n f) = csum n (fun i => cconj (f i)).
Proof.
  induction n; [unfold cconj; cbn; f_equal; ring|]. cbn. rewrite <- IHn. unfold cconj, cadd. cbn. f_equal. ring.
Qed.
Lemma rsum_ext n f g : (forall i, f i = g i) -> rsum n f = rsum n g.
Proof. intros H. induction n; [reflexivity|]. cbn. now rewrite IHn, H. Qed.

Definition want (ns : nat) (vec : nat -> cpx) (c : bool) (k : nat) : cpx :=
  if c then product dre dim ns vec k else product_conj dre dim ns vec k.

Lemma stored_ok ns np vec c : vjp_stored dre dim ns np vec c = map (want ns vec c) (seq 0 np).
Proof.
  unfold vjp_stored, want.
  assert (forall k, In k (seq 0 np) ->
    csum ns (fun n => cmul (vec n) (cconj (entry (der_log dre dim ns np) n k))) = product dre dim ns vec k) as E.
  { intros k Hk. apply in_seq in Hk. apply csum_ext. intros n Hn. rewrite entry_der by lia.
    unfold cmul, cconj. cbn. f_equal; ring. }
  destruct c; [apply map_ext_in; exact E|]. rewrite map_map. apply map_ext_in. intros k Hk.
  rewrite (E k Hk). unfold product, product_conj. rewrite csum_conj. apply csum_ext. intros n Hn.
  unfold cmul, cconj. cbn. f_equal; ring.
Qed.
Lemma direct_ok ns np vec c g : fst (vjp_direct dre dim ns np vec c g) = map (want ns vec c) (seq 0 np).
Proof.
  unfold vjp_direct, gradient. cbn [fst]. generalize (seq 0 np). intros ks.
  induction ks as [|k ks IH]; [reflexivity|]. cbn [map combine]. rewrite IH. f_equal.
  unfold want, product, product_conj, backward, zero_grad.
  destruct c; rewrite csum_parts; cbv beta zeta; rewrite !Rplus_0_l; (apply (f_equal2 (@cons cpx)); [|reflexivity]);
    apply (f_equal2 (@pair R R)); apply rsum_ext; intros n;
    unfold cmul, cconj; cbn; ring.
Qed.
End Der.

Lemma torch_log_cosh_value x : torch_log_cosh x = (ln (cosh x) + ln 2)%R.
Proof.
  unfold torch_log_cosh, softplus, cosh.
  assert (0 < exp x)%R as P1 by apply exp_pos. assert (0 < exp (- x))%R as P2 by apply exp_pos.
  rewrite <- ln_mult by lra.
  replace ((exp x + exp (- x)) / 2 * 2)%R with (exp x + exp (- x))%R by field.
  replace (exp x + exp (- x))%R with (exp (- x) * (1 + exp (2 * x)))%R.
  - rewrite ln_mult, ln_exp; [reflexivity|lra|]. pose proof (exp_pos (2 * x)). lra.
  - rewrite Rmult_plus_distr_l, Rmult_1_r, <- exp_plus. replace (- x + 2 * x)%R with x by ring. ring.
Qed.
Lemma torch_log_cosh_off : exists x, torch_log_cosh x <> ln (cosh x).
Proof.
  exists 0%R. rewrite torch_log_cosh_value. pose proof (ln_lt_2) as H. intros E.
  assert (0 < ln 2)%R by (apply Rlt_trans with (/ 2)%R; [lra|exact H]). lra.
Qed.

Lemma par_length t : length (parameters t) = count (t_module t).
Proof. unfold parameters. rewrite map_length. apply flat_length. Qed.
Lemma made m : t_npar (new m) = length (parameters (new m)).
Proof. rewrite par_length. reflexivity. Qed.
Lemma set_get' t v : t_npar t = length (parameters t) -> length v = t_npar t ->
  exists t', set_parameters t v = Ok t' /\ parameters t' = map (fun z => (fst z, 0%R)) v /\
    same_layout (t_module t) (t_module t') /\ untrained_kept (t_module t) (t_module t') /\
    t_npar t' = t_npar t /\ t_npar t' = length (parameters t').
Proof.
  intros C L. rewrite par_length in C. destruct (set_get t v C L) as (t' & E & P & S & U & N).
  exists t'. repeat split; auto; [|now rewrite par_length].
  rewrite N, C. symmetry. now apply layout_count.
Qed.
Lemma get_set' t : t_npar t = length (parameters t) -> set_parameters t (parameters t) = Ok t.
Proof. rewrite par_length. apply get_set. Qed.
Lemma missing_name t d p : In p (t_module t) -> ~ In (p_name p) (map fst d) ->
  load t d = Err RuntimeError.
Proof.
  intros Hi Hn. unfold load. destruct (Nat.eqb _ _); [cbn [negb]|reflexivity].
  assert (forall m, In p m ->
    sequence (map (fun p => match find (fun e => String.eqb (fst e) (p_name p)) d with
       | Some e => if Nat.eqb (length (snd e)) (length (p_data p))
                   then Ok (mkParam (p_name p) (p_grad p) (snd e)) else Err RuntimeError
       | None => Err RuntimeError end) m) = Err RuntimeError) as H.
  { assert (find (fun e => String.eqb (fst e) (p_name p)) d = None) as F.
    { destruct (find _ d) as [e|] eqn:F; [|reflexivity]. apply find_some in F. destruct F as [F1 F2].
      apply String.eqb_eq in F2. exfalso. apply Hn. rewrite <- F2. now apply in_map. }
    induction m as [|q m IH]; intros Hq; [contradiction|]. cbn [map sequence]. destruct Hq as [->|Hq].
    - now rewrite F.
    - rewrite (IH Hq). destruct (find (fun e => String.eqb (fst e) (p_name q)) d) as [e|]; [|reflexivity].
      destruct (Nat.eqb _ _); reflexivity. }
  now rewrite (H _ Hi).
Qed.
Lemma same_both dre dim ns np vec c g :
  fst (vjp_direct dre dim ns np vec c g) = vjp_stored dre dim ns np vec c.
Proof. now rewrite direct_ok, stored_ok. Qed.
Lemma left_clear dre dim ns np vec c g k : snd (vjp_direct dre dim ns np vec c g) k = 0%R.
Proof. reflexivity. Qed.
Lemma want_true dre dim ns np vec : vjp_stored dre dim ns np vec true = map (product dre dim ns vec) (seq 0 np).
Proof. now rewrite stored_ok. Qed.
Lemma want_false dre dim ns np vec : vjp_stored dre dim ns np vec false = map (product_conj dre dim ns vec) (seq 0 np).
Proof. now rewrite stored_ok. Qed.
Lemma der_entries dre dim ns np n k : n < ns -> k < np ->
  nth_error (der_log dre dim ns np) n = Some (map (fun k => (dre n k, dim n k)) (seq 0 np)) /\
  entry (der_log dre dim ns np) n k = (dre n k, dim n k).
Proof.
  intros Hn Hk. split; [|now apply entry_der]. unfold der_log.
  apply (map_nth_error (fun n => map (fun k => (dre n k, dim n k)) (seq 0 np))).
  rewrite (nth_error_nth' _ 0) by now rewrite seq_length. now rewrite seq_nth.
Qed.
