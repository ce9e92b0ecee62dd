(** * Proofs: the legacy Metropolis samplers *)
From Coq Require Import List ZArith Bool Reals Permutation Sorted Lra Lia.
From Verif Require Import Base BaseFacts Hilbert_Model HilbertOps_Spec HilbertOps_Model Balance_Model Balance_Spec
  Balance_Proofs Rules_Model Rules_Spec Rules_Proofs Hilbert_Proofs HilbertOps_Proofs LegSamp_Model LegSamp_Spec.
Import ListNotations.
Open Scope R_scope.

(** ** Balance *)
Lemma weight_exp {X} (psi : X -> R) p x : weight psi p x = exp (p * psi x).
Proof. unfold weight, Rpower. rewrite ln_exp. reflexivity. Qed.

Lemma target_one {X} (f : X -> R) x : target f 1 x = exp (f x).
Proof. unfold target. apply powerRZ_1. Qed.

Section Invariance.
  Context {X : Type} (eqd : forall x y : X, {x = y} + {x <> y}) (space : list X).
  Hypothesis Hnd : NoDup space.
  Variable psi : X -> R.
  Variable p : R.
  Variable T a : X -> X -> R.
  Hypothesis HT : proposal space T.

  (** Symmetric proposals without correction. *)
  Lemma symmetric_invariant c :
    (forall x y, In x space -> In y space -> T x y = T y x) ->
    (forall x y, In x space -> In y space -> 0 < T x y -> c x y = 0) ->
    (forall x y, In x space -> In y space -> probability_of (leg_test psi p c x y) (a x y)) ->
    forall z, In z space ->
      (forall x, In x space -> weight psi p x * kernel eqd space T a x z = weight psi p z * kernel eqd space T a z x) /\
      forall n, pushes space (kernel eqd space T a) n (weight psi p) z = weight psi p z.
  Proof.
    intros Hs Hc Ha.
    set (a' := fun x y => Rmin 1 (exp (p * psi y - p * psi x))).
    assert (Ea : forall x y, In x space -> In y space -> T x y * a x y = T x y * a' x y).
    { intros x y Hx Hy. destruct HT as [H0 _]. specialize (H0 x y Hx Hy).
      destruct (Rle_lt_or_eq_dec 0 (T x y) H0) as [Hp|E]; [|rewrite <- E; ring].
      f_equal. pose proof (Ha x y Hx Hy) as Hpr. unfold leg_test in Hpr. rewrite (Hc x y Hx Hy Hp) in Hpr.
      apply prob_unique in Hpr; [|left; apply exp_pos]. rewrite Hpr. unfold a'. do 2 f_equal. ring. }
    assert (Ha' : forall x y, In x space -> In y space ->
      probability_of (accepts (fun z => p * psi z) 1 (fun _ _ => None) x y) (a' x y)).
    { intros x y Hx Hy. unfold accepts, log_prob, a'.
      replace (IZR 1 * (p * psi y) - IZR 1 * (p * psi x)) with (p * psi y - p * psi x) by (cbn; ring).
      apply prob_exists. left. apply exp_pos. }
    assert (Hcor : corrected space T (fun _ _ => None)) by (intros x y Hx Hy _; apply Hs; assumption).
    assert (Ek : forall x z, In x space -> kernel eqd space T a x z = kernel eqd space T a' x z).
    { intros x z Hx. unfold kernel. apply rsum_ext. intros y Hy. pose proof (Ea x y Hx Hy) as E.
      rewrite !Rmult_plus_distr_l, <- !Rmult_assoc, E, !Rmult_minus_distr_l, E. reflexivity. }
    assert (Ew : forall x, weight psi p x = target (fun z => p * psi z) 1 x)
      by (intros x; rewrite weight_exp, target_one; reflexivity).
    intros z Hz. split.
    - intros x Hx. rewrite !Ew, !Ek by assumption.
      apply (balance eqd space Hnd (fun z => p * psi z) 1 (fun _ _ => None) T a'); assumption.
    - intros n. rewrite (pushes_ext eqd space T a n _ (target (fun z => p * psi z) 1)); [|intros; apply Ew|exact Hz].
      rewrite Ew. rewrite <- (pushes_target eqd space Hnd (fun z => p * psi z) 1 (fun _ _ => None) T a' HT Hcor Ha' n z Hz).
      generalize (target (fun z => p * psi z) 1) as d.
      assert (G : forall m d e, (forall x, In x space -> d x = e x) -> forall z, In z space ->
        pushes space (kernel eqd space T a) m d z = pushes space (kernel eqd space T a') m e z).
      { clear z Hz. induction m as [|m IH]; intros d e Hde z Hz; [apply Hde, Hz|]. cbn [pushes].
        apply IH; [|exact Hz]. intros x Hx. unfold push. apply rsum_ext. intros y Hy.
        rewrite Hde, Ek by assumption. reflexivity. }
      intros d. apply G; auto.
  Qed.
End Invariance.

(** ** Local kernel *)
Lemma leg_local_move_np ls i r x : leg_local_move ls i r x = np_local_move ls i r x.
Proof. reflexivity. Qed.

Lemma leg_local_T_np ls n x y : leg_local_T ls n x y = np_local_T (np_sort ls) n x y.
Proof. unfold leg_local_T, np_local_T. rewrite np_sort_length. reflexivity. Qed.

Lemma sorted_increasing l : StronglySorted Z.lt l -> increasing l.
Proof.
  induction l as [|x l IH]; [intros; exact I|]. intros H. inversion H as [|? ? H1 H2]; subst.
  destruct l as [|y l]; [exact I|]. split; [|apply IH; exact H1]. inversion H2; subst; assumption.
Qed.

Lemma local_cfg_valid ls n x : local_cfg ls n x <-> site_valid (Custom (Some (np_sort ls)) n None) x.
Proof.
  unfold local_cfg, site_valid. cbn [n_sites]. split.
  - intros [Hl Hv]. split; [exact Hl|]. intros i g H. apply at_site_homog in H; [|exact I].
    destruct H as [-> Hi]. cbn in Hi |- *. apply np_sort_in. rewrite Forall_forall in Hv. apply Hv. apply nth_In. lia.
  - intros [Hl Hv]. split; [exact Hl|]. apply Forall_forall. intros v Hin.
    destruct (In_nth _ _ 0%Z Hin) as (i & Hi & <-).
    apply np_sort_in. apply (Hv i (Custom (Some (np_sort ls)) n None)). constructor; [exact I|cbn; lia].
Qed.

Lemma local_sym ls n x y : NoDup ls -> local_cfg ls n x -> local_cfg ls n y ->
  leg_local_T ls n x y = leg_local_T ls n y x.
Proof.
  intros Hnd Hx Hy. rewrite !leg_local_T_np. apply np_local_T_sym.
  - apply sorted_increasing, np_sort_strict, Hnd.
  - apply local_cfg_valid, Hx.
  - apply local_cfg_valid, Hy.
Qed.

Lemma local_prop ls n space : NoDup ls -> (2 <= length ls)%nat -> (0 < n)%nat -> NoDup space ->
  (forall x, In x space <-> local_cfg ls n x) -> proposal space (leg_local_T ls n).
Proof.
  intros Hnd H2 Hn Hs Hsp. set (h := Custom (Some (np_sort ls)) n None).
  assert (P : proposal space (local_T h (fun _ => h))).
  { apply local_proposal; auto.
    - constructor. apply sorted_increasing, np_sort_strict, Hnd.
    - intros i Hi. split; [constructor; [exact I|exact Hi]|]. cbn. rewrite np_sort_length. lia.
    - intros x. rewrite Hsp. apply local_cfg_valid. }
  destruct P as [P1 P2]. split.
  - intros x y Hx Hy. rewrite leg_local_T_np, np_local_T_eq by (apply Hsp in Hx; apply Hx). apply P1; assumption.
  - intros x Hx. rewrite <- (P2 x Hx). apply rsum_ext. intros y Hy.
    rewrite leg_local_T_np. apply np_local_T_eq. apply Hsp in Hx. apply Hx.
Qed.

Lemma local_main ls n space psi p a :
  NoDup ls -> (2 <= length ls)%nat -> (0 < n)%nat -> NoDup space ->
  (forall x, In x space <-> local_cfg ls n x) ->
  (forall x y, In x space -> In y space -> probability_of (leg_test psi p (fun _ _ => 0) x y) (a x y)) ->
  forall z, In z space ->
    (forall x, In x space -> weight psi p x * kernel cfg_eqd space (leg_local_T ls n) a x z
                           = weight psi p z * kernel cfg_eqd space (leg_local_T ls n) a z x) /\
    forall k, pushes space (kernel cfg_eqd space (leg_local_T ls n) a) k (weight psi p) z = weight psi p z.
Proof.
  intros H1 H2 H3 H4 H5 H6. apply (symmetric_invariant cfg_eqd space H4 psi p (leg_local_T ls n) a) with (c := fun _ _ => 0); auto.
  - apply local_prop; assumption.
  - intros x y Hx Hy. apply local_sym; [assumption|apply H5, Hx|apply H5, Hy].
Qed.

(** A proposed configuration changes one site to another of its local values. *)
Lemma local_move_main ls n i r x : NoDup ls -> local_cfg ls n x -> (i < n)%nat -> (S r < length ls)%nat ->
  local_cfg ls n (leg_local_move (leg_local_states ls) i r x) /\
  exists v, leg_local_move (leg_local_states ls) i r x = upd x i v /\ In v ls /\ v <> nth i x 0%Z.
Proof.
  intros Hnd Hx Hi Hr. set (h := Custom (Some (np_sort ls)) n None).
  assert (HF : flippable h) by (constructor; apply sorted_increasing, np_sort_strict, Hnd).
  assert (HA : at_site h i h) by (constructor; [exact I|exact Hi]).
  assert (E : leg_local_move (leg_local_states ls) i r x = local_move h i (Z.of_nat r) x).
  { unfold leg_local_states. rewrite leg_local_move_np. apply np_local_move_flip; [apply Hx|exact Hi|].
    rewrite np_sort_length. exact Hr. }
  assert (Hk : (0 <= Z.of_nat r < n_local_values h - 1)%Z) by (cbn; rewrite np_sort_length; lia).
  rewrite E. split.
  - apply local_cfg_valid. apply (local_move_site_valid h i h); auto. apply local_cfg_valid, Hx.
  - destruct (local_move_valid h i h HF HA x (Z.of_nat r)) as (v & E1 & E2 & E3); [apply local_cfg_valid, Hx|exact Hk|].
    exists v. split; [exact E1|]. split; [|exact E3]. cbn in E2. rewrite ?np_sort_in in E2. exact E2.
Qed.

(** ** Exchange kernel *)
Definition zc (c : nat * nat) : Z * Z := (Z.of_nat (fst c), Z.of_nat (snd c)).

Lemma leg_exchange_move_swap c x : leg_exchange_move c x = swap (fst c) (snd c) x.
Proof. destruct c. reflexivity. Qed.


Lemma on_sites_zc n cs : on_sites_nat n cs -> on_sites n (map zc cs).
Proof.
  unfold on_sites_nat, on_sites. rewrite !Forall_forall. intros H c Hc. apply in_map_iff in Hc.
  destruct Hc as (d & <- & Hd). specialize (H d Hd). cbn. lia.
Qed.

Lemma leg_exchange_T_zc n cs x y : on_sites_nat n cs -> length x = n ->
  leg_exchange_T cs x y = exchange_T (map zc cs) x y.
Proof.
  intros Hon Hl. unfold leg_exchange_T, exchange_T, uniform_prob. rewrite map_length, map_map. do 3 f_equal.
  apply map_ext_in. intros c Hc. unfold on_sites_nat in Hon. rewrite Forall_forall in Hon. specialize (Hon c Hc).
  rewrite leg_exchange_move_swap, exchange_swap by (cbn; lia). cbn. rewrite !Nat2Z.id. reflexivity.
Qed.

Lemma exchange_main n cs space psi p a :
  NoDup space -> cs <> [] -> on_sites_nat n cs ->
  (forall x, In x space -> length x = n /\ forall y, Permutation x y -> In y space) ->
  (forall x y, In x space -> In y space -> probability_of (leg_test psi p (fun _ _ => 0) x y) (a x y)) ->
  forall z, In z space ->
    (forall x, In x space -> weight psi p x * kernel cfg_eqd space (leg_exchange_T cs) a x z
                           = weight psi p z * kernel cfg_eqd space (leg_exchange_T cs) a z x) /\
    forall k, pushes space (kernel cfg_eqd space (leg_exchange_T cs) a) k (weight psi p) z = weight psi p z.
Proof.
  intros Hnd Hne Hon Hsp Ha.
  assert (Hon' := on_sites_zc n cs Hon).
  apply (symmetric_invariant cfg_eqd space Hnd psi p (leg_exchange_T cs) a) with (c := fun _ _ => 0); auto.
  - destruct (exchange_proposal n (map zc cs) space Hnd) as [P1 P2]; auto.
    { destruct cs; [congruence|discriminate]. }
    split.
    + intros x y Hx Hy. rewrite (leg_exchange_T_zc n) by (assumption || apply (Hsp x Hx)). apply P1; assumption.
    + intros x Hx. rewrite <- (P2 x Hx). apply rsum_ext. intros y Hy. apply (leg_exchange_T_zc n); [assumption|apply (Hsp x Hx)].
  - intros x y Hx Hy. rewrite !(leg_exchange_T_zc n) by (assumption || apply (Hsp x Hx) || apply (Hsp y Hy)).
    apply (exchange_T_sym n); [assumption|apply (Hsp x Hx)|apply (Hsp y Hy)].
Qed.

Lemma leg_clusters_in n dist d_max i j :
  In (i, j) (leg_clusters n dist d_max) <-> (i < j < n)%nat /\ exists d, dist i j = Some d /\ (d <= d_max)%nat.
Proof.
  unfold leg_clusters. rewrite in_flat_map. split.
  - intros (a & Ha & H). apply in_flat_map in H. destruct H as (b & Hb & H). apply in_seq in Ha, Hb.
    destruct (dist a b) as [d|] eqn:E; [|destruct H]. destruct (Nat.leb_spec d d_max) as [Hd|Hd]; [|destruct H].
    destruct H as [H|[]]. injection H as <- <-. split; [lia|]. exists d. auto.
  - intros (Hij & d & E & Hd). exists i. split; [apply in_seq; lia|]. apply in_flat_map. exists j.
    split; [apply in_seq; lia|]. rewrite E. destruct (Nat.leb_spec d d_max); [left; reflexivity|lia].
Qed.

Lemma exchange_move_main n c x : (fst c < n)%nat -> (snd c < n)%nat -> length x = n ->
  Permutation x (leg_exchange_move c x) /\ leg_exchange_move c (leg_exchange_move c x) = x.
Proof.
  intros H1 H2 H3. rewrite !leg_exchange_move_swap. split; [apply swap_perm; lia|apply swap_swap; lia].
Qed.

(** ** Hamiltonian kernel *)
Lemma leg_choose_is states : forall sections rnd low,
  leg_choose low states sections rnd = choose low states sections rnd.
Proof.
  induction sections as [|s l IH]; intros [|u rnd] low; try reflexivity. cbn [leg_choose choose].
  unfold leg_randint. rewrite (Nat.add_comm (floor_draw _ _)).
  destruct (nth_error states (low + floor_draw u (s - low))); [|reflexivity]. rewrite IH. reflexivity.
Qed.

Lemma leg_ham_is conn xs rnd : leg_ham_transition conn xs rnd = hamiltonian_transition conn xs rnd.
Proof.
  unfold leg_ham_transition, hamiltonian_transition. destruct (conn_flattened conn xs) as [vp sec].
  rewrite leg_choose_is. destruct (choose 0 vp sec rnd) as [r|e]; [|reflexivity]. cbn [bind].
  do 4 f_equal. unfold conn_flattened. cbn [snd]. rewrite n_conn_sections. rewrite map_map. reflexivity.
Qed.


Lemma ham_main conn space psi p a :
  NoDup space ->
  (forall x, In x space -> conn x <> [] /\ forall y, In y (conn x) -> In y space) ->
  (forall x y, In x space -> In y space -> count_occ cfg_eqd (conn x) y = count_occ cfg_eqd (conn y) x) ->
  (forall x y, In x space -> In y space -> probability_of (leg_test psi p (ham_corr conn) x y) (a x y)) ->
  forall n z, In z space ->
    pushes space (kernel cfg_eqd space (ham_T conn) a) n
      (fun x => weight psi p x * Rpower (n_of conn x) (1 - p)) z
    = weight psi p z * Rpower (n_of conn z) (1 - p).
Proof.
  intros Hnd Hc Hs Ha n z Hz.
  set (f := fun x => p * psi x + (1 - p) * ln (n_of conn x)).
  assert (E : forall x, weight psi p x * Rpower (n_of conn x) (1 - p) = target f 1 x).
  { intros x. rewrite weight_exp, target_one. unfold Rpower, f. rewrite exp_plus. reflexivity. }
  rewrite (pushes_ext cfg_eqd space (ham_T conn) a n _ (target f 1)); [|intros; apply E|exact Hz].
  rewrite E. refine (pushes_target cfg_eqd space Hnd f 1 (fun x y => Some (Fin (ham_corr conn x y))) _ a
      (uniform_proposal conn (fun _ y => y) space Hnd Hc) (ham_corrected space conn Hs) _ n z Hz).
  intros x y Hx Hy. destruct (Ha x y Hx Hy) as [B1 B2]. split; [exact B1|]. intros u Hu.
  rewrite <- (B2 u Hu). unfold accepts, leg_test, exp_ext, log_prob, f, ham_corr.
  replace (IZR 1 * (p * psi y + (1 - p) * ln (n_of conn y)) - IZR 1 * (p * psi x + (1 - p) * ln (n_of conn x))
           + (ln (n_of conn x) - ln (n_of conn y)))
    with (p * (psi y - psi x + (ln (n_of conn x) - ln (n_of conn y)))) by (cbn; ring).
  reflexivity.
Qed.
