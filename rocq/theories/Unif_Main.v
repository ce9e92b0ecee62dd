(** * Proofs: random states of the Hilbert spaces *)
From Coq Require Import ZArith QArith List Bool Reals Permutation Lra Lia.
From Verif Require Import Base BaseFacts Hilbert_Model Hilbert_Spec Hilbert_Proofs HilbertOps_Model HilbertOps_Spec HilbertOps_Proofs Balance_Spec Balance_Proofs Rules_Spec Unif_Model Unif_Spec Unif_Proofs Unif_Fill.
Import ListNotations.
Open Scope R_scope.

Definition both (p : prog (list Z)) (h : hilbert) (u : Prop) : Prop := good p (config h) /\ (u -> flat p (config h)).

Lemma iid_both n g N h u : (0 < n)%nat -> (forall i j, (i < n)%nat -> (j < n)%nat -> g i = g j -> i = j) ->
  (forall x, config h x <-> length x = N /\ Forall (values n g) x) -> both (iid n g N) h u.
Proof.
  intros Hn Hg Hc. destruct (iid_good n g N Hn Hg) as [A B]. split.
  - eapply good_ext; [|exact A]. intros x. symmetry. apply Hc.
  - intros _. eapply flat_ext; [|exact B]. intros x. symmetry. apply Hc.
Qed.

Lemma fill_good step full n sites out P : (forall r, exists s, fill_loop step full n r sites out = Ok s /\ P s) ->
  (forall s, P s -> exists r, fill_loop step full n r sites out = Ok s) -> good (fill_prog step full n sites out) P.
Proof.
  intros H1 H2. split; [apply fill_all, H1|]. intros x Hx. destruct (H2 x Hx) as [r Hr]. apply (fill_pos step full n r), Hr.
Qed.

Lemma iff_Forall (N : nat) (P Q : Z -> Prop) (x : list Z) : (forall z, P z <-> Q z) ->
  (length x = N /\ (forall z, In z x -> P z) <-> length x = N /\ Forall Q x).
Proof. intros E. rewrite Forall_forall. firstorder. Qed.

Lemma fock_free_both m N u : (0 <= m)%Z -> both (iid (Z.to_nat (m + 1)) Z.of_nat N) (Fock m true N None) u.
Proof.
  intros Hm. apply iid_both; [lia|intros; lia|]. intros x. rewrite config_Fock_iff.
  rewrite <- (iff_Forall N (fun z => 0 <= z <= m)%Z).
  - split; [intros (A & B & _); auto|intros (A & B); repeat split; auto; try (apply B; assumption); discriminate].
  - intros z. unfold values. split; [intros Hz; exists (Z.to_nat z); lia|intros (i & Hi & <-); lia].
Qed.

Lemma spin_free_both s2 N u (g : nat -> Z) : (forall k, g k = - Z.of_nat s2 + 2 * Z.of_nat k)%Z ->
  both (iid (s2 + 1) g N) (Spin s2 N None) u.
Proof.
  intros Hg. apply iid_both; [lia|intros i j _ _; rewrite !Hg; lia|]. intros x. rewrite config_Spin_iff.
  rewrite <- (iff_Forall N (fun z => exists k, 0 <= k <= Z.of_nat s2 /\ z = - Z.of_nat s2 + 2 * k)%Z).
  - split; [intros (A & B & _); auto|intros (A & B); split; [auto|split; [auto|discriminate]]].
  - intros z. unfold values. split.
    + intros (k & Hk & ->). exists (Z.to_nat k). rewrite Hg. lia.
    + intros (i & Hi & <-). exists (Z.of_nat i). rewrite Hg. lia.
Qed.

Lemma qubit_both N u (g : nat -> Z) : g O = 0%Z -> g 1%nat = 1%Z -> both (iid 2 g N) (Qubit N) u.
Proof.
  intros G0 G1.
  assert (V : forall z, (z = 0 \/ z = 1)%Z <-> values 2 g z).
  { intros z. unfold values. split; [intros [->| ->]; [exists O|exists 1%nat]; auto|].
    intros (i & Hi & <-). destruct i as [|[|i]]; [auto|auto|lia]. }
  apply iid_both; [lia| |intros x; rewrite config_Qubit_iff; apply iff_Forall, V].
  intros i j Hi Hj. destruct i as [|[|i]], j as [|[|j]]; try lia; rewrite ?G0, ?G1; discriminate.
Qed.

Lemma custom_both ls N u : NoDup ls -> ls <> [] -> both (iid (length ls) (fun k => nth k ls 0%Z) N) (Custom (Some ls) N None) u.
Proof.
  intros Hn Hne. apply iid_both.
  - destruct ls; [congruence|cbn; lia].
  - intros i j Hi Hj E. apply (proj1 (NoDup_nth ls 0%Z) Hn); assumption.
  - intros x. rewrite config_Custom_iff. rewrite <- (iff_Forall N (fun z => In z ls)).
    + split; [intros (A & B & _); auto|intros (A & B); split; [auto|split; [auto|discriminate]]].
    + intros z. unfold values. split; [intros Hz; destruct (In_nth _ _ 0%Z Hz) as (i & Hi & E); eauto|intros (i & Hi & <-); apply nth_In, Hi].
Qed.

Lemma fock_fill_both n_max N p id h : mk_Fock n_max N (Some p) id = Ok h -> (0 < N)%nat ->
  exists m, h = Fock m true N (Some (p, id)) /\ both (fock_fill m N p) h (two_valued h).
Proof.
  intros E HN. destruct (fock_random_ok _ _ _ _ _ E HN) as (m & -> & A & B). exists m. split; [reflexivity|].
  assert (G : good (fock_fill m N p) (config (Fock m true N (Some (p, id))))) by (apply fill_good; assumption).
  split; [exact G|]. cbn [two_valued]. intros ->. unfold fock_fill in *. apply (fill_flat 0 1); [lia|reflexivity| |exact G].
  intros x Hx. apply config_Fock_iff in Hx. destruct Hx as (L & V & _). split; [exact L|]. intros z Hz. specialize (V z Hz). lia.
Qed.

Lemma spin_fill_both s2 N sz id h m : mk_Spin s2 N (Some sz) id = Ok h -> (2 * sz == inject_Z m)%Q ->
  both (spin_fill s2 N sz) h (two_valued h).
Proof.
  intros E Em. destruct (mk_Spin_constrained _ _ _ _ _ E) as [Eh _]. destruct (spin_random_ok _ _ _ _ _ _ E Em) as [A B].
  assert (G : good (spin_fill s2 N sz) (config h)) by (apply fill_good; assumption).
  split; [exact G|]. subst h. cbn [two_valued]. intros ->. unfold spin_fill in *. apply (fill_flat (- Z.of_nat 1) 2); [lia|reflexivity| |exact G].
  intros x Hx. apply config_Spin_iff in Hx. destruct Hx as (L & V & _). split; [exact L|]. intros z Hz. destruct (V z Hz) as (k & Hk & ->). lia.
Qed.

Lemma spin_half_both N sz id h m u : mk_Spin 1 N (Some sz) id = Ok h -> (2 * sz == inject_Z m)%Q ->
  both (shuffle (length (spin_half_unshuffled N sz)) (spin_half_unshuffled N sz)) h u.
Proof.
  intros E Em. pose proof (spin_half_random_ok _ _ _ _ _ E Em) as C.
  destruct (shuffle_good 1 (-1) (spin_half_unshuffled N sz)) as [A B].
  - lia.
  - unfold spin_half_unshuffled. intros z Hz. apply in_app_iff in Hz. destruct Hz as [Hz|Hz]; apply repeat_spec in Hz; auto.
  - split; [eapply good_ext; [|exact A]|intros _; eapply flat_ext; [|exact B]]; intros x; symmetry; apply C.
Qed.

Lemma config_Doubled_iff h x : config (Doubled h) x <-> exists a b, x = a ++ b /\ config h a /\ config h b.
Proof.
  split.
  - intros C. inversion C; subst. eauto.
  - intros (a & b & -> & A & B). constructor; assumption.
Qed.
Lemma config_Tensor_nil_iff x : config (Tensor []) x <-> x = [].
Proof. split; [intros C; inversion C; reflexivity|intros ->; constructor]. Qed.

Lemma both_cat p q h h1 h2 (u u1 u2 : Prop) : (u -> u1 /\ u2) ->
  (forall x, config h x <-> exists a b, x = a ++ b /\ config h1 a /\ config h2 b) ->
  both p h1 u1 -> both q h2 u2 -> both (pcat p q) h u.
Proof.
  intros Hu Hc [A1 B1] [A2 B2]. pose proof (fun x => config_length h1 x) as HL. split.
  - eapply good_ext; [|apply (good_cat p q _ _ _ HL A1 A2)]. intros x. symmetry. apply Hc.
  - intros U. destruct (Hu U) as [U1 U2]. eapply flat_ext; [|apply (flat_cat p q _ _ _ HL (proj1 A1) (B1 U1) (B2 U2))]. intros x. symmetry. apply Hc.
Qed.

Lemma nil_both u : both (Ret []) (Tensor []) u.
Proof.
  assert (P0 : prob (Ret []) [] = 1) by (unfold prob; cbn; destruct (cfg_eqd [] []); congruence).
  split; [split|].
  - cbn. constructor.
  - intros x Hx. apply config_Tensor_nil_iff in Hx. subst x. rewrite P0. lra.
  - intros _. exists 1. intros x Hx. apply config_Tensor_nil_iff in Hx. subst x. exact P0.
Qed.

Lemma random_both h : drawable h -> both (random_state h) h (two_valued h).
Proof.
  induction h as [m fin N np|s2 N t|N|ls N c|l IH|h IH] using hilbert_nested_ind; intros D.
  - inversion D as [m' N' Hm|n_max N' p id h' E HN| | |  | | |]; subst.
    + apply fock_free_both, Hm.
    + destruct (fock_fill_both _ _ _ _ _ E HN) as (m' & Eh & B). injection Eh as -> -> -> ->. exact B.
    + destruct (mk_Spin_constrained _ _ _ _ _ H) as [Eh _]. discriminate Eh.
  - inversion D as [|n_max N' p id h' E HN|s2' N'|s2' N' sz id h' m E Em| | | |]; subst.
    + destruct (fock_random_ok _ _ _ _ _ E HN) as (m' & Eh & _). discriminate Eh.
    + apply spin_free_both. intros k. lia.
    + destruct (mk_Spin_constrained _ _ _ _ _ E) as [Eh _]. injection Eh as -> -> ->. cbn [random_state].
      destruct (Nat.eqb_spec s2' 1) as [->|]; cbv zeta; [eapply spin_half_both; eassumption|eapply spin_fill_both; eassumption].
  - apply qubit_both; reflexivity.
  - inversion D as [|n_max N' p id h' E HN| |s2' N' sz id h' m E Em| |ls' N' Hn Hne| |]; subst.
    + destruct (fock_random_ok _ _ _ _ _ E HN) as (m' & Eh & _). discriminate Eh.
    + destruct (mk_Spin_constrained _ _ _ _ _ E) as [Eh _]. discriminate Eh.
    + apply custom_both; assumption.
  - assert (DL : Forall drawable l).
    { inversion D as [|n_max N' p id h' E HN| |s2' N' sz id h' m E Em| | | |]; subst.
      - destruct (fock_random_ok _ _ _ _ _ E HN) as (m' & Eh & _). discriminate Eh.
      - destruct (mk_Spin_constrained _ _ _ _ _ E) as [Eh _]. discriminate Eh.
      - assumption. }
    clear D. induction l as [|h l IHl]; [apply nil_both|].
    inversion IH as [|? ? IH1 IH2]; subst. inversion DL as [|? ? D1 D2]; subst.
    apply (both_cat (random_state h) (random_state (Tensor l)) (Tensor (h :: l)) h (Tensor l) _ (two_valued h) (two_valued (Tensor l))).
    + intros U. exact U.
    + intros x. apply config_Tensor_cons_iff.
    + apply IH1, D1.
    + apply IHl; assumption.
  - assert (D1 : drawable h).
    { inversion D as [|n_max N' p id h' E HN| |s2' N' sz id h' m E Em| | | |]; subst.
      - destruct (fock_random_ok _ _ _ _ _ E HN) as (m' & Eh & _). discriminate Eh.
      - destruct (mk_Spin_constrained _ _ _ _ _ E) as [Eh _]. discriminate Eh.
      - assumption. }
    apply (both_cat (random_state h) (random_state h) (Doubled h) h h _ (two_valued h) (two_valued h));
      [auto|apply config_Doubled_iff|apply IH, D1|apply IH, D1].
Qed.

Lemma legacy_both h : drawable h -> legacy_ok h -> both (random_state_legacy h) h (two_valued h).
Proof.
  induction h as [m fin N np|s2 N t|N|ls N c|l IH|h IH] using hilbert_nested_ind; intros D K; cbn [legacy_ok] in K; try contradiction.
  - inversion D as [m' N' Hm|n_max N' p id h' E HN| | s2' N' sz id h' m' E Em|  | | |]; subst.
    + contradiction.
    + destruct (fock_fill_both _ _ _ _ _ E HN) as (m' & Eh & B). injection Eh as -> -> -> ->. exact B.
    + destruct (mk_Spin_constrained _ _ _ _ _ E) as [Eh _]. discriminate Eh.
  - inversion D as [|n_max N' p id h' E HN|s2' N'|s2' N' sz id h' m E Em| | | |]; subst.
    + destruct (fock_random_ok _ _ _ _ _ E HN) as (m' & Eh & _). discriminate Eh.
    + apply spin_free_both. reflexivity.
    + destruct (mk_Spin_constrained _ _ _ _ _ E) as [Eh _]. injection Eh as -> -> ->. eapply spin_fill_both; eassumption.
  - apply qubit_both; reflexivity.
  - inversion D as [|n_max N' p id h' E HN| |s2' N' sz id h' m E Em| |ls' N' Hn Hne| |]; subst.
    + destruct (fock_random_ok _ _ _ _ _ E HN) as (m' & Eh & _). discriminate Eh.
    + destruct (mk_Spin_constrained _ _ _ _ _ E) as [Eh _]. discriminate Eh.
    + apply custom_both; assumption.
  - assert (D1 : drawable h).
    { inversion D as [|n_max N' p id h' E HN| |s2' N' sz id h' m E Em| | | |]; subst.
      - destruct (fock_random_ok _ _ _ _ _ E HN) as (m' & Eh & _). discriminate Eh.
      - destruct (mk_Spin_constrained _ _ _ _ _ E) as [Eh _]. discriminate Eh.
      - assumption. }
    apply (both_cat (random_state_legacy h) (random_state_legacy h) (Doubled h) h h _ (two_valued h) (two_valued h));
      [auto|apply config_Doubled_iff|apply IH; assumption|apply IH; assumption].
Qed.

Lemma support_thm h : drawable h -> supported_on (random_state h) (config h).
Proof. intros D. apply good_supported, random_both, D. Qed.
Lemma uniform_thm h : drawable h -> two_valued h -> uniform_on (random_state h) (config h).
Proof. intros D T. destruct (random_both h D) as [A B]. apply good_uniform; auto. Qed.
Lemma legacy_support_thm h : drawable h -> legacy_ok h -> supported_on (random_state_legacy h) (config h).
Proof. intros D K. apply good_supported, (legacy_both h D K). Qed.
Lemma legacy_uniform_thm h : drawable h -> legacy_ok h -> two_valued h -> uniform_on (random_state_legacy h) (config h).
Proof. intros D K T. destruct (legacy_both h D K) as [A B]. apply good_uniform; auto. Qed.

(** ** The legacy call on Fock spaces *)
Lemma legacy_fock_thm m N x : (0 < m)%Z -> In m x -> prob (random_state_legacy (Fock m true N None)) x = 0.
Proof.
  intros Hm Hx. destruct (Req_EM_T (prob (random_state_legacy (Fock m true N None)) x) 0) as [|Hn]; [assumption|]. exfalso.
  cbn [random_state_legacy] in Hn.
  destruct (expect_path _ _ _ (iid_out (Z.to_nat m) Z.of_nat ltac:(lia) N) Hn) as (a & [_ Ha] & E).
  destruct (cfg_eqd a x) as [->|]; [|congruence]. rewrite Forall_forall in Ha. destruct (Ha m Hx) as (i & Hi & E1). lia.
Qed.
