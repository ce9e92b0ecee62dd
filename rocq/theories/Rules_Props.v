(** * Properties C34 (proposal corrections) and C35 (exchanges) *)
From Coq Require Import List ZArith QArith Reals Lra Lia Permutation.
From Verif Require Import Base BaseFacts Hilbert_Model Hilbert_Spec HilbertOps_Model HilbertOps_Spec HilbertOps_Proofs Balance_Model Balance_Spec
  Balance_Proofs Metro_Model Metro_Spec Rules_Model Rules_Spec Rules_Proofs Rules_Run.
Import ListNotations.
Open Scope R_scope.

(** ** C34 *)

(** LocalRule proposes symmetrically (so "no correction" is right), in every
    homogeneous space, tensor product or doubled homogeneous space. *)
Theorem C34_local_symmetric :
  forall h leaf x y, flippable h ->
    (forall i, (i < n_sites h)%nat -> at_site h i (leaf i)) ->
    site_valid h x -> site_valid h y ->
    local_T h leaf x y = local_T h leaf y x.
Proof. exact local_T_sym. Qed.
Print Assumptions C34_local_symmetric.

(** Its proposals are again site-valid, and differ from the current configuration
    on the drawn site only. *)
Theorem C34_local_stays :
  forall h i g k x, flippable h -> at_site h i g -> site_valid h x ->
    (0 <= k < n_local_values g - 1)%Z ->
    site_valid h (local_move h i k x) /\
    exists v, local_move h i k x = upd x i v /\ local_value g v /\ v <> nth i x 0%Z.
Proof.
  exact (fun h i g k x HF HA Hx Hk =>
    conj (local_move_site_valid h i g k x HF HA Hx Hk) (local_move_valid h i g HF HA x k Hx Hk)).
Qed.
Print Assumptions C34_local_stays.

(** LocalRuleNumpy proposes symmetrically when the local states are increasing. *)
Theorem C34_local_numpy_symmetric :
  forall ls n x y, increasing ls ->
    site_valid (Custom (Some ls) n None) x -> site_valid (Custom (Some ls) n None) y ->
    np_local_T ls n x y = np_local_T ls n y x.
Proof. exact np_local_T_sym. Qed.
Print Assumptions C34_local_numpy_symmetric.

(** ExchangeRule proposes symmetrically. *)
Theorem C34_exchange_symmetric :
  forall n clusters x y, on_sites n clusters -> length x = n -> length y = n ->
    exchange_T clusters x y = exchange_T clusters y x.
Proof. exact exchange_T_sym. Qed.
Print Assumptions C34_exchange_symmetric.

(** HamiltonianRule, a whole batch: chain by chain the proposal is the connected
    configuration number floor(u * N(x)), and the correction is
    log N(x) - log N(y). *)
Theorem C34_hamiltonian_batch :
  forall conn xs rnd,
    length rnd = length xs -> Forall (fun x => (0 < length (conn x))%nat) xs ->
    Forall (fun u => 0 <= u < 1) rnd ->
    exists ys,
      hamiltonian_transition conn xs rnd =
        Ok (ys, map (fun t => ln (INR (length (conn (fst t)))) - ln (INR (length (conn (snd t)))))
                    (combine xs ys)) /\
      ys = map (fun t => nth (floor_draw (snd t) (length (conn (fst t)))) (conn (fst t)) []) (combine xs rnd).
Proof. exact hamiltonian_transition_spec. Qed.
Print Assumptions C34_hamiltonian_batch.

(** Every connected configuration is drawn by an interval of the unit interval of
    length 1/N(x): the draws are the uniform ones of [ham_T]. *)
Theorem C34_hamiltonian_uniform :
  forall u n k, 0 <= u < 1 -> (0 < n)%nat ->
    (floor_draw u n < n)%nat /\
    (floor_draw u n = k <-> INR k / INR n <= u < (INR k + 1) / INR n).
Proof. exact floor_draw_spec. Qed.
Print Assumptions C34_hamiltonian_uniform.

(** The correction is the logarithm of the ratio of reverse to forward proposal
    probability, for every operator with symmetric connectivity (if [y] is listed
    [m] times from [x], then [x] is listed [m] times from [y]; in particular when
    everything is listed once). *)
Theorem C34_hamiltonian_correction :
  forall space conn,
    (forall x y, In x space -> In y space ->
       count_occ cfg_eqd (conn x) y = count_occ cfg_eqd (conn y) x) ->
    corrected space (ham_T conn)
      (fun x y => Some (Fin (ln (INR (length (conn x))) - ln (INR (length (conn y)))))).
Proof. exact ham_corrected. Qed.
Print Assumptions C34_hamiltonian_correction.

(** An operator with symmetric connectivity and different numbers of connected
    configurations. *)
Definition ex_conn (x : cfg) : list cfg :=
  match x with
  | [0%Z] => [[1%Z]; [2%Z]]
  | [1%Z] => [[0%Z]]
  | [2%Z] => [[0%Z]; [2%Z]]
  | _ => []
  end.
Example C34_ex : forall x y, In x [[0%Z]; [1%Z]; [2%Z]] -> In y [[0%Z]; [1%Z]; [2%Z]] ->
  count_occ cfg_eqd (ex_conn x) y = count_occ cfg_eqd (ex_conn y) x.
Proof.
  intros x y Hx Hy. cbn in Hx, Hy.
  destruct Hx as [<-|[<-|[<-|[]]]]; destruct Hy as [<-|[<-|[<-|[]]]]; reflexivity.
Qed.
Example C34_local_ex :
  let h := Tensor [Custom (Some [-3; 0; 5]%Z) 2 None; Spin 3 1 None] in
  flippable h /\ site_valid h [5; 0; -1]%Z.
Proof.
  cbn zeta. split.
  - repeat constructor; cbn; lia.
  - split; [reflexivity|]. intros i g H.
    inversion H as [? ? Hh|? ? ? ? H1|? ? j ? H1 Ej| |]; subst; [cbn in Hh; contradiction| |].
    + apply at_site_homog in H1; [|exact I]. destruct H1 as [-> Hi]. cbn in Hi.
      destruct i as [|[|i]]; [cbn; tauto|cbn; tauto|lia].
    + inversion H1 as [? ? Hh|? ? ? ? H2|? ? j' ? H2 Ej'| |]; subst; [cbn in Hh; contradiction| |].
      * apply at_site_homog in H2; [|exact I]. destruct H2 as [-> Hi]. cbn in Hi.
        assert (j = 0%nat) by lia. subst j. cbn. exists 1%Z. lia.
      * inversion H2; subst; cbn in *; contradiction.
Qed.

(** Finding: with custom local states that are not in increasing order the local
    rule is not symmetric, yet it reports no correction. *)
Theorem C34_local_unsorted_refuted :
  let h := Custom (Some [2; 0; 1]%Z) 1 None in
  site_valid h [0]%Z /\ site_valid h [1]%Z /\
  local_T h (fun _ => h) [0]%Z [1]%Z = 1 / 2 /\ local_T h (fun _ => h) [1]%Z [0]%Z = 1.
Proof.
  cbn zeta. repeat split.
  - intros i g H. apply at_site_homog in H; [|exact I]. destruct H as [-> Hi]. cbn in Hi.
    destruct i; [cbn; tauto|lia].
  - intros i g H. apply at_site_homog in H; [|exact I]. destruct H as [-> Hi]. cbn in Hi.
    destruct i; [cbn; tauto|lia].
  - unfold local_T, uniform_prob. cbn [n_sites seq rsum n_local_values length].
    rewrite (eq_refl : count_occ cfg_eqd (map (fun k => local_move (Custom (Some [2; 0; 1]%Z) 1 None) 0 k [0]%Z)
       (map Z.of_nat (seq 0 (Z.to_nat (Z.of_nat 3 - 1))))) [1]%Z = 1%nat).
    rewrite map_length, seq_length.
    change (Z.to_nat (Z.of_nat 3 - 1)) with 2%nat. cbn [INR]. lra.
  - unfold local_T, uniform_prob. cbn [n_sites seq rsum n_local_values length].
    rewrite (eq_refl : count_occ cfg_eqd (map (fun k => local_move (Custom (Some [2; 0; 1]%Z) 1 None) 0 k [1]%Z)
       (map Z.of_nat (seq 0 (Z.to_nat (Z.of_nat 3 - 1))))) [0]%Z = 2%nat).
    rewrite map_length, seq_length.
    change (Z.to_nat (Z.of_nat 3 - 1)) with 2%nat. cbn [INR]. lra.
Qed.
Print Assumptions C34_local_unsorted_refuted.

(** Finding: on a space with a global constraint LocalRule proposes configurations
    that violate it, so C32's hypothesis that the rule proposes valid
    configurations fails for it. *)
Theorem C34_local_constrained_refuted :
  let h := Spin 1 2 (Some (0%Q, 0%nat)) in
  config h [1; -1]%Z /\ ~ config h (local_move h 0 0 [1; -1]%Z).
Proof.
  cbn zeta. split.
  - constructor; [reflexivity| |intros sz id H; injection H as <- <-; reflexivity].
    intros x [<-|[<-|[]]]; [exists 1%Z|exists 0%Z]; split; try reflexivity; cbn; lia.
  - intros H. inversion H as [| ? ? ? ? Hl Hv Hs| | | | |]; subst. specialize (Hs 0%Q 0%nat eq_refl).
    vm_compute in Hs. discriminate.
Qed.
Print Assumptions C34_local_constrained_refuted.

(** ** C33 for the rules of the library: any number of sweeps leaves
    |psi|^machine_pow invariant. *)
Theorem C33_local_rule_invariant :
  forall h leaf space psi mp a,
    NoDup space -> flippable h -> (0 < n_sites h)%nat ->
    (forall i, (i < n_sites h)%nat -> at_site h i (leaf i) /\ (2 <= n_local_values (leaf i))%Z) ->
    (forall x, In x space <-> site_valid h x) ->
    (forall x y, In x space -> In y space ->
       probability_of (accepts psi mp (fun _ _ => None) x y) (a x y)) ->
    forall n z, In z space ->
      pushes space (kernel cfg_eqd space (local_T h leaf) a) n (target psi mp) z = target psi mp z.
Proof.
  exact (fun h leaf space psi mp a Hnd HF Hn HL Hsp Ha n z =>
    pushes_target cfg_eqd space Hnd psi mp (fun _ _ => None) _ a
      (local_proposal h leaf space Hnd HF Hn HL Hsp)
      (fun x y Hx Hy _ => local_T_sym h leaf y x HF (fun i Hi => proj1 (HL i Hi))
                            (proj1 (Hsp y) Hy) (proj1 (Hsp x) Hx)) Ha n z).
Qed.
Print Assumptions C33_local_rule_invariant.

Theorem C33_exchange_rule_invariant :
  forall n clusters space psi mp a,
    NoDup space -> clusters <> [] -> on_sites n clusters ->
    (forall x, In x space -> length x = n /\ forall y, Permutation x y -> In y space) ->
    (forall x y, In x space -> In y space ->
       probability_of (accepts psi mp (fun _ _ => None) x y) (a x y)) ->
    forall k z, In z space ->
      pushes space (kernel cfg_eqd space (exchange_T clusters) a) k (target psi mp) z = target psi mp z.
Proof.
  exact (fun n clusters space psi mp a Hnd Hne Hon Hsp Ha k z =>
    pushes_target cfg_eqd space Hnd psi mp (fun _ _ => None) _ a
      (exchange_proposal n clusters space Hnd Hne Hon Hsp)
      (fun x y Hx Hy _ => exchange_T_sym n clusters y x Hon (proj1 (Hsp y Hy)) (proj1 (Hsp x Hx))) Ha k z).
Qed.
Print Assumptions C33_exchange_rule_invariant.

Theorem C33_hamiltonian_rule_invariant :
  forall conn space psi mp a,
    NoDup space ->
    (forall x, In x space -> conn x <> [] /\ forall y, In y (conn x) -> In y space) ->
    (forall x y, In x space -> In y space ->
       count_occ cfg_eqd (conn x) y = count_occ cfg_eqd (conn y) x) ->
    (forall x y, In x space -> In y space ->
       probability_of (accepts psi mp (fun x y =>
         Some (Fin (ln (INR (length (conn x))) - ln (INR (length (conn y)))))) x y) (a x y)) ->
    forall n z, In z space ->
      pushes space (kernel cfg_eqd space (ham_T conn) a) n (target psi mp) z = target psi mp z.
Proof.
  exact (fun conn space psi mp a Hnd Hc Hs Ha n z =>
    pushes_target cfg_eqd space Hnd psi mp _ _ a
      (uniform_proposal conn (fun _ y => y) space Hnd Hc) (ham_corrected space conn Hs) Ha n z).
Qed.
Print Assumptions C33_hamiltonian_rule_invariant.

(** ** C35 *)

(** Every exchange is a permutation of the sites, and undoes itself. *)
Theorem C35_exchange :
  forall c x, (0 <= fst c < Z.of_nat (length x))%Z -> (0 <= snd c < Z.of_nat (length x))%Z ->
    Permutation x (exchange_move c x) /\ exchange_move c (exchange_move c x) = x.
Proof. exact exchange_perm. Qed.
Print Assumptions C35_exchange.

(** Along a whole run of a MetropolisSampler with ExchangeRule -- any model,
    acceptance decisions, random draws, parameters, and calls -- every chain holds
    a permutation of its initial configuration, hence the same total. *)
Theorem C35_run :
  forall Par Rn Key RS (M : metro cfg Par Rn Key RS) clusters n os s,
    shapes_ok M -> uses_exchange M clusters -> on_sites n clusters -> m_reset_chains M = false ->
    length (s_cfg s) = m_chains M -> Forall (fun x => length x = n) (s_cfg s) ->
    Forall2 (@Permutation Z) (s_cfg s) (s_cfg (do_ops M s os)).
Proof.
  exact (fun _ _ _ _ M clusters n os s Hs Hx Hon Hr Hl Hv =>
           exchange_ops M clusters n Hs Hx Hon os s Hr Hl Hv).
Qed.
Print Assumptions C35_run.

(** ... and so does every sample returned. *)
Theorem C35_samples :
  forall Par Rn Key RS (M : metro cfg Par Rn Key RS) clusters n p k s,
    shapes_ok M -> uses_exchange M clusters -> on_sites n clusters ->
    length (s_cfg s) = m_chains M -> Forall (fun x => length x = n) (s_cfg s) ->
    Forall (Forall2 (fun x y => Permutation x y /\ zsum x = zsum y) (s_cfg s)) (fst (sample_chain M p k s)).
Proof.
  exact (fun _ _ _ _ M clusters n p k s Hs Hx Hon Hl Hv =>
    Forall_impl _ (fun ys H => Forall2_impl_perm _ _ H)
      (exchange_chain M clusters n Hs Hx Hon p k s Hl Hv)).
Qed.
Print Assumptions C35_samples.

(** The clusters computed from a graph are exactly the pairs of distinct sites at
    distance at most [d_max], each once, all on sites of the graph. *)
Theorem C35_clusters :
  forall n dist d_max,
    (forall i j, In (i, j) (compute_clusters n dist d_max) <->
       exists a b, i = Z.of_nat a /\ j = Z.of_nat b /\ (a < b < n)%nat /\
                   exists d, dist a b = Some d /\ (d <= d_max)%nat) /\
    NoDup (compute_clusters n dist d_max) /\ on_sites n (compute_clusters n dist d_max).
Proof.
  exact (fun n dist d => conj (clusters_spec n dist d) (conj (clusters_nodup n dist d) (clusters_on_sites n dist d))).
Qed.
Print Assumptions C35_clusters.

Example C35_ex :
  compute_clusters 4 (fun a b => Some (Nat.min (b - a) (4 - (b - a)))) 1 = [(0,1); (0,3); (1,2); (2,3)]%Z /\
  exchange_move (0, 3)%Z [1; 2; 3; 4]%Z = [4; 2; 3; 1]%Z.
Proof. vm_compute. auto. Qed.

(** A sampler using the rule: the clusters 0 and 1 in turn. *)
Definition ex_metro : metro cfg Z Z nat unit :=
  {| m_chains := 2; m_sweeps := 3; m_reset_chains := false; m_zero := [0; 0; 0]%Z;
     m_logp := fun p x => (p * nth 0 x 0)%Z;
     m_trans := fun _ _ k x => (exchange_transition [(0, 1); (1, 2)]%Z (repeat (Nat.modulo k 2) (length x)) x, None);
     m_random := fun _ _ k => [[1; 2; 3]%Z; [0; 5; 0]%Z];
     m_rinit := fun _ _ => tt; m_rreset := fun _ x => x;
     m_unif := fun k n => repeat (Z.of_nat k) n;
     m_split2 := fun k => (k + 1, k + 2)%nat;
     m_split3 := fun k => (k + 1, k + 2, k + 3)%nat;
     m_accept := fun u a b _ => Z.ltb (Z.modulo u 3) (a - b + 2) |}.
Example C35_run_ex :
  shapes_ok ex_metro /\ uses_exchange ex_metro [(0, 1); (1, 2)]%Z /\ on_sites 3 [(0, 1); (1, 2)]%Z /\
  s_cfg (do_ops ex_metro (init_state ex_metro 1%Z 0%nat) [Next 1%Z; Reset 2%Z; Chain 1%Z 2]) = [[3; 2; 1]; [5; 0; 0]]%Z.
Proof.
  split; [|split; [|split]].
  - constructor; cbn; intros; try reflexivity.
    + unfold exchange_transition. rewrite map_length, combine_length, repeat_length. unfold cfg in *. lia.
    + discriminate.
    + apply repeat_length.
  - intros p rs k x. exists (repeat (Nat.modulo k 2) (length x)). repeat split.
    + apply Forall_forall. intros c Hc. apply repeat_spec in Hc. subst. cbn [length].
      apply Nat.mod_upper_bound. lia.
    + apply repeat_length.
  - repeat constructor; cbn; lia.
  - vm_compute. reflexivity.
Qed.

(** Finding: clusters are not validated; a cluster naming a site that does not
    exist silently gives proposals that are not permutations (jax clamps reads and
    drops writes out of range). *)
Theorem C35_out_of_range_refuted :
  exchange_move (0, 7)%Z [1; 2]%Z = [2; 2]%Z /\ ~ Permutation [1; 2]%Z (exchange_move (0, 7)%Z [1; 2]%Z).
Proof.
  split; [reflexivity|]. intros H. apply zsum_perm in H. vm_compute in H. discriminate.
Qed.
Print Assumptions C35_out_of_range_refuted.
