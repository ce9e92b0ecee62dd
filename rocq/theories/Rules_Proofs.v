(** * Proofs about the transition rules *)
From Coq Require Import List ZArith Bool Lia Reals Lra Permutation.
From Verif Require Import Base BaseFacts Hilbert_Model HilbertOps_Spec HilbertOps_Model HilbertOps_Proofs
  Balance_Model Balance_Spec Balance_Proofs Rules_Model Rules_Spec.
Import ListNotations.
Open Scope nat_scope.

Lemma upd_upd {A} (l : list A) i v w : upd (upd l i v) i w = upd l i w.
Proof. revert i. induction l as [|x l IH]; intros [|i]; cbn; try reflexivity. rewrite IH. reflexivity. Qed.

Lemma ln_quot a b : (0 < a)%R -> (0 < b)%R -> (ln a - ln b = ln (a / b))%R.
Proof.
  intros Ha Hb. unfold Rdiv. rewrite ln_mult, ln_Rinv by (try apply Rinv_0_lt_compat; assumption). reflexivity.
Qed.

(** ** Counting draws *)
Lemma count_map_iff {D E} (f : D -> cfg) (g : E -> cfg) (h : D -> E) y z ds :
  (forall d, In d ds -> (f d = y <-> g (h d) = z)) ->
  count_occ cfg_eqd (map f ds) y = count_occ cfg_eqd (map g (map h ds)) z.
Proof.
  induction ds as [|d ds IH]; intros H; [reflexivity|]. cbn [map count_occ].
  specialize (IH (fun d Hd => H d (or_intror Hd))). pose proof (H d (or_introl eq_refl)) as Hd.
  destruct (cfg_eqd (f d) y), (cfg_eqd (g (h d)) z); tauto || (f_equal; exact IH) || exact IH.
Qed.

Lemma count_none {D} (f : D -> cfg) y ds : (forall d, In d ds -> f d <> y) ->
  count_occ cfg_eqd (map f ds) y = 0.
Proof.
  intros H. apply count_occ_not_In. intros Hin. apply in_map_iff in Hin.
  destruct Hin as (d & E & Hd). exact (H d Hd E).
Qed.

Lemma count_one {D} (f : D -> cfg) y d0 ds : NoDup ds -> In d0 ds ->
  (forall d, In d ds -> (f d = y <-> d = d0)) ->
  count_occ cfg_eqd (map f ds) y = 1.
Proof.
  induction 1 as [|d ds Hn Hnd IH]; intros Hin H; [destruct Hin|]. cbn [map count_occ].
  destruct (cfg_eqd (f d) y) as [E|E].
  - assert (d = d0) by (apply H; [left; reflexivity|exact E]). subst d0. f_equal.
    apply count_none. intros d' Hd' E'. assert (d' = d) by (apply H; [right; exact Hd'|exact E']).
    subst. contradiction.
  - destruct Hin as [->|Hin]; [exfalso; apply E, H; [left|]; reflexivity|].
    apply IH; [exact Hin|]. intros d' Hd'. apply H. right. exact Hd'.
Qed.

(** ** Local rule *)
Definition zs (m : Z) : list Z := map Z.of_nat (seq 0 (Z.to_nat m)).
Lemma in_zs m k : In k (zs m) <-> (0 <= k < m)%Z.
Proof.
  unfold zs. rewrite in_map_iff. split.
  - intros (n & <- & H). apply in_seq in H. lia.
  - intros H. exists (Z.to_nat k). split; [lia|]. apply in_seq. lia.
Qed.
Lemma nodup_zs m : NoDup (zs m).
Proof. unfold zs. apply FinFun.Injective_map_NoDup; [intros a b; lia|apply seq_NoDup]. Qed.

Section Local.
  Variable h : hilbert.
  Variable i : nat.
  Variable g : hilbert.
  Hypothesis HF : flippable h.
  Hypothesis HA : at_site h i g.

  (** Is [y] reached from [x] by changing site [i] to another value? *)
  Definition differ (x y : cfg) : Prop := exists v, y = upd x i v /\ local_value g v /\ v <> nth i x 0%Z.

  Lemma differ_sym x y : site_valid h x -> differ x y -> differ y x.
  Proof.
    intros [Hl Hv] (v & -> & Hlv & Hne). pose proof (at_site_lt _ _ _ HA) as Hi.
    exists (nth i x 0%Z). repeat split.
    - rewrite upd_upd, upd_nth_id. reflexivity.
    - apply Hv, HA.
    - rewrite nth_upd_same by lia. congruence.
  Qed.

  Lemma count_flip_yes x y : site_valid h x -> differ x y ->
    count_occ cfg_eqd (map (fun k => local_move h i k x) (zs (n_local_values g - 1))) y = 1.
  Proof.
    intros [Hl Hv] (v & -> & Hlv & Hne).
    destruct (flip_state_correct h x i g HF Hl HA (Hv i g HA)) as [_ H].
    destruct (H v Hlv Hne) as (k & [Hk E] & U).
    apply (count_one _ _ k); [apply nodup_zs|apply in_zs, Hk|].
    intros d Hd. apply in_zs in Hd. unfold local_move. split.
    - intros E'. symmetry. apply U. auto.
    - intros ->. exact E.
  Qed.

  Lemma count_flip_no x y : site_valid h x -> ~ differ x y ->
    count_occ cfg_eqd (map (fun k => local_move h i k x) (zs (n_local_values g - 1))) y = 0.
  Proof.
    intros [Hl Hv] Hn. apply count_none. intros k Hk E. apply Hn. apply in_zs in Hk.
    destruct (flip_state_correct h x i g HF Hl HA (Hv i g HA)) as [H _].
    destruct (H k Hk) as (v & E' & Hlv & Hne). exists v. unfold local_move in E. rewrite E' in E.
    cbn in E. auto.
  Qed.

  Lemma count_flip_sym x y : site_valid h x -> site_valid h y ->
    count_occ cfg_eqd (map (fun k => local_move h i k x) (zs (n_local_values g - 1))) y =
    count_occ cfg_eqd (map (fun k => local_move h i k y) (zs (n_local_values g - 1))) x.
  Proof.
    intros Hx Hy.
    destruct (in_dec cfg_eqd y (map (fun k => local_move h i k x) (zs (n_local_values g - 1)))) as [Hin|Hout].
    - apply in_map_iff in Hin. destruct Hin as (k & E & Hk). apply in_zs in Hk.
      destruct Hx as [Hl Hv].
      destruct (flip_state_correct h x i g HF Hl HA (Hv i g HA)) as [H _].
      destruct (H k Hk) as (v & E' & Hlv & Hne). unfold local_move in E. rewrite E' in E. cbn in E.
      assert (D : differ x y) by (exists v; auto).
      rewrite (count_flip_yes x y), (count_flip_yes y x); auto; [apply differ_sym; [split|]; auto|split; auto].
    - assert (D : ~ differ x y).
      { intros D. apply Hout, (count_occ_In cfg_eqd). rewrite count_flip_yes by assumption. lia. }
      rewrite (count_flip_no x y), (count_flip_no y x); auto. intros D'. apply D, differ_sym; assumption.
  Qed.

  Lemma local_move_valid x k : site_valid h x -> (0 <= k < n_local_values g - 1)%Z ->
    exists v, local_move h i k x = upd x i v /\ local_value g v /\ v <> nth i x 0%Z.
  Proof.
    intros [Hl Hv] Hk. destruct (flip_state_correct h x i g HF Hl HA (Hv i g HA)) as [H _].
    destruct (H k Hk) as (v & E & Hlv & Hne). exists v. unfold local_move. rewrite E. auto.
  Qed.
End Local.

Lemma local_T_sym h leaf x y : flippable h ->
  (forall i, i < n_sites h -> at_site h i (leaf i)) ->
  site_valid h x -> site_valid h y -> local_T h leaf x y = local_T h leaf y x.
Proof.
  intros HF HL Hx Hy. unfold local_T. apply rsum_ext. intros i Hi. apply in_seq in Hi.
  f_equal. unfold uniform_prob. f_equal. f_equal.
  change (map Z.of_nat (seq 0 (Z.to_nat (n_local_values (leaf i) - 1)))) with (zs (n_local_values (leaf i) - 1)).
  apply (count_flip_sym h i (leaf i)); auto. apply HL. lia.
Qed.

(** The numpy kernel is the flip of a custom space with the same local states. *)
Lemma np_local_move_flip ls n i r x : length x = n -> i < n -> S r < length ls ->
  np_local_move ls i r x = local_move (Custom (Some ls) n None) i (Z.of_nat r) x.
Proof.
  intros Hl Hi Hr. unfold np_local_move, local_move. cbn [flip_state fst].
  assert (E1 : jax_get x (Z.of_nat i) = nth i x 0%Z).
  { unfold jax_get, jax_norm. destruct (Z.of_nat i <? 0)%Z eqn:E; [lia|]. f_equal. lia. }
  assert (E2 : jax_get ls (Z.of_nat r) = nth r ls 0%Z).
  { unfold jax_get, jax_norm. destruct (Z.of_nat r <? 0)%Z eqn:E; [lia|]. f_equal. lia. }
  rewrite E1, E2. unfold jax_set, jax_norm. destruct (Z.of_nat i <? 0)%Z eqn:E; [lia|].
  destruct ((0 <=? Z.of_nat i) && (Z.of_nat i <? Z.of_nat (length x)))%Z eqn:E3; [|lia].
  rewrite Nat2Z.id. f_equal. unfold jax_get, jax_norm, b2z.
  destruct (nth i x 0 <=? nth r ls 0)%Z.
  - destruct (Z.of_nat r + 1 <? 0)%Z eqn:E4; [lia|]. f_equal. lia.
  - destruct (Z.of_nat r + 0 <? 0)%Z eqn:E4; [lia|]. f_equal. lia.
Qed.

Lemma np_local_T_eq ls n x y : length x = n ->
  np_local_T ls n x y = local_T (Custom (Some ls) n None) (fun _ => Custom (Some ls) n None) x y.
Proof.
  intros Hl. unfold np_local_T, local_T. cbn [n_sites n_local_values]. apply rsum_ext. intros i Hi.
  apply in_seq in Hi. f_equal. unfold uniform_prob.
  replace (Z.to_nat (Z.of_nat (length ls) - 1)) with (length ls - 1) by lia.
  rewrite map_length, seq_length. f_equal. f_equal.
  rewrite map_map. f_equal. apply map_ext_in. intros r Hr. apply in_seq in Hr.
  apply np_local_move_flip; lia.
Qed.

Lemma np_local_T_sym ls n x y : increasing ls ->
  site_valid (Custom (Some ls) n None) x -> site_valid (Custom (Some ls) n None) y ->
  np_local_T ls n x y = np_local_T ls n y x.
Proof.
  intros Hi Hx Hy. rewrite !np_local_T_eq by (apply Hx || apply Hy). apply local_T_sym; auto.
  - constructor. exact Hi.
  - intros i H. constructor; [exact I|exact H].
Qed.

(** ** Exchange rule *)
Definition swap (i j : nat) (x : cfg) : cfg := upd (upd x i (nth j x 0%Z)) j (nth i x 0%Z).

Lemma exchange_swap c x : (0 <= fst c < Z.of_nat (length x))%Z -> (0 <= snd c < Z.of_nat (length x))%Z ->
  exchange_move c x = swap (Z.to_nat (fst c)) (Z.to_nat (snd c)) x.
Proof.
  intros H1 H2. destruct c as [a b]. cbn [fst snd] in *. unfold exchange_move, swap, jax_set, jax_get, jax_norm.
  destruct (a <? 0)%Z eqn:Ea; [lia|]. destruct (b <? 0)%Z eqn:Eb; [lia|].
  destruct ((0 <=? a) && (a <? Z.of_nat (length x)))%Z eqn:E1; [|lia].
  rewrite upd_length.
  destruct ((0 <=? b) && (b <? Z.of_nat (length x)))%Z eqn:E2; [|lia].
  f_equal; [f_equal; f_equal; lia|f_equal; lia].
Qed.

Lemma swap_length i j x : length (swap i j x) = length x.
Proof. unfold swap. rewrite !upd_length. reflexivity. Qed.

Lemma swap_nth i j x k : i < length x -> j < length x ->
  nth k (swap i j x) 0%Z = if Nat.eqb k j then nth i x 0%Z else if Nat.eqb k i then nth j x 0%Z else nth k x 0%Z.
Proof.
  intros Hi Hj. unfold swap. destruct (Nat.eqb_spec k j) as [->|Hkj].
  - rewrite nth_upd_same by (rewrite upd_length; lia). reflexivity.
  - rewrite nth_upd_other by congruence. destruct (Nat.eqb_spec k i) as [->|Hki].
    + rewrite nth_upd_same by lia. reflexivity.
    + rewrite nth_upd_other by congruence. reflexivity.
Qed.

Lemma swap_swap i j x : i < length x -> j < length x -> swap i j (swap i j x) = x.
Proof.
  intros Hi Hj. apply (nth_ext _ _ 0%Z 0%Z); [rewrite !swap_length; reflexivity|].
  intros k Hk. rewrite !swap_nth by (rewrite ?swap_length; lia).
  destruct (Nat.eqb_spec k j), (Nat.eqb_spec i j), (Nat.eqb_spec i i), (Nat.eqb_spec j j), (Nat.eqb_spec k i);
    congruence.
Qed.

Lemma swap_perm i j x : i < length x -> j < length x -> Permutation x (swap i j x).
Proof.
  intros Hi Hj. apply (Permutation_nth x (swap i j x) 0%Z). split; [apply swap_length|].
  exists (fun k => if Nat.eqb k j then i else if Nat.eqb k i then j else k). repeat split.
  - intros k Hk. destruct (Nat.eqb k j), (Nat.eqb k i); lia.
  - intros a b Ha Hb. destruct (Nat.eqb_spec a j), (Nat.eqb_spec b j), (Nat.eqb_spec a i), (Nat.eqb_spec b i);
      intros; congruence.
  - intros k Hk. rewrite swap_nth by assumption. destruct (Nat.eqb k j), (Nat.eqb k i); reflexivity.
Qed.

Lemma exchange_T_sym n clusters x y : on_sites n clusters -> length x = n -> length y = n ->
  exchange_T clusters x y = exchange_T clusters y x.
Proof.
  intros Hon Hx Hy. unfold exchange_T, uniform_prob. f_equal. f_equal.
  rewrite (count_map_iff _ (fun c => exchange_move c y) (fun c => c) y x).
  - rewrite map_id. reflexivity.
  - intros c Hc. unfold on_sites in Hon. rewrite Forall_forall in Hon. destruct (Hon c Hc) as [H1 H2].
    rewrite !exchange_swap by lia. split; intros <-; apply swap_swap; lia.
Qed.

Lemma exchange_perm c x : (0 <= fst c < Z.of_nat (length x))%Z -> (0 <= snd c < Z.of_nat (length x))%Z ->
  Permutation x (exchange_move c x) /\ exchange_move c (exchange_move c x) = x.
Proof.
  intros H1 H2. rewrite exchange_swap by assumption. split; [apply swap_perm; lia|].
  rewrite exchange_swap by (rewrite swap_length; assumption). apply swap_swap; lia.
Qed.

Lemma clusters_spec n dist d_max i j :
  In (i, j) (compute_clusters n dist d_max) <->
  exists a b, i = Z.of_nat a /\ j = Z.of_nat b /\ a < b < n /\
              exists d, dist a b = Some d /\ d <= d_max.
Proof.
  unfold compute_clusters. rewrite in_flat_map. split.
  - intros (a & Ha & H). apply in_seq in Ha. rewrite in_flat_map in H. destruct H as (b & Hb & H).
    apply in_seq in Hb. destruct (dist a b) as [d|] eqn:E; [|destruct H].
    destruct (Nat.leb d d_max) eqn:El; [|destruct H]. destruct H as [H|[]].
    exists a, b. injection H as <- <-. repeat split; try lia. exists d. split; [exact E|apply Nat.leb_le, El].
  - intros (a & b & -> & -> & Hab & d & E & Hd). exists a. split; [apply in_seq; lia|].
    rewrite in_flat_map. exists b. split; [apply in_seq; lia|]. rewrite E.
    apply Nat.leb_le in Hd. rewrite Hd. left. reflexivity.
Qed.

Lemma clusters_on_sites n dist d_max : on_sites n (compute_clusters n dist d_max).
Proof.
  apply Forall_forall. intros [i j] H. apply clusters_spec in H.
  destruct H as (a & b & -> & -> & Hab & _). cbn. lia.
Qed.

Lemma flat_map_nodup {A B} (f : A -> list B) l :
  NoDup l -> (forall a, In a l -> NoDup (f a)) ->
  (forall a b y, In a l -> In b l -> In y (f a) -> In y (f b) -> a = b) ->
  NoDup (flat_map f l).
Proof.
  induction 1 as [|a l Hn Hnd IH]; intros H1 H2; cbn; [constructor|].
  assert (Hl : NoDup (flat_map f l)).
  { apply IH; [intros b Hb; apply H1; right; exact Hb|].
    intros b c y Hb Hc. apply H2; right; assumption. }
  assert (Ha : NoDup (f a)) by (apply H1; left; reflexivity).
  assert (Hd : forall y, In y (f a) -> ~ In y (flat_map f l)).
  { intros y Hy Hin. apply in_flat_map in Hin. destruct Hin as (b & Hb & Hyb).
    assert (a = b) by (apply (H2 a b y); auto; [left; reflexivity|right; exact Hb]). subst. contradiction. }
  clear -Hl Ha Hd. induction (f a) as [|y ys IH]; cbn; [exact Hl|].
  inversion Ha as [|? ? Hy Hys]; subst. constructor.
  - rewrite in_app_iff. intros [H|H]; [contradiction|]. apply (Hd y); [left; reflexivity|exact H].
  - apply IH; [exact Hys|]. intros z Hz. apply Hd. right. exact Hz.
Qed.

Lemma clusters_nodup n dist d_max : NoDup (compute_clusters n dist d_max).
Proof.
  unfold compute_clusters. apply flat_map_nodup.
  - apply seq_NoDup.
  - intros a _. apply flat_map_nodup.
    + apply seq_NoDup.
    + intros b _. destruct (dist a b) as [d|]; [|constructor].
      destruct (Nat.leb d d_max); repeat constructor. intros [].
    + intros b c y _ _ Hb Hc. destruct (dist a b) as [d|]; [|destruct Hb].
      destruct (Nat.leb d d_max); [|destruct Hb]. destruct Hb as [<-|[]].
      destruct (dist a c) as [d'|]; [|destruct Hc].
      destruct (Nat.leb d' d_max); [|destruct Hc]. destruct Hc as [E|[]]. injection E. lia.
  - intros a b y _ _ Ha Hb. apply in_flat_map in Ha. apply in_flat_map in Hb.
    destruct Ha as (c & _ & Ha). destruct Hb as (d & _ & Hb).
    destruct (dist a c) as [e|]; [|destruct Ha]. destruct (Nat.leb e d_max); [|destruct Ha].
    destruct Ha as [<-|[]]. destruct (dist b d) as [e'|]; [|destruct Hb].
    destruct (Nat.leb e' d_max); [|destruct Hb]. destruct Hb as [E|[]]. injection E. lia.
Qed.

(** ** Hamiltonian rule *)
Lemma floor_draw_spec u n k : (0 <= u < 1)%R -> 0 < n ->
  floor_draw u n < n /\
  (floor_draw u n = k <-> (INR k / INR n <= u < (INR k + 1) / INR n)%R).
Proof.
  intros [U0 U1] Hn. assert (Hn' : (0 < INR n)%R) by (apply lt_0_INR; exact Hn).
  unfold floor_draw. set (z := Int_part (u * INR n)).
  destruct (base_Int_part (u * INR n)) as [B1 B2]. fold z in B1, B2.
  assert (P : (0 <= u * INR n)%R) by (apply Rmult_le_pos; lra).
  assert (Q : (u * INR n < INR n)%R).
  { apply (Rmult_lt_compat_r (INR n)) in U1; [|exact Hn']. rewrite Rmult_1_l in U1. exact U1. }
  assert (Hz0 : (0 <= z)%Z).
  { assert (-1 < z)%Z; [|lia]. apply lt_IZR. lra. }
  assert (Hzn : (z < Z.of_nat n)%Z).
  { apply lt_IZR. rewrite <- INR_IZR_INZ. lra. }
  split; [lia|].
  assert (C : (INR k / INR n <= u < (INR k + 1) / INR n)%R <-> (INR k <= u * INR n < INR k + 1)%R).
  { split; intros [H1 H2]; split.
    - apply (Rmult_le_compat_r (INR n)) in H1; [|lra]. unfold Rdiv in H1.
      rewrite Rmult_assoc, Rinv_l in H1 by lra. lra.
    - apply (Rmult_lt_compat_r (INR n)) in H2; [|lra]. unfold Rdiv in H2.
      rewrite Rmult_assoc, Rinv_l in H2 by lra. lra.
    - apply (Rmult_le_reg_r (INR n)); [lra|]. unfold Rdiv. rewrite Rmult_assoc, Rinv_l by lra. lra.
    - apply (Rmult_lt_reg_r (INR n)); [lra|]. unfold Rdiv. rewrite Rmult_assoc, Rinv_l by lra. lra. }
  rewrite C. split.
  - intros <-. rewrite INR_IZR_INZ, Z2Nat.id by exact Hz0. lra.
  - intros [H1 H2]. rewrite (INR_IZR_INZ k) in H1, H2.
    assert (z = Z.of_nat k); [|lia].
    assert (z < Z.of_nat k + 1)%Z by (apply lt_IZR; rewrite plus_IZR; lra).
    assert (Z.of_nat k < z + 1)%Z by (apply lt_IZR; rewrite plus_IZR; lra). lia.
Qed.

Lemma n_conn_sections ls : forall low,
  n_conn_from_sections low (sections_from low ls) = map (@length cfg) ls.
Proof.
  induction ls as [|l ls IH]; intros low; cbn; [reflexivity|]. rewrite IH. f_equal. lia.
Qed.

Lemma choose_spec pre : forall (ls : list (list cfg)) rnd,
  length rnd = length ls -> Forall (fun l => 0 < length l) ls -> Forall (fun u => (0 <= u < 1)%R) rnd ->
  choose (length pre) (pre ++ concat ls) (sections_from (length pre) ls) rnd =
  Ok (map (fun t => nth (floor_draw (snd t) (length (fst t))) (fst t) []) (combine ls rnd),
      map (fun l => ln (INR (length l))) ls).
Proof.
  intros ls. revert pre. induction ls as [|l ls IH]; intros pre rnd Hl Hp Hr.
  - destruct rnd; [reflexivity|discriminate].
  - destruct rnd as [|u rnd]; [discriminate|]. injection Hl as Hl.
    inversion Hp as [|? ? Hp1 Hp2]; subst. inversion Hr as [|? ? Hr1 Hr2]; subst.
    cbn [sections_from choose concat].
    replace (length pre + length l - length pre) with (length l) by lia.
    destruct (floor_draw_spec u (length l) 0 Hr1 Hp1) as [Hlt _].
    rewrite nth_error_app2 by lia. replace (length pre + floor_draw u (length l) - length pre)
      with (floor_draw u (length l)) by lia.
    rewrite nth_error_app1 by exact Hlt. rewrite (nth_error_nth' l [] Hlt).
    rewrite app_assoc. specialize (IH (pre ++ l) rnd Hl Hp2 Hr2). rewrite app_length in IH.
    rewrite IH. reflexivity.
Qed.

Lemma hamiltonian_transition_spec conn xs rnd :
  length rnd = length xs -> Forall (fun x => 0 < length (conn x)) xs ->
  Forall (fun u => (0 <= u < 1)%R) rnd ->
  exists ys, hamiltonian_transition conn xs rnd =
    Ok (ys, map (fun t => (ln (INR (length (conn (fst t)))) - ln (INR (length (conn (snd t)))))%R)
                (combine xs ys)) /\
    ys = map (fun t => nth (floor_draw (snd t) (length (conn (fst t)))) (conn (fst t)) []) (combine xs rnd).
Proof.
  intros Hl Hp Hr. unfold hamiltonian_transition, conn_flattened. cbn [fst snd].
  assert (HC := choose_spec [] (map conn xs) rnd). cbn [length app] in HC.
  rewrite HC; [|rewrite map_length; exact Hl|apply Forall_map; exact Hp|exact Hr].
  cbn [bind fst snd]. eexists. split; [|reflexivity]. f_equal.
  assert (E : map (fun t => nth (floor_draw (snd t) (length (fst t))) (fst t) []) (combine (map conn xs) rnd) =
              map (fun t => nth (floor_draw (snd t) (length (conn (fst t)))) (conn (fst t)) []) (combine xs rnd)).
  { clear. revert rnd. induction xs as [|x xs IH]; intros [|u rnd]; cbn; try reflexivity. f_equal. apply IH. }
  rewrite E. f_equal. rewrite n_conn_sections. rewrite map_map.
  clear Hl Hp Hr E HC.
  set (ys := map _ (combine xs rnd)). clearbody ys. revert ys.
  induction xs as [|x xs IH]; intros [|y ys]; cbn; try reflexivity. f_equal. apply IH.
Qed.

Lemma ham_corrected space conn :
  (forall x y, In x space -> In y space ->
     count_occ cfg_eqd (conn x) y = count_occ cfg_eqd (conn y) x) ->
  corrected space (ham_T conn)
    (fun x y => Some (Fin (ln (INR (length (conn x))) - ln (INR (length (conn y)))))).
Proof.
  intros Hs x y Hx Hy Hp. unfold ham_T, uniform_prob in *. rewrite !map_id in *.
  rewrite <- (Hs x y Hx Hy).
  assert (Hc : 0 < count_occ cfg_eqd (conn x) y).
  { destruct (count_occ cfg_eqd (conn x) y) eqn:E; [|lia]. cbn in Hp. unfold Rdiv in Hp.
    rewrite Rmult_0_l in Hp. exfalso. lra. }
  assert (H1 : 0 < length (conn x)).
  { destruct (conn x); [cbn in Hc; lia|cbn; lia]. }
  assert (H2 : 0 < length (conn y)).
  { rewrite (Hs x y Hx Hy) in Hc. destruct (conn y); [cbn in Hc; lia|cbn; lia]. }
  apply lt_0_INR in Hc. apply lt_0_INR in H1. apply lt_0_INR in H2.
  split; [apply Rdiv_lt_0_compat; assumption|].
  rewrite ln_quot by assumption.
  f_equal. field. repeat split; apply Rgt_not_eq; assumption.
Qed.

(** ** Validity of local moves *)
Lemma at_site_fun h : forall i g g', at_site h i g -> at_site h i g' -> g = g'.
Proof.
  intros i g g' H. revert g'. induction H as [h i Hh Hi|h l i g H IH|h l i g H IH|p i g H IH|p i g H IH]; intros g' H'.
  - inversion H'; subst; try reflexivity; cbn in Hh; contradiction.
  - inversion H' as [? ? Hh|? ? ? ? H1|? ? j ? H1| |]; subst; [cbn in Hh; contradiction| |].
    + apply IH, H1.
    + pose proof (at_site_lt _ _ _ H). lia.
  - inversion H' as [? ? Hh|? ? ? ? H1|? ? j ? H1 Ej| |]; subst; [cbn in Hh; contradiction| |].
    + pose proof (at_site_lt _ _ _ H1). lia.
    + apply IH. assert (j = i) by lia. subst. exact H1.
  - inversion H' as [? ? Hh| | |? ? ? H1|? j ? H1 Ej]; subst; [cbn in Hh; contradiction| |].
    + apply IH, H1.
    + pose proof (at_site_lt _ _ _ H). lia.
  - inversion H' as [? ? Hh| | |? ? ? H1|? j ? H1 Ej]; subst; [cbn in Hh; contradiction| |].
    + pose proof (at_site_lt _ _ _ H1). lia.
    + apply IH. assert (j = i) by lia. subst. exact H1.
Qed.

Lemma local_move_site_valid h i g k x : flippable h -> at_site h i g -> site_valid h x ->
  (0 <= k < n_local_values g - 1)%Z -> site_valid h (local_move h i k x).
Proof.
  intros HF HA Hx Hk. destruct (local_move_valid h i g HF HA x k Hx Hk) as (v & -> & Hlv & _).
  pose proof (at_site_lt _ _ _ HA) as Hi. destruct Hx as [Hl Hv]. split.
  - rewrite upd_length. exact Hl.
  - intros j g' HA'. destruct (Nat.eq_dec i j) as [<-|Hne].
    + rewrite nth_upd_same by lia. rewrite (at_site_fun _ _ _ _ HA' HA). exact Hlv.
    + rewrite nth_upd_other by congruence. apply Hv, HA'.
Qed.

(** ** The proposal probabilities sum to one *)
Lemma rsum_count {D} (f : D -> cfg) ds space : NoDup space -> (forall d, In d ds -> In (f d) space) ->
  rsum (fun y => INR (count_occ cfg_eqd (map f ds) y)) space = INR (length ds).
Proof.
  intros Hnd. induction ds as [|d ds IH]; intros H.
  - cbn. apply rsum_zero. reflexivity.
  - rewrite (rsum_ext _ (fun y => ((fun _ : cfg => 1) y * (if cfg_eqd y (f d) then 1 else 0) +
                                 INR (count_occ cfg_eqd (map f ds) y))%R)).
    + rewrite rsum_plus, (rsum_delta cfg_eqd) by (auto; apply H; left; reflexivity).
      rewrite IH by (intros e He; apply H; right; exact He). cbn [length]. rewrite S_INR. ring.
    + intros y _. cbn [map count_occ].
      destruct (cfg_eqd (f d) y), (cfg_eqd y (f d)); try congruence; rewrite ?S_INR; ring.
Qed.

Lemma uniform_prob_nonneg {D} (ds : list D) f y : (0 <= uniform_prob ds f y)%R.
Proof.
  unfold uniform_prob, Rdiv. apply Rmult_le_pos; [apply pos_INR|].
  destruct (length ds) as [|n] eqn:E; [cbn; rewrite Rinv_0; lra|].
  apply Rlt_le, Rinv_0_lt_compat, lt_0_INR. lia.
Qed.

Lemma uniform_prob_sum {D} (ds : list D) f space : NoDup space -> ds <> [] ->
  (forall d, In d ds -> In (f d) space) -> rsum (uniform_prob ds f) space = 1%R.
Proof.
  intros Hnd Hne H. unfold uniform_prob.
  rewrite (rsum_ext _ (fun y => (/ INR (length ds) * INR (count_occ cfg_eqd (map f ds) y))%R))
    by (intros y _; unfold Rdiv; ring).
  rewrite rsum_scal, rsum_count by assumption. apply Rinv_l.
  apply not_0_INR. destruct ds; [congruence|cbn; lia].
Qed.

Lemma uniform_proposal {D} (ds : cfg -> list D) (f : cfg -> D -> cfg) space : NoDup space ->
  (forall x, In x space -> ds x <> [] /\ forall d, In d (ds x) -> In (f x d) space) ->
  proposal space (fun x y => uniform_prob (ds x) (f x) y).
Proof.
  intros Hnd H. split; [intros; apply uniform_prob_nonneg|].
  intros x Hx. destruct (H x Hx) as [H1 H2]. apply uniform_prob_sum; assumption.
Qed.

Lemma rsum_const {X} (c : R) (l : list X) : rsum (fun _ => c) l = (INR (length l) * c)%R.
Proof. induction l as [|x l IH]; cbn [rsum length]; [cbn; ring|]. rewrite IH, S_INR. ring. Qed.

Lemma rsum_nonneg {X} (f : X -> R) l : (forall x, In x l -> (0 <= f x)%R) -> (0 <= rsum f l)%R.
Proof.
  induction l as [|x l IH]; intros H; cbn; [lra|]. apply Rplus_le_le_0_compat; [apply H; left; reflexivity|].
  apply IH. intros y Hy. apply H. right. exact Hy.
Qed.

Lemma local_proposal h leaf space : NoDup space -> flippable h -> 0 < n_sites h ->
  (forall i, i < n_sites h -> at_site h i (leaf i) /\ (2 <= n_local_values (leaf i))%Z) ->
  (forall x, In x space <-> site_valid h x) ->
  proposal space (local_T h leaf).
Proof.
  intros Hnd HF Hn HL Hsp. split.
  - intros x y _ _. unfold local_T. apply rsum_nonneg. intros i _. apply Rmult_le_pos.
    + apply Rlt_le, Rinv_0_lt_compat, lt_0_INR, Hn.
    + apply uniform_prob_nonneg.
  - intros x Hx. unfold local_T. rewrite rsum_swap.
    rewrite (rsum_ext _ (fun _ => (/ INR (n_sites h))%R)).
    + rewrite rsum_const, seq_length. apply Rinv_r, not_0_INR. lia.
    + intros i Hi. apply in_seq in Hi. rewrite rsum_scal. destruct (HL i) as [HA Hm]; [lia|].
      change (map Z.of_nat (seq 0 (Z.to_nat (n_local_values (leaf i) - 1)))) with (zs (n_local_values (leaf i) - 1)).
      rewrite uniform_prob_sum; [ring|exact Hnd| |].
      * intros E. assert (In 0%Z (zs (n_local_values (leaf i) - 1))) by (apply in_zs; lia).
        rewrite E in H. destruct H.
      * intros k Hk. apply in_zs in Hk. apply Hsp. apply (local_move_site_valid h i (leaf i)); auto. apply Hsp, Hx.
Qed.

Lemma exchange_proposal n clusters space : NoDup space -> clusters <> [] -> on_sites n clusters ->
  (forall x, In x space -> length x = n /\ forall y, Permutation x y -> In y space) ->
  proposal space (exchange_T clusters).
Proof.
  intros Hnd Hne Hon Hsp. apply (uniform_proposal (fun _ => clusters) (fun x c => exchange_move c x)); [exact Hnd|].
  intros x Hx. split; [exact Hne|]. intros c Hc. destruct (Hsp x Hx) as [Hl Hp]. apply Hp.
  unfold on_sites in Hon. rewrite Forall_forall in Hon. destruct (Hon c Hc) as [H1 H2].
  apply exchange_perm; rewrite Hl; assumption.
Qed.
