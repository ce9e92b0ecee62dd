(** Statements about whole calls *)
From Coq Require Import List Arith ZArith QArith Qround Bool Reals Lra Lia Lqa Ring Permutation.
From Verif Require Import Base Rings ARNN_Model ARNN_Proofs ToArray_Model Estim_Model Estim_Spec Estim_Proofs
  Group_Model Group_Spec Group_Proofs Masked_Spec Symm_Model Symm_Spec Symm_Proofs Ansatz_Model Ansatz_Spec Ansatz_Proofs Equiv_Proofs LocVal_Proofs
  LegRbm_Model LegRbm_Spec LegRbm_Proofs LegRbm_Grad LegRbm_Sym.
Import ListNotations.
Open Scope R_scope.
Open Scope nat_scope.

Section Whole.
  Variables (m : rmach) (p : list cpx) (m' : rmach).
  Let c := m_cfg m.
  Hypothesis HS : set_parameters m p = Ok m'.
  Hypothesis HP : Forall (holds (c_type c)) p.

  Lemma whole : length p = n_par c /\ m' = RMach c p (expand c p).
  Proof. exact (set_ok m p m' HS HP). Qed.

  Lemma amplitude_main x out : Forall (Forall (holds (c_type c))) x ->
    exists vals buf, log_val m' 2 x out = Ok (vals, buf) /\ length vals = length x /\
      forall i, i < length x -> (forall j, j < doc_hidden c -> off_axis (unit_input c p (nth i x []) j)) ->
        amplitude (nth i vals None) = doc_amplitude c p (nth i x []).
  Proof.
    intros Hx. destruct whole as [HL ->]. rewrite log_val_is by exact Hx. eexists _, _. split; [reflexivity|]. split; [apply map_length|].
    intros i Hi H. rewrite (nth_indep _ _ (row_val c p [])) by (now rewrite map_length). rewrite map_nth. now apply row_amplitude.
  Qed.
  Lemma amplitude_real_main x out : c_type c = PFloat -> Forall (Forall (holds (c_type c))) x ->
    exists vals buf, log_val m' 2 x out = Ok (vals, buf) /\ length vals = length x /\
      forall i, i < length x -> amplitude (nth i vals None) = doc_amplitude c p (nth i x []).
  Proof.
    intros HT Hx. destruct (amplitude_main x out Hx) as (vals & buf & E & L & H). exists vals, buf. split; [exact E|]. split; [exact L|].
    intros i Hi. apply H; [exact Hi|]. intros j _. apply real_off_axis; [exact HT|rewrite HT in HP; exact HP|].
    rewrite Forall_forall in Hx. rewrite <- HT. apply Hx, nth_In, Hi.
  Qed.
  Lemma out_main x : c_vis c = false -> Forall (Forall (holds (c_type c))) x ->
    exists vals, log_val m' 2 x true = Ok (vals, Some vals).
  Proof.
    intros Hv Hx. destruct whole as [HL ->]. rewrite log_val_is by exact Hx. exists (map (row_val c p) x). do 3 f_equal.
    apply map_ext. intros s. unfold row_val. now rewrite Hv.
  Qed.
  Lemma gradient_call x ndim : ndim = 2 -> proper c ->
    exists d, der_log m' ndim x = Ok d /\ length d = length x /\
      forall i, i < length x -> length (nth i d []) = n_par c /\
      forall (path : R -> list cpx) t0 dp, path t0 = p -> (forall t, length (path t) = n_par c) ->
        (forall k, k < n_par c -> cderiv (fun t => nth k (path t) (0, 0)%R) t0 (dp k)) ->
        (forall j, j < doc_hidden c -> ccosh (unit_input c p (nth i x []) j) <> (0, 0)%R) ->
        cderiv (fun t => doc_amplitude c (path t) (nth i x [])) t0
          (doc_amplitude c p (nth i x []) * fsum cC (n_par c) (fun k => nth k (nth i d []) (0, 0)%R * dp k))%C.
  Proof.
    intros -> Hpr. destruct whole as [HL ->]. unfold der_log. cbn [Nat.eqb negb m_cfg m_bare]. eexists. split; [reflexivity|]. split; [apply map_length|].
    intros i Hi. rewrite (nth_indep _ _ (der_row c (expand c p) [])) by (now rewrite map_length). rewrite map_nth. split; [apply der_row_length|].
    intros path t0 dp <- H1 H2 H3. now apply gradient_main.
  Qed.
  Lemma symmetric_main rows g x out : c_sym c = Some rows -> permutation_group (c_n c) rows -> In g rows ->
    Forall (Forall (holds (c_type c))) x -> Forall (fun s => length s = c_n c) x ->
    fst_ok (log_val m' 2 (map (permuted (0, 0)%R g) x) out) = fst_ok (log_val m' 2 x out).
  Proof.
    intros Hs HG Hg Hx Hl. destruct whole as [HL ->].
    assert (Hx' : Forall (Forall (holds (c_type c))) (map (permuted (0, 0)%R g) x)).
    { apply Forall_forall. intros r Hr. apply in_map_iff in Hr. destruct Hr as [s [<- Hin]]. rewrite Forall_forall in Hx. specialize (Hx s Hin).
      apply Forall_forall. intros z Hz. unfold permuted in Hz. apply in_map_iff in Hz. destruct Hz as [k [<- _]].
      destruct (nth_in_or_default k s (0, 0)%R) as [H|H]; [|rewrite H; intros _; reflexivity]. rewrite Forall_forall in Hx. auto. }
    rewrite !log_val_is by assumption. unfold fst_ok; cbn [bind fst]. f_equal. rewrite map_map. apply map_ext_in. intros s Hin. rewrite Forall_forall in Hl. now apply (row_symm c p s rows); auto.
  Qed.
End Whole.

(** ** parameters *)
Lemma set_get_main m p m' : set_parameters m p = Ok m' -> get_parameters m' = map (cast (c_type (m_cfg m))) p /\ length p = n_par (m_cfg m) /\ m_cfg m' = m_cfg m.
Proof.
  unfold set_parameters. destruct (Nat.eqb_spec (length p) (n_par (m_cfg m))); [|discriminate]. cbn [negb]. intros [= <-]. auto.
Qed.
Lemma set_wrong_main m p : length p <> n_par (m_cfg m) -> set_parameters m p = Err ValueError.
Proof. intros H. unfold set_parameters. now rewrite (proj2 (Nat.eqb_neq _ _) H). Qed.
Lemma set_back_main m m1 p : set_parameters m p = Ok m1 -> forall m2 q m3, set_parameters m1 q = Ok m2 -> set_parameters m2 (get_parameters m1) = Ok m3 -> m3 = m1.
Proof.
  intros H m2 q m3 H2 H3. unfold set_parameters in H, H2. destruct (Nat.eqb_spec (length p) (n_par (m_cfg m))) as [L|]; [|discriminate]. cbn [negb] in H.
  destruct (negb _) eqn:E in H2; [discriminate|]. injection H as H. injection H2 as H2. subst m1. cbn [m_cfg] in *. subst m2.
  unfold set_parameters, get_parameters in H3. cbn [m_cfg m_par] in H3. destruct (negb _) in H3; [discriminate|].
  injection H3 as <-. rewrite map_map. assert (C : forall d (z : cpx), cast d (cast d z) = cast d z) by (intros [] z; reflexivity).
  f_equal; [|f_equal]; apply map_ext; intros z; apply C.
Qed.
Lemma write_main m p : c_sym (m_cfg m) = None -> c_type (m_cfg m) = PComplex -> length p = n_par (m_cfg m) ->
  set_parameters m p = Ok (write_state_dict m p).
Proof.
  intros Hs Ht Hl. rewrite set_total; [|exact Hl|].
  - unfold write_state_dict, expand. now rewrite Hs.
  - apply Forall_forall. intros z _ E. rewrite Ht in E. discriminate.
Qed.

(** ** witnesses *)
Definition wit_cfg : rcfg := RCfg 1 false true None 1 PComplex.
Lemma theta_one W b s j : theta 1 W b s j = (W 0 j * s 0 + ofun b j)%C.
Proof. rewrite theta_sum. cbn [fsum]. rg. Qed.
Lemma ccosh_imag y : ccosh (0, y)%R = (cos y, 0)%R.
Proof.
  unfold ccosh, cexp, rscal. cbn [ropp cC fst snd radd]. rewrite Ropp_0, exp_0, cos_neg, sin_neg. f_equal; Lra.lra.
Qed.
Lemma wit_unit : unit_input wit_cfg [(0, PI / 3); (0, 0)]%R [(1, 0)]%R 0 = (0, PI / 3)%R.
Proof. unfold unit_input. cbn [wit_cfg c_n]. rewrite theta_one. unfold doc_w, doc_b, entries, size_a, size_b. cbn. f_equal; Lra.lra. Qed.
Lemma wit_doc : doc_amplitude wit_cfg [(0, PI / 3); (0, 0)]%R [(1, 0)]%R = (1 / 2, 0)%R.
Proof.
  unfold doc_amplitude, boltzmann. change (doc_hidden wit_cfg) with 1. cbn [cprod]. change (doc_a wit_cfg [(0, PI / 3); (0, 0)]%R) with (@None (nat -> cpx)). cbn [visible].
  change (theta (c_n wit_cfg) (doc_w wit_cfg [(0, PI / 3); (0, 0)]%R) (doc_b wit_cfg [(0, PI / 3); (0, 0)]%R) (fun i => nth i [(1, 0)]%R (0, 0)%R) 0)
    with (unit_input wit_cfg [(0, PI / 3); (0, 0)]%R [(1, 0)]%R 0).
  rewrite wit_unit, ccosh_imag, cos_PI3. change (cexp (0, 0)%R) with (cexp (r0 cC)). rewrite cexp_0. cpx; Lra.lra.
Qed.
Lemma amplitude_wrong : exists m p m' x vals, set_parameters m p = Ok m' /\ c_type (m_cfg m) = PComplex /\ log_val m' 2 [x] false = Ok (vals, None) /\
  doc_amplitude (m_cfg m) p x = (1 / 2, 0)%R /\ amplitude (nth 0 vals None) = (1, 0)%R.
Proof.
  set (p := [(0, PI / 3); (0, 0)]%R). exists (RMach wit_cfg [] []), p.
  assert (F : Forall (holds (c_type wit_cfg)) p) by (repeat constructor; discriminate).
  eexists (RMach wit_cfg p (expand wit_cfg p)), [(1, 0)]%R. eexists. split; [reflexivity|]. split; [reflexivity|]. split.
  - rewrite log_val_is; [reflexivity|]. repeat constructor; discriminate.
  - split; [exact wit_doc|]. cbn [map nth]. unfold row_val. cbn [wit_cfg c_vis]. unfold hid_val. change (doc_hidden wit_cfg) with 1. cbn [seq map lsum_log].
    rewrite amplitude_ladd. unfold p. rewrite wit_unit, leg_axis by reflexivity. cbn [amplitude]. change (cexp (0, 0)%R) with (cexp (r0 cC)). rewrite cexp_0. cpx; Lra.lra.
Qed.
Definition wit_vis : rcfg := RCfg 1 true false None 0 PComplex.
Lemma out_wrong : exists m p m' x vals buf, set_parameters m p = Ok m' /\ log_val m' 2 x true = Ok (vals, Some buf) /\
  vals = [Some (1, 0)%R] /\ buf = [Some (0, 0)%R].
Proof.
  set (p := [(1, 0)]%R). exists (RMach wit_vis [] []), p, (RMach wit_vis p (expand wit_vis p)), [[(1, 0)]]%R, (map (row_val wit_vis p) [[(1, 0)]]%R), (map (hid_val wit_vis p) [[(1, 0)]]%R). split; [reflexivity|].
  split; [exact (log_val_is wit_vis p [[(1, 0)]]%R true ltac:(repeat constructor; discriminate))|]. split.
  - cbn [map]. f_equal. unfold row_val. cbn [wit_vis c_vis]. unfold hid_val. change (doc_hidden wit_vis) with 0. cbn [seq map lsum_log ladd]. f_equal.
    cbn. f_equal; Lra.lra.
  - reflexivity.
Qed.
(** two sites, the two permutations, one group of hidden units without bias *)
Definition wit_sym : rcfg := RCfg 2 true false (Some [[0; 1]; [1; 0]]) 0 PComplex.
Lemma write_wrong : exists m p m1 q x v1 v2 m2, set_parameters m p = Ok m1 /\ length q = n_par (m_cfg m) /\
  get_parameters (write_state_dict m1 q) = q /\
  log_val m1 2 x false = Ok (v1, None) /\ log_val (write_state_dict m1 q) 2 x false = Ok (v1, None) /\
  set_parameters m1 q = Ok m2 /\ log_val m2 2 x false = Ok (v2, None) /\ v1 <> v2.
Proof.
  set (p := [(0, 0)]%R). set (q := [(1, 0)]%R).
  exists (RMach wit_sym [] []), p, (RMach wit_sym p (expand wit_sym p)), q, [[(1, 0); (0, 0)]]%R, (map (row_val wit_sym p) [[(1, 0); (0, 0)]]%R), (map (row_val wit_sym q) [[(1, 0); (0, 0)]]%R), (RMach wit_sym q (expand wit_sym q)).
  split; [reflexivity|]. split; [reflexivity|]. split; [reflexivity|].
  assert (X : Forall (Forall (holds (c_type wit_sym))) [[(1, 0); (0, 0)]]%R) by (repeat constructor; discriminate).
  split; [exact (log_val_is wit_sym p _ false X)|]. split; [exact (log_val_is wit_sym p _ false X)|]. split; [reflexivity|].
  split; [exact (log_val_is wit_sym q _ false X)|]. cbn [map]. unfold row_val. cbn [wit_sym c_vis]. unfold hid_val. change (doc_hidden wit_sym) with 0.
  cbn [seq map lsum_log ladd]. intros E. injection E. intros. Lra.lra.
Qed.

(** ** RbmMultiVal *)
Lemma multi_rows m locals size x out : Forall (fun r => length r = size) x ->
  log_val_multi m locals size 2 x out = log_val m 2 (map (one_hot_flat locals) x) out.
Proof. intros F. unfold log_val_multi. cbn [Nat.eqb negb]. now rewrite one_hot_rows. Qed.
Lemma multi_holds d locals x : Forall (Forall (holds d)) (map (one_hot_flat locals) x).
Proof. apply Forall_forall. intros r Hr. apply in_map_iff in Hr. destruct Hr as [s [<- _]]. apply one_hot_holds. Qed.
Lemma multi_symmetric m p m' locals size rows g x out : set_parameters m p = Ok m' -> Forall (holds (c_type (m_cfg m))) p ->
  0 < length locals -> permutation_group size rows -> In g rows ->
  c_n (m_cfg m) = length locals * size -> c_sym (m_cfg m) = Some (map (extended (length locals)) rows) ->
  Forall (fun r => length r = size) x ->
  fst_ok (log_val_multi m' locals size 2 (map (permuted 0%Z g) x) out) = fst_ok (log_val_multi m' locals size 2 x out).
Proof.
  intros HS HP HL HG Hg Hn Hs Hx. pose proof HG as (F & _). rewrite Forall_forall in F. pose proof (F g Hg) as Pg.
  rewrite !multi_rows; [|exact Hx|].
  2:{ apply Forall_forall. intros r Hr. apply in_map_iff in Hr. destruct Hr as [s [<- _]]. rewrite permuted_len. now apply perm_len. }
  rewrite map_map.
  replace (map (fun r => one_hot_flat locals (permuted 0%Z g r)) x) with (map (permuted (0, 0)%R (extended (length locals) g)) (map (one_hot_flat locals) x)).
  2:{ rewrite map_map. apply map_ext_in. intros r Hr. symmetry. apply one_hot_permuted. apply Forall_forall. intros k Hk.
      rewrite Forall_forall in Hx. rewrite (Hx r Hr). now apply (perm_lt size g). }
  apply (symmetric_main m p m' HS HP (map (extended (length locals)) rows)).
  - exact Hs.
  - rewrite Hn, Nat.mul_comm. now apply ext_group.
  - now apply in_map.
  - apply multi_holds.
  - apply Forall_forall. intros r Hr. apply in_map_iff in Hr. destruct Hr as [s [<- Hin]]. rewrite one_hot_length. rewrite Forall_forall in Hx. rewrite (Hx s Hin), Hn. lia.
Qed.

(** ** constructors *)
Lemma hidden_density size al vis hid d : d <> POther ->
  (exists c, (0 <= dval al)%Q /\ construct size None (Some al) vis hid ANone d = Ok c /\ c_sym c = None /\ c_n c = size /\
     nearest_even (dval al * inject_Z (Z.of_nat size)) (Z.of_nat (doc_hidden c)))
  \/ ((dval al < 0)%Q /\ construct size None (Some al) vis hid ANone d = Err ValueError).
Proof.
  intros Hd. assert (E : forall X : res rcfg, match d with POther => Err TypeError | _ => X end = X) by (intros X; destruct d; [reflexivity|reflexivity|contradiction]).
  unfold construct. rewrite E. unfold get_hidden. destruct (Qle_bool 0 (dval al)) eqn:L; cbn [bind].
  - left. apply Qle_bool_iff in L. set (q := (dval al * inject_Z (Z.of_nat size))%Q).
    pose proof (py_round_ok q) as N. assert (Hq : (0 <= q)%Q). { unfold q. apply Qmult_le_0_compat; [exact L|]. change 0%Q with (inject_Z 0). rewrite <- Zle_Qle. lia. }
    assert (P : (0 <= py_round q)%Z).
    { destruct N as (_ & N2 & _). destruct (Z_lt_le_dec (py_round q) 0) as [H|H]; [|exact H]. exfalso.
      assert ((inject_Z (py_round q) <= inject_Z (-1))%Q) by (rewrite <- Zle_Qle; lia). change (inject_Z (-1)) with (- 1)%Q in *. lra. }
    rewrite (proj2 (Z.ltb_ge _ _) P). eexists. split; [exact L|]. split; [reflexivity|]. split; [reflexivity|]. split; [reflexivity|].
    unfold doc_hidden. cbn [c_sym c_feat]. rewrite Z2Nat.id by exact P. exact N.
  - right. split; [|reflexivity]. apply Qnot_le_lt. intros H. apply Qle_bool_iff in H. congruence.
Qed.
Lemma hidden_symmetric size al vis hid rows d : d <> POther -> rows <> [] -> Forall (fun r => length r = size) rows -> (0 <= al)%Z ->
  exists c, construct size None (Some (DInt al)) vis hid (ATable rows) d = Ok c /\ c_sym c = Some rows /\ c_n c = size /\
    (Z.of_nat (doc_hidden c) = al * Z.of_nat size - (al * Z.of_nat size) mod Z.of_nat (length rows))%Z.
Proof.
  intros Hd Hr F Ha. assert (E : forall X : res rcfg, match d with POther => Err TypeError | _ => X end = X) by (intros X; destruct d; [reflexivity|reflexivity|contradiction]).
  unfold construct. rewrite E. unfold get_hidden.
  assert (B : forallb (fun r : list nat => length r =? size) rows && (0 <? length rows) = true).
  { apply andb_true_intro. split; [|apply Nat.ltb_lt; destruct rows; [contradiction|cbn; lia]].
    apply forallb_forall. intros r Hin. rewrite Forall_forall in F. apply Nat.eqb_eq, F, Hin. }
  rewrite B. cbn [negb bind]. assert (Lp : (0 < Z.of_nat (length rows))%Z) by (destruct rows; [contradiction|cbn [length]; lia]).
  rewrite py_int_div by lia. set (a := (al * Z.of_nat size)%Z). set (b := Z.of_nat (length rows)) in *.
  assert (P : (0 <= a / b)%Z) by (apply Z.div_pos; unfold a; lia).
  rewrite (proj2 (Z.ltb_ge _ _)) by nia. eexists. split; [reflexivity|]. split; [reflexivity|]. split; [reflexivity|].
  unfold doc_hidden. cbn [c_sym c_feat]. rewrite Nat2Z.inj_mul, Z2Nat.id by exact P. fold b. pose proof (Z.div_mod a b). lia.
Qed.
Lemma hidden_explicit size h vis hid d : d <> POther ->
  construct size (Some h) None vis hid ANone d = (if (h <? 0)%Z then Err RuntimeError else Ok (RCfg size vis hid None (Z.to_nat h) d)).
Proof.
  intros Hd. assert (E : forall X : res rcfg, match d with POther => Err TypeError | _ => X end = X) by (intros X; destruct d; [reflexivity|reflexivity|contradiction]).
  unfold construct. rewrite E. unfold get_hidden. destruct (h <? 0)%Z eqn:L; cbn [bind]; [reflexivity|]. rewrite Z.eqb_refl. cbn [bind]. rewrite L. reflexivity.
Qed.
Lemma hidden_both size h al vis hid d c : construct size (Some h) (Some al) vis hid ANone d = Ok c ->
  construct size None (Some al) vis hid ANone d = Ok c /\ h = Z.of_nat (doc_hidden c).
Proof.
  unfold construct. assert (G : forall P (X : res rcfg), match d with POther => Err TypeError | _ => X end = Ok P -> X = Ok P /\ d <> POther).
  { intros P X H. destruct d; try discriminate; split; auto; discriminate. }
  intros H. apply G in H. destruct H as [H Hd].
  assert (E : forall X : res rcfg, match d with POther => Err TypeError | _ => X end = X) by (intros X; destruct d; [reflexivity|reflexivity|contradiction]).
  rewrite E. unfold get_hidden in *. destruct (Qle_bool 0 (dval al)); cbn [bind] in *; [|discriminate].
  set (r := py_round (dval al * inject_Z (Z.of_nat size))) in *. destruct (Z.eqb_spec h r) as [->|]; cbn [bind] in *; [|discriminate].
  split; [exact H|]. destruct (r <? 0)%Z eqn:L; [discriminate|]. injection H as <-. unfold doc_hidden. cbn [c_sym c_feat]. apply Z.ltb_ge in L. rewrite Z2Nat.id by exact L. reflexivity.
Qed.
