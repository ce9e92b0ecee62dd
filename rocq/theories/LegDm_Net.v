From Coq Require Import List Arith Lia Bool Reals Lra ZArith.
From Verif Require Import Base Rings ARNN_Model ARNN_Proofs ToArray_Model Estim_Model Estim_Spec Estim_Proofs Ansatz_Model Ansatz_Spec Ansatz_Proofs
  LegRbm_Model LegRbm_Spec LegRbm_Proofs LegRbm_Phase LegDm_Model LegDm_Spec LegDm_Proofs.
Import ListNotations.
Open Scope R_scope.

(** ** log_trace *)
Lemma greatest_spec : forall l x, In (greatest x l) (x :: l) /\ forall y, In y (x :: l) -> y <= greatest x l.
Proof.
  induction l as [|a l IH]; intros x; cbn [greatest fold_left].
  - split; [left; reflexivity|]. intros y [->|[]]. cbn. lra.
  - destruct (IH (Rmax x a)) as [I1 I2]. fold (greatest (Rmax x a) l). split.
    + destruct I1 as [E|I1]; [|right; right; exact I1]. rewrite <- E. unfold Rmax. destruct (Rle_dec x a); [right; left|left]; reflexivity.
    + intros y [<-|[<-|I]].
      * eapply Rle_trans; [apply (Rmax_l x a)|]. apply I2. left. reflexivity.
      * eapply Rle_trans; [apply (Rmax_r x a)|]. apply I2. left. reflexivity.
      * apply I2. right. exact I.
Qed.
Definition rsums (l : list R) : R := fold_right Rplus 0 l.
Lemma diag_seq (m : machine) states ds : map (fun s => m s s) states = map (fun d => Some d) ds ->
  sequence (map (fun s => match m s s with Some z => Ok (fst z) | None => Err Fault end) states) = Ok (map fst ds).
Proof.
  revert ds. induction states as [|s l IH]; intros [|d ds] H; try discriminate; [reflexivity|]. cbn [map] in *. injection H as H1 H2.
  cbn [sequence]. rewrite H1, (IH ds H2). reflexivity.
Qed.
Lemma log_trace_value m states d ds : map (fun s => m s s) states = map (fun d => Some d) (d :: ds) ->
  log_trace true m states = Ok (Some (rsums (map (fun x => fst x - greatest (fst d) (map fst ds)) (d :: ds)) + greatest (fst d) (map fst ds))).
Proof.
  intros H. unfold log_trace. cbn [negb]. rewrite (diag_seq _ _ _ H). cbn [map]. rewrite ln_exp. rewrite map_map. reflexivity.
Qed.
Lemma sums_nonpos (l : list cpx) g : (forall x, In x l -> fst x <= g) -> rsums (map (fun x => fst x - g) l) <= 0.
Proof.
  intros H. induction l as [|a l IH]; cbn [map rsums fold_right]; [lra|]. pose proof (H a (or_introl eq_refl)).
  assert (rsums (map (fun x => fst x - g) l) <= 0) by (apply IH; intros; apply H; right; assumption). unfold rsums in *. lra.
Qed.
Lemma exp_sum_pos (l : list cpx) : l <> [] -> 0 < rsums (map (fun x => exp (fst x)) l).
Proof.
  intros H. assert (N : forall l : list cpx, 0 <= rsums (map (fun x => exp (fst x)) l)).
  { clear. induction l as [|a l IH]; cbn [map rsums fold_right]; [lra|]. pose proof (exp_pos (fst a)). unfold rsums in *. lra. }
  destruct l as [|a l]; [contradiction|]. cbn [map rsums fold_right]. pose proof (exp_pos (fst a)). specialize (N l). unfold rsums in N. lra.
Qed.
Lemma exp_sum_above (l : list cpx) z : In z l -> (2 <= length l)%nat -> exp (fst z) < rsums (map (fun x => exp (fst x)) l).
Proof.
  revert z. induction l as [|a l IH]; intros z I L; [cbn in L; lia|]. destruct I as [E|I]; [subst z|]; cbn [map rsums fold_right].
  - destruct l as [|b l]; [cbn in L; lia|]. pose proof (exp_sum_pos (b :: l) ltac:(discriminate)) as P. unfold rsums in P. lra.
  - destruct l as [|b [|c l]]; [contradiction| |].
    + destruct I as [<-|[]]. cbn. pose proof (exp_pos (fst a)). lra.
    + specialize (IH z I ltac:(cbn; lia)). pose proof (exp_pos (fst a)). unfold rsums in IH. lra.
Qed.
Lemma log_trace_low m states ds : (2 <= length states)%nat -> map (fun s => m s s) states = map (fun d => Some d) ds ->
  exists r, log_trace true m states = Ok (Some r) /\ r < ln (rsums (map (fun d => exp (fst d)) ds)).
Proof.
  intros L H. assert (Ld : length ds = length states) by (apply (f_equal (@length _)) in H; rewrite !map_length in H; lia).
  destruct ds as [|d ds]; [cbn in Ld; lia|]. eexists. split; [exact (log_trace_value m states d ds H)|].
  set (g := greatest (fst d) (map fst ds)). destruct (greatest_spec (map fst ds) (fst d)) as [G1 G2]. fold g in G1, G2.
  assert (Gm : forall x : cpx, In x (d :: ds) -> fst x <= g) by (intros x Hx; apply G2; apply (in_map fst) in Hx; exact Hx).
  pose proof (sums_nonpos (d :: ds) g Gm) as N.
  assert (Z : exists z, In z (d :: ds) /\ fst z = g).
  { change (fst d :: map fst ds) with (map fst (d :: ds)) in G1. apply in_map_iff in G1. destruct G1 as (z & E & I). exists z. split; assumption. }
  destruct Z as (z & Iz & Ez). pose proof (exp_sum_above (d :: ds) z Iz ltac:(lia)) as P. rewrite Ez in P.
  apply Rle_lt_trans with g; [lra|]. rewrite <- (ln_exp g) at 1. apply ln_increasing; [apply exp_pos|exact P].
Qed.
Lemma log_trace_one m s d : m s s = Some d -> log_trace true m [s] = Ok (Some (ln (exp (fst d)))).
Proof.
  intros H. rewrite (log_trace_value m [s] d []); [|cbn; rewrite H; reflexivity]. cbn. rewrite ln_exp. do 2 f_equal. ring.
Qed.

(** ** networks *)
Lemma split2_app (n : nat) (x y : list R) : length x = n -> length y = n -> split2 (x ++ y) = Ok (x, y).
Proof.
  intros Hx Hy. unfold split2. rewrite app_length, Hx, Hy. replace (n + n)%nat with (2 * n)%nat by lia.
  rewrite Nat.div2_double. rewrite Nat.even_mul. cbn [Nat.even orb]. rewrite <- Hx. rewrite firstn_app, skipn_app, Nat.sub_diag, firstn_all, skipn_all. cbn.
  rewrite app_nil_r. reflexivity.
Qed.
Definition legamp (z : cpx) : cpx := amplitude (leg_log_cosh z).
Lemma ccosh_conj z : ccosh (conj z) = conj (ccosh z).
Proof.
  unfold ccosh. replace (ropp cC (conj z)) with (conj (ropp cC z)) by (cpx; ring). rewrite !cexp_conj. unfold rscal. cpx; ring.
Qed.
Lemma legamp_conj z : legamp (conj z) = conj (legamp z).
Proof.
  unfold legamp. rewrite !leg_amplitude. rewrite <- ccosh_conj. f_equal. unfold rscal. cpx; ring.
Qed.
Lemma conj_cprod n f : conj (cprod n f) = cprod n (fun j => conj (f j)).
Proof. induction n as [|n IH]; cbn [cprod]; [cpx; ring|]. rewrite conj_mul, IH. reflexivity. Qed.
Lemma sum_amp f n : amplitude (sum_log_cosh (map f (seq 0 n))) = cprod n (fun j => legamp (f j)).
Proof. unfold sum_log_cosh. rewrite map_map. apply (amplitude_sum (fun j => leg_log_cosh (f j))). Qed.
Lemma rdot_conj n x Wr Wi j : rdot n x Wr (neg Wi) j = conj (rdot n x Wr Wi j).
Proof.
  unfold rdot. rewrite (conj_fsum cC cC_laws). apply (fsum_ext cC). intros i _. rewrite conj_mul. unfold cfg, neg. f_equal. cpx; ring.
Qed.
Lemma theta_c_conj n p x j : theta_c n p x j = conj (theta_r n p x j).
Proof.
  unfold theta_c, theta_r. rewrite rdot_conj, conj_add. f_equal. destruct (p_bias p) as [[[br bi] cr]|]; cpx; ring.
Qed.
Definition unit_m (n : nat) (p : purif) (x : list R) (j : nat) : cpx :=
  (rdot n x (p_vr p) (p_vi p) j + match p_bias p with Some (_, _, cr) => (cr j, 0%R) | None => r0 cC end)%C.
Lemma theta_m_unit n p x y j : theta_m n p x y j = (unit_m n p x j + conj (unit_m n p y j))%C.
Proof.
  unfold theta_m, unit_m. rewrite rdot_conj, conj_add. destruct (p_bias p) as [[[br bi] cr]|].
  - generalize (rdot n x (p_vr p) (p_vi p) j), (conj (rdot n y (p_vr p) (p_vi p) j)). intros u w. cpx; ring.
  - generalize (rdot n x (p_vr p) (p_vi p) j), (conj (rdot n y (p_vr p) (p_vi p) j)). intros u w. cpx; ring.
Qed.
Definition spin_rho (n a b : nat) (p : purif) : config -> config -> cpx := rho_of (as_machine (ndm_spin n a b p)).
Lemma spin_rho_is n a b p x y : sized n x -> sized n y ->
  spin_rho n a b p x y = (cprod a (fun j => legamp (theta_r n p x j)) * conj (cprod a (fun j => legamp (theta_r n p y j)))
    * cprod b (fun j => legamp (unit_m n p x j + conj (unit_m n p y j))))%C.
Proof.
  intros Hx Hy. unfold spin_rho, rho_of, as_machine, ndm_spin, dminput. rewrite (split2_app n x y Hx Hy). cbn [bind].
  unfold sum_log_cosh. rewrite !map_app, !amplitude_sum_app. fold (sum_log_cosh (map (theta_r n p x) (seq 0 a))).
  fold (sum_log_cosh (map (theta_m n p x y) (seq 0 b))). fold (sum_log_cosh (map (theta_c n p y) (seq 0 a))). rewrite !sum_amp.
  rewrite conj_cprod. rewrite (cprod_ext a (fun j => legamp (theta_c n p y j)) (fun j => conj (legamp (theta_r n p y j)))).
  2:{ intros j _. rewrite theta_c_conj. apply legamp_conj. }
  rewrite (cprod_ext b (fun j => legamp (theta_m n p x y j)) (fun j => legamp (unit_m n p x j + conj (unit_m n p y j))%C)).
  2:{ intros j _. rewrite theta_m_unit. reflexivity. }
  rg.
Qed.
Lemma conj_swap u w : conj (u + conj w)%C = (w + conj u)%C.
Proof. cpx; ring. Qed.
(** kernels of this form *)
Section Kernel.
  Variables (X : Type) (ok : X -> Prop) (K : X -> X -> cpx) (f : X -> cpx) (b : nat) (u : X -> nat -> cpx).
  Hypothesis HK : forall x y, ok x -> ok y -> K x y = (f x * conj (f y) * cprod b (fun j => legamp (u x j + conj (u y j))))%C.
  Lemma kernel_hermitian : hermitian ok K.
  Proof.
    intros x y Hx Hy. rewrite (HK x y Hx Hy), (HK y x Hy Hx). rewrite !conj_mul, conj_cprod.
    rewrite (cprod_ext b (fun j => conj (legamp (u y j + conj (u x j)))%C) (fun j => legamp (u x j + conj (u y j))%C)).
    2:{ intros j _. rewrite <- legamp_conj, conj_swap. reflexivity. }
    rewrite (cr_conj_conj cC cC_laws). rg.
  Qed.
  Lemma kernel_gram : (forall x y j, ok x -> ok y -> (j < b)%nat -> off_axis (u x j + conj (u y j))%C) -> gram ok K.
  Proof.
    intros H. apply (gram_ext ok (fun x y => (f x * conj (f y) * cprod b (fun j => ccosh (u x j + conj (u y j))))%C)).
    - intros x y Hx Hy. rewrite (HK x y Hx Hy). f_equal. apply cprod_ext. intros j Hj. symmetry. apply leg_ok, H; assumption.
    - apply gram_mul; [apply gram_one|]. apply gram_prod. intros j _.
      apply (gram_ext ok (fun x y => rscal (1/2) (cexp (u x j) * conj (cexp (u y j)) + cexp (ropp cC (u x j)) * conj (cexp (ropp cC (u y j))))%C)).
      + intros x y _ _. unfold ccosh. f_equal. rewrite <- !cexp_conj, <- !cexp_mul. f_equal. f_equal. cpx; ring.
      + apply gram_scale; [lra|]. apply gram_add; [apply (gram_one ok (fun x => cexp (u x j)))|apply (gram_one ok (fun x => cexp (ropp cC (u x j))))].
  Qed.
  Lemma kernel_diagonal x : ok x -> 0 <= fst (K x x) /\ snd (K x x) = 0.
  Proof.
    intros Hx. rewrite (HK x x Hx Hx).
    rewrite (cprod_ext b _ (fun j => emb (cosh (2 * fst (u x j))))).
    2:{ intros j _. unfold legamp. replace (u x j + conj (u x j))%C with ((2 * fst (u x j), 0) : cpx) by (cpx; ring). rewrite leg_real.
        cbn [amplitude]. rewrite cexp_real. f_equal. apply exp_ln, cosh_pos. }
    rewrite cprod_real. set (w := rprod _ _). assert (0 < w) by (apply rprod_pos; intros; apply cosh_pos).
    replace (f x * conj (f x))%C with (emb (cnorm2 (f x))) by (rewrite cnorm2_conj; rg). rewrite <- emb_mul. unfold emb. cbn [fst snd]. split; [|reflexivity].
    apply Rmult_le_pos; [apply Ansatz_Proofs.cnorm2_nonneg|lra].
  Qed.
End Kernel.

(** NdmSpinPhase *)
Lemma rdot_real n x W j : rdot n x W (fun _ _ => 0) j = (fsum rR n (fun i => nth i x 0 * W i j), 0).
Proof.
  apply injective_projections; unfold rdot; cbn [fst snd]; [rewrite fst_fsum|rewrite snd_fsum].
  - apply (fsum_ext rR). intros i _. cbn. ring.
  - apply (fsum_zero rR rR_laws). intros i _. cbn. ring.
Qed.
Definition layer (n a : nat) (W : nat -> nat -> R) (b : nat -> R) (x : list R) : R :=
  lsum rR (map (fun j => ln (cosh (fsum rR n (fun i => nth i x 0 * W i j) + b j))) (seq 0 a)).
Lemma row_col_is n a W b x : row_col n a W (Some b) x = Ok (Some (layer n a W b x, 0)).
Proof.
  unfold row_col, sum_log_cosh, layer. f_equal. rewrite map_map. rewrite <- lsum_log_real. f_equal. apply map_ext. intros j.
  rewrite rdot_real. cbn [radd cC fst snd]. rewrite Rplus_0_l. apply leg_real.
Qed.
Definition vdot (n : nat) (w : nat -> R) (x : list R) : R := fsum rR n (fun i => nth i x 0 * w i).
Definition phase_factor (n a : nat) (p : phase_par) (bm bp : nat -> R) (x : list R) : cpx :=
  cexp (1 / 2 * layer n a (w_mod p) bm x + match v_bias p with Some (br, _) => 1 / 2 * vdot n br x | None => 0 end,
        1 / 2 * layer n a (w_phs p) bp x + match v_bias p with Some (_, bj) => 1 / 2 * vdot n bj x | None => 0 end).
Definition unit_x (n : nat) (p : phase_par) (x : list R) (j : nat) : cpx :=
  (rdot n x (half (u_r p)) (half (u_i p)) j + match d_r p with Some d => (d j / 2, 0%R) | None => r0 cC end)%C.
Lemma theta_x_unit n p x y j : theta_x n p x y j = (unit_x n p x j + conj (unit_x n p y j))%C.
Proof.
  unfold theta_x, unit_x. rewrite rdot_conj, conj_add.
  generalize (rdot n x (half (u_r p)) (half (u_i p)) j), (conj (rdot n y (half (u_r p)) (half (u_i p)) j)). intros u w.
  destruct (d_r p) as [d|]; cpx; field.
Qed.
Definition phase_rho (n a b : nat) (p : phase_par) : config -> config -> cpx := rho_of (as_machine (ndm_phase n a b p)).
Lemma v_part_is n p x y : v_part n p x y
  = (match v_bias p with Some (br, _) => 1 / 2 * vdot n br x + 1 / 2 * vdot n br y | None => 0 end,
     match v_bias p with Some (_, bj) => 1 / 2 * vdot n bj x - 1 / 2 * vdot n bj y | None => 0 end).
Proof.
  unfold v_part, vdot. destruct (v_bias p) as [[br bj]|]; [|reflexivity].
  assert (A : forall g h, fsum rR n g + fsum rR n h = fsum rR n (fun i => g i + h i)) by (intros g h; symmetry; exact (fsum_add rR rR_laws n g h)).
  assert (B : forall g h, fsum rR n g - fsum rR n h = fsum rR n (fun i => g i - h i)) by (intros g h; symmetry; exact (fsum_sub rR rR_laws n g h)).
  f_equal.
  - rewrite <- Rmult_plus_distr_l, A. f_equal. apply (fsum_ext rR). intros i _. match goal with |- ?a = ?b => change (@eq R a b) end. ring.
  - rewrite <- Rmult_minus_distr_l, B. f_equal. apply (fsum_ext rR). intros i _. match goal with |- ?a = ?b => change (@eq R a b) end. ring.
Qed.
Lemma phase_rho_is n a b p bm bp x y : b_mod p = Some bm -> b_phs p = Some bp -> sized n x -> sized n y ->
  phase_rho n a b p x y = (phase_factor n a p bm bp x * conj (phase_factor n a p bm bp y)
    * cprod b (fun j => legamp (unit_x n p x j + conj (unit_x n p y j))))%C.
Proof.
  intros Em Ep Hx Hy. unfold phase_rho, rho_of, as_machine, ndm_phase, dminput. rewrite (split2_app n x y Hx Hy). cbn [bind].
  rewrite Em, Ep, !row_col_is. cbn [bind]. rewrite !amplitude_ladd, sum_amp.
  rewrite (cprod_ext b (fun j => legamp (theta_x n p x y j)) (fun j => legamp (unit_x n p x j + conj (unit_x n p y j))%C)) by (intros j _; rewrite theta_x_unit; reflexivity).
  cbn [amplitude ladd lscale option_map]. set (P := cprod b _).
  match goal with |- (?a * ?b * P * ?d)%C = _ => transitivity ((a * b * d) * P)%C; [rg|] end. f_equal.
  unfold phase_factor. rewrite v_part_is. rewrite <- cexp_conj, <- !cexp_mul. f_equal.
  destruct (v_bias p) as [[br bj]|]; cpx; field.
Qed.
Lemma phase_no_bias n a b p xr xc : sized n xr -> sized n xc -> b_mod p = None -> ndm_phase n a b p xr (Some xc) = Err TypeError.
Proof. intros Hx Hy E. unfold ndm_phase, dminput. rewrite (split2_app n xr xc Hx Hy). cbn [bind]. rewrite E. reflexivity. Qed.
Lemma joined n a b p x y : ndm_spin n a b p x (Some y) = ndm_spin n a b p (x ++ y) None.
Proof. reflexivity. Qed.

(** ** a matrix that is not positive *)
Definition th (x y : config) : cpx :=
  (ln 2 / 2 * (nth 0 x 0 + nth 1 x 0 + nth 0 y 0 + nth 1 y 0), PI / 2 * (nth 0 x 0 - nth 0 y 0)).
Definition bad (x y : config) : cpx := legamp (th x y).
Lemma cosh_ln2 : cosh (ln 2) = 5 / 4.
Proof. unfold cosh. rewrite exp_Ropp, exp_ln by lra. field. Qed.
Lemma cosh_2ln2 : cosh (2 * ln 2) = 17 / 8.
Proof. unfold cosh. replace (2 * ln 2) with (ln 2 + ln 2) by ring. rewrite exp_Ropp, exp_plus, exp_ln by lra. field. Qed.
Lemma ccosh_pi r : ccosh (r, PI) = (- cosh r, 0) /\ ccosh (r, - PI) = (- cosh r, 0).
Proof.
  unfold ccosh, rscal, cexp. cbn [ropp radd cC fst snd]. rewrite Ropp_involutive, !cos_neg, !sin_neg, cos_PI, sin_PI. unfold cosh. split; f_equal; field.
Qed.
Lemma cosh_even x : cosh (- x) = cosh x.
Proof. unfold cosh. rewrite Ropp_involutive. f_equal. ring. Qed.
Lemma ln2_pos : 0 < ln 2.
Proof. rewrite <- ln_1. apply ln_increasing; lra. Qed.
Lemma bad_real r x y : th x y = (r, 0) -> bad x y = (cosh r, 0).
Proof. intros H. unfold bad, legamp. rewrite H, leg_real. cbn [amplitude]. rewrite cexp_real, exp_ln by apply cosh_pos. reflexivity. Qed.
Lemma bad_axis x y : fst (th x y) = 0 -> bad x y = (1, 0).
Proof. intros H. unfold bad, legamp. apply leg_axis, H. Qed.
Lemma bad_pi r x y : r <> 0 -> (th x y = (r, PI) \/ th x y = (r, - PI)) -> bad x y = (- cosh r, 0).
Proof.
  intros N H. unfold bad, legamp. rewrite leg_ok.
  - destruct (ccosh_pi r) as [C1 C2]. destruct H as [-> | ->]; assumption.
  - left. destruct H as [-> | ->]; exact N.
Qed.
Definition pp : config := [1; 1]. Definition pm : config := [1; -1]. Definition mp : config := [-1; 1]. Definition mm : config := [-1; -1].
Definition vec4 : list (cpx * config) := [((1, 0), pp); ((-1, 0), pm); ((1, 0), mp); ((-1, 0), mm)].
Lemma bad_negative : fst (quadratic bad vec4) < 0.
Proof.
  pose proof ln2_pos as L.
  assert (D1 : bad pp pp = (17 / 8, 0)) by (rewrite (bad_real (2 * ln 2)), cosh_2ln2; [reflexivity|unfold th; cbn; f_equal; field]).
  assert (D2 : bad mm mm = (17 / 8, 0)) by (rewrite (bad_real (- (2 * ln 2))), cosh_even, cosh_2ln2; [reflexivity|unfold th; cbn; f_equal; field]).
  assert (D3 : bad pm pm = (1, 0)) by (apply bad_axis; unfold th; cbn; field).
  assert (D4 : bad mp mp = (1, 0)) by (apply bad_axis; unfold th; cbn; field).
  assert (A1 : bad pp mm = (1, 0)) by (apply bad_axis; unfold th; cbn; field).
  assert (A2 : bad mm pp = (1, 0)) by (apply bad_axis; unfold th; cbn; field).
  assert (A3 : bad pm mp = (1, 0)) by (apply bad_axis; unfold th; cbn; field).
  assert (A4 : bad mp pm = (1, 0)) by (apply bad_axis; unfold th; cbn; field).
  assert (R1 : bad pp pm = (5 / 4, 0)) by (rewrite (bad_real (ln 2)), cosh_ln2; [reflexivity|unfold th; cbn; f_equal; field]).
  assert (R2 : bad pm pp = (5 / 4, 0)) by (rewrite (bad_real (ln 2)), cosh_ln2; [reflexivity|unfold th; cbn; f_equal; field]).
  assert (R3 : bad mp mm = (5 / 4, 0)) by (rewrite (bad_real (- ln 2)), cosh_even, cosh_ln2; [reflexivity|unfold th; cbn; f_equal; field]).
  assert (R4 : bad mm mp = (5 / 4, 0)) by (rewrite (bad_real (- ln 2)), cosh_even, cosh_ln2; [reflexivity|unfold th; cbn; f_equal; field]).
  assert (P1 : bad pp mp = (- (5 / 4), 0)) by (rewrite (bad_pi (ln 2)), cosh_ln2; [reflexivity|lra|left; unfold th; cbn; f_equal; field]).
  assert (P2 : bad mp pp = (- (5 / 4), 0)) by (rewrite (bad_pi (ln 2)), cosh_ln2; [reflexivity|lra|right; unfold th; cbn; f_equal; field]).
  assert (P3 : bad pm mm = (- (5 / 4), 0)) by (rewrite (bad_pi (- ln 2)), cosh_even, cosh_ln2; [reflexivity|lra|left; unfold th; cbn; f_equal; field]).
  assert (P4 : bad mm pm = (- (5 / 4), 0)) by (rewrite (bad_pi (- ln 2)), cosh_even, cosh_ln2; [reflexivity|lra|right; unfold th; cbn; f_equal; field]).
  unfold quadratic, vec4. cbn [map fst snd]. rewrite D1, D2, D3, D4, A1, A2, A3, A4, R1, R2, R3, R4, P1, P2, P3, P4. cbn. lra.
Qed.
