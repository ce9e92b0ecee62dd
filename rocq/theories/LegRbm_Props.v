(** * C99: the numpy Boltzmann machines *)
From Coq Require Import List Arith ZArith QArith Bool Reals Lia Lra.
From Verif Require Import Base Rings ARNN_Model ToArray_Model Estim_Model Estim_Spec Estim_Proofs Group_Spec Symm_Spec Ansatz_Model Ansatz_Spec
  LegRbm_Model LegRbm_Spec LegRbm_Proofs LegRbm_Grad LegRbm_Sym LegRbm_Final LegRbm_Phase.
Import ListNotations.
Open Scope R_scope.
Open Scope nat_scope.

(** The exponential of log_val is the documented wave function of the parameters that were
    set, for every configuration for which no hidden unit has a purely imaginary input. *)
Theorem C99_amplitude_partial : forall m p m' x out,
  set_parameters m p = Ok m' -> Forall (holds (c_type (m_cfg m))) p -> Forall (Forall (holds (c_type (m_cfg m)))) x ->
  exists vals buf, log_val m' 2 x out = Ok (vals, buf) /\ length vals = length x /\
    forall i, i < length x ->
      (forall j, j < doc_hidden (m_cfg m) -> off_axis (unit_input (m_cfg m) p (nth i x []) j)) ->
      amplitude (nth i vals None) = doc_amplitude (m_cfg m) p (nth i x []).
Proof. intros m p m' x out HS HP Hx. exact (amplitude_main m p m' HS HP x out Hx). Qed.
Print Assumptions C99_amplitude_partial.

(** With a purely imaginary input the factor of that hidden unit is 1 instead of its cosine:
    here the wave function should be 1/2 and is 1. *)
Theorem C99_amplitude_refuted : exists m p m' x vals,
  set_parameters m p = Ok m' /\ c_type (m_cfg m) = PComplex /\ log_val m' 2 [x] false = Ok (vals, None) /\
  doc_amplitude (m_cfg m) p x = (1 / 2, 0)%R /\ amplitude (nth 0 vals None) = (1, 0)%R.
Proof. exact amplitude_wrong. Qed.
Print Assumptions C99_amplitude_refuted.

(** Machines with real parameters are right for every configuration. *)
Theorem C99_amplitude_real : forall m p m' x out,
  set_parameters m p = Ok m' -> Forall (holds (c_type (m_cfg m))) p -> c_type (m_cfg m) = PFloat ->
  Forall (Forall (holds (c_type (m_cfg m)))) x ->
  exists vals buf, log_val m' 2 x out = Ok (vals, buf) /\ length vals = length x /\
    forall i, i < length x -> amplitude (nth i vals None) = doc_amplitude (m_cfg m) p (nth i x []).
Proof. intros m p m' x out HS HP HT Hx. exact (amplitude_real_main m p m' HS HP x out HT Hx). Qed.
Print Assumptions C99_amplitude_real.

Theorem C99_two_axes : forall m ndim x out, ndim <> 2 ->
  log_val m ndim x out = Err RuntimeError /\ der_log m ndim x = Err RuntimeError.
Proof. intros m ndim x out H. unfold log_val, der_log. rewrite (proj2 (Nat.eqb_neq _ _) H). split; reflexivity. Qed.
Print Assumptions C99_two_axes.

(** An array passed as [out] holds the result afterwards, if there is no visible bias ... *)
Theorem C99_out_partial : forall m p m' x,
  set_parameters m p = Ok m' -> Forall (holds (c_type (m_cfg m))) p -> c_vis (m_cfg m) = false ->
  Forall (Forall (holds (c_type (m_cfg m)))) x ->
  exists vals, log_val m' 2 x true = Ok (vals, Some vals).
Proof. intros m p m' x HS HP Hv Hx. exact (out_main m p m' HS HP x Hv Hx). Qed.
Print Assumptions C99_out_partial.

(** ... and not with a visible bias. *)
Theorem C99_out_refuted : exists m p m' x vals buf,
  set_parameters m p = Ok m' /\ log_val m' 2 x true = Ok (vals, Some buf) /\
  vals = [Some (1, 0)%R] /\ buf = [Some (0, 0)%R].
Proof. exact out_wrong. Qed.
Print Assumptions C99_out_refuted.

(** Along every differentiable path of the parameters the derivative of the wave function is
    the wave function times sum_k der_log_k (d parameter_k), with and without symmetries. *)
Theorem C99_gradient : forall m p m' x,
  set_parameters m p = Ok m' -> Forall (holds (c_type (m_cfg m))) p -> proper (m_cfg m) ->
  exists d, der_log m' 2 x = Ok d /\ length d = length x /\
    forall i, i < length x -> length (nth i d []) = n_par (m_cfg m) /\
    forall (path : R -> list cpx) t0 dp,
      path t0 = p -> (forall t, length (path t) = n_par (m_cfg m)) ->
      (forall k, k < n_par (m_cfg m) -> cderiv (fun t => nth k (path t) (0, 0)%R) t0 (dp k)) ->
      (forall j, j < doc_hidden (m_cfg m) -> ccosh (unit_input (m_cfg m) p (nth i x []) j) <> (0, 0)%R) ->
      cderiv (fun t => doc_amplitude (m_cfg m) (path t) (nth i x [])) t0
        (rmul cC (doc_amplitude (m_cfg m) p (nth i x []))
           (fsum cC (n_par (m_cfg m)) (fun k => rmul cC (nth k (nth i d []) (0, 0)%R) (dp k)))).
Proof. intros m p m' x HS HP Hpr. exact (gradient_call m p m' HS HP x 2 eq_refl Hpr). Qed.
Print Assumptions C99_gradient.

(** A machine with symmetries has the same value on a configuration and on its images. *)
Theorem C99_symmetric : forall m p m' rows g x out,
  set_parameters m p = Ok m' -> Forall (holds (c_type (m_cfg m))) p ->
  c_sym (m_cfg m) = Some rows -> permutation_group (c_n (m_cfg m)) rows -> In g rows ->
  Forall (Forall (holds (c_type (m_cfg m)))) x -> Forall (fun s => length s = c_n (m_cfg m)) x ->
  fst_ok (log_val m' 2 (map (permuted (0, 0)%R g) x) out) = fst_ok (log_val m' 2 x out).
Proof. intros m p m' rows g x out HS HP Hs HG Hg Hx Hl. exact (symmetric_main m p m' HS HP rows g x out Hs HG Hg Hx Hl). Qed.
Print Assumptions C99_symmetric.

(** Reading the parameters gives what was set (its real part for a real machine), a vector
    of another length is refused, and setting the values read earlier restores the machine. *)
Theorem C99_set_get : forall m p m', set_parameters m p = Ok m' ->
  get_parameters m' = map (cast (c_type (m_cfg m))) p /\ length p = n_par (m_cfg m) /\ m_cfg m' = m_cfg m.
Proof. exact set_get_main. Qed.
Print Assumptions C99_set_get.

Theorem C99_set_wrong_length : forall m p, length p <> n_par (m_cfg m) -> set_parameters m p = Err ValueError.
Proof. exact set_wrong_main. Qed.
Print Assumptions C99_set_wrong_length.

Theorem C99_restore : forall m m1 p, set_parameters m p = Ok m1 ->
  forall m2 q m3, set_parameters m1 q = Ok m2 -> set_parameters m2 (get_parameters m1) = Ok m3 -> m3 = m1.
Proof. exact set_back_main. Qed.
Print Assumptions C99_restore.

(** Writing into the arrays of state_dict sets the parameters of a complex machine without
    symmetries ... *)
Theorem C99_write_through_partial : forall m p,
  c_sym (m_cfg m) = None -> c_type (m_cfg m) = PComplex -> length p = n_par (m_cfg m) ->
  set_parameters m p = Ok (write_state_dict m p).
Proof. exact write_main. Qed.
Print Assumptions C99_write_through_partial.

(** ... while a machine with symmetries then reports the new parameters and keeps the values
    of the old ones. *)
Theorem C99_write_through_refuted : exists m p m1 q x v1 v2 m2,
  set_parameters m p = Ok m1 /\ length q = n_par (m_cfg m) /\
  get_parameters (write_state_dict m1 q) = q /\
  log_val m1 2 x false = Ok (v1, None) /\ log_val (write_state_dict m1 q) 2 x false = Ok (v1, None) /\
  set_parameters m1 q = Ok m2 /\ log_val m2 2 x false = Ok (v2, None) /\ v1 <> v2.
Proof. exact write_wrong. Qed.
Print Assumptions C99_write_through_refuted.

(** ** Number of hidden units *)
(** alpha * size rounded to the nearest integer, halves to the even one. *)
Theorem C99_density : forall size al vis hid d, d <> POther ->
  (exists c, (0 <= dval al)%Q /\ construct size None (Some al) vis hid ANone d = Ok c /\ c_sym c = None /\ c_n c = size /\
     nearest_even (dval al * inject_Z (Z.of_nat size)) (Z.of_nat (doc_hidden c)))
  \/ ((dval al < 0)%Q /\ construct size None (Some al) vis hid ANone d = Err ValueError).
Proof. exact hidden_density. Qed.
Print Assumptions C99_density.

(** With symmetries the number is alpha * size rounded down to a multiple of the number of
    symmetries ... *)
Theorem C99_density_symmetric : forall size al vis hid rows d,
  d <> POther -> rows <> [] -> Forall (fun r => length r = size) rows -> (0 <= al)%Z ->
  exists c, construct size None (Some (DInt al)) vis hid (ATable rows) d = Ok c /\ c_sym c = Some rows /\ c_n c = size /\
    (Z.of_nat (doc_hidden c) = al * Z.of_nat size - (al * Z.of_nat size) mod Z.of_nat (length rows))%Z.
Proof. exact hidden_symmetric. Qed.
Print Assumptions C99_density_symmetric.

(** ... so that it is not the documented alpha * size: three sites and their six
    permutations give no hidden unit for alpha = 1. *)
Theorem C99_density_refuted : exists size rows c,
  construct size None (Some (DInt 1)) true true (ATable rows) PComplex = Ok c /\ size = 3 /\ doc_hidden c = 0.
Proof.
  exists 3, [[0;1;2]; [0;2;1]; [1;0;2]; [1;2;0]; [2;0;1]; [2;1;0]].
  exists (RCfg 3 true true (Some [[0;1;2]; [0;2;1]; [1;0;2]; [1;2;0]; [2;0;1]; [2;1;0]]) 0 PComplex). repeat split.
Qed.
Print Assumptions C99_density_refuted.

Theorem C99_hidden_units : forall size h vis hid d, d <> POther ->
  construct size (Some h) None vis hid ANone d
  = (if (h <? 0)%Z then Err RuntimeError else Ok (RCfg size vis hid None (Z.to_nat h) d)).
Proof. exact hidden_explicit. Qed.
Print Assumptions C99_hidden_units.

(** Both given: they have to agree. *)
Theorem C99_both_given : forall size h al vis hid d c,
  construct size (Some h) (Some al) vis hid ANone d = Ok c ->
  construct size None (Some al) vis hid ANone d = Ok c /\ h = Z.of_nat (doc_hidden c).
Proof. exact hidden_both. Qed.
Print Assumptions C99_both_given.

Theorem C99_none_given : forall size vis hid d, d <> POther ->
  construct size None None vis hid ANone d = Err TypeError.
Proof. intros size vis hid d H. destruct d; [reflexivity|reflexivity|contradiction]. Qed.
Print Assumptions C99_none_given.

(** [False] means no symmetries for RbmSpin and is refused by RbmMultiVal. *)
Theorem C99_false_symmetries : forall size locals n_hidden alpha vis hid d,
  construct size n_hidden alpha vis hid AFalse d = construct size n_hidden alpha vis hid ANone d /\
  construct_multi size locals n_hidden alpha vis hid AFalse d = Err RuntimeError.
Proof. intros. split; reflexivity. Qed.
Print Assumptions C99_false_symmetries.

(** ** RbmMultiVal *)
(** The network gets, row by row, +1 for the local state of each site and -1 for the others. *)
Theorem C99_one_hot : forall m locals size x out, Forall (fun r => length r = size) x ->
  log_val_multi m locals size 2 x out = log_val m 2 (one_hot locals size x) out /\
  length (one_hot locals size x) = length x /\
  forall k, k < length x -> length (nth k (one_hot locals size x) []) = size * length locals /\
    forall i l, i < size -> l < length locals ->
      nth (i * length locals + l) (nth k (one_hot locals size x) []) (0, 0)%R
      = plus_minus (nth i (nth k x []) 0%Z =? nth l locals 0%Z)%Z.
Proof.
  intros m locals size x out F. split; [reflexivity|]. rewrite one_hot_rows by exact F. split; [apply map_length|].
  intros k Hk. rewrite (nth_indep _ _ (one_hot_flat locals [])) by (now rewrite map_length). rewrite map_nth.
  assert (E : length (nth k x []) = size) by (rewrite Forall_forall in F; apply F, nth_In, Hk).
  split; [rewrite one_hot_length, E; reflexivity|]. intros i l Hi Hl. apply one_hot_entry; [rewrite E|]; assumption.
Qed.
Print Assumptions C99_one_hot.

(** The symmetries of the sites are symmetries of the machine. *)
Theorem C99_multi_symmetric : forall m p m' locals size rows g x out,
  set_parameters m p = Ok m' -> Forall (holds (c_type (m_cfg m))) p ->
  0 < length locals -> permutation_group size rows -> In g rows ->
  c_n (m_cfg m) = length locals * size -> c_sym (m_cfg m) = Some (map (extended (length locals)) rows) ->
  Forall (fun r => length r = size) x ->
  fst_ok (log_val_multi m' locals size 2 (map (permuted 0%Z g) x) out) = fst_ok (log_val_multi m' locals size 2 x out).
Proof. exact multi_symmetric. Qed.
Print Assumptions C99_multi_symmetric.

(** ** RbmSpinPhase *)
(** The real part of log_val is the logarithm of the first network, the imaginary part that
    of the second. *)
Theorem C99_phase_value : forall m m' p x out,
  c_type (m_cfg (ph_a m)) = PFloat -> c_type (m_cfg (ph_p m)) = PFloat -> Forall (holds PFloat) p ->
  set_phase m p = (m', None) -> Forall (Forall (holds PFloat)) x ->
  exists vals buf, log_val_phase m' 2 x out = Ok (vals, buf) /\ length vals = length x /\
    forall i, i < length x -> exists va vp,
      doc_amplitude (m_cfg (ph_a m)) (firstn (n_par (m_cfg (ph_a m))) p) (nth i x []) = (exp va, 0)%R /\
      doc_amplitude (m_cfg (ph_p m)) (skipn (n_par (m_cfg (ph_a m))) p) (nth i x []) = (exp vp, 0)%R /\
      nth i vals None = Some (va, vp) /\
      amplitude (nth i vals None) = phase_amplitude (m_cfg (ph_a m)) (m_cfg (ph_p m))
        (firstn (n_par (m_cfg (ph_a m))) p) (skipn (n_par (m_cfg (ph_a m))) p) (nth i x []).
Proof. intros m m' p x out Ta Tp Hp HS Hx. exact (two_values m m' p Ta Tp Hp HS x out Hx). Qed.
Print Assumptions C99_phase_value.

Theorem C99_phase_gradient : forall m m' p x,
  c_type (m_cfg (ph_a m)) = PFloat -> c_type (m_cfg (ph_p m)) = PFloat -> Forall (holds PFloat) p ->
  set_phase m p = (m', None) -> proper (m_cfg (ph_a m)) -> proper (m_cfg (ph_p m)) -> Forall (Forall (holds PFloat)) x ->
  exists d, der_log_phase m' 2 x = Ok d /\ length d = length x /\
    forall i, i < length x -> length (nth i d []) = length p /\
    forall (path : R -> list cpx) t0 dp,
      path t0 = p -> (forall t, length (path t) = length p) -> (forall t, Forall (holds PFloat) (path t)) ->
      (forall k, k < length p -> cderiv (fun t => nth k (path t) (0, 0)%R) t0 (dp k)) ->
      cderiv (fun t => phase_amplitude (m_cfg (ph_a m)) (m_cfg (ph_p m)) (firstn (n_par (m_cfg (ph_a m))) (path t))
                         (skipn (n_par (m_cfg (ph_a m))) (path t)) (nth i x [])) t0
        (rmul cC (phase_amplitude (m_cfg (ph_a m)) (m_cfg (ph_p m)) (firstn (n_par (m_cfg (ph_a m))) p)
                    (skipn (n_par (m_cfg (ph_a m))) p) (nth i x []))
           (fsum cC (length p) (fun k => rmul cC (nth k (nth i d []) (0, 0)%R) (dp k)))).
Proof. intros m m' p x Ta Tp Hp HS Pa Pp Hx. exact (two_grad m m' p Ta Tp Hp HS x Pa Pp Hx). Qed.
Print Assumptions C99_phase_gradient.

Theorem C99_phase_set_get : forall m m' p,
  c_type (m_cfg (ph_a m)) = PFloat -> c_type (m_cfg (ph_p m)) = PFloat -> Forall (holds PFloat) p ->
  set_phase m p = (m', None) -> get_phase m' = p.
Proof. intros m m' p Ta Tp Hp HS. exact (two_roundtrip m m' p Ta Tp Hp HS). Qed.
Print Assumptions C99_phase_set_get.

Theorem C99_phase_wrong_length : forall m p m' e, set_phase m p = (m', Some e) ->
  e = ValueError /\ length p <> n_par (m_cfg (ph_a m)) + n_par (m_cfg (ph_p m)).
Proof. exact set_phase_wrong. Qed.
Print Assumptions C99_phase_wrong_length.

(** A refused assignment leaves the machine with half of the new parameters. *)
Theorem C99_phase_atomic_refuted : exists m p m',
  set_phase m p = (m', Some ValueError) /\ get_phase m = [(0, 0); (0, 0)]%R /\ get_phase m' = [(1, 0); (0, 0)]%R.
Proof. exact phase_torn. Qed.
Print Assumptions C99_phase_atomic_refuted.

(** ** Concrete cases *)
Definition ex_cfg : rcfg := RCfg 2 true true (Some [[0; 1]; [1; 0]]) 1 PFloat.
Definition ex_par : list cpx := [(1, 0); (2, 0); (3, 0); (4, 0)]%R.
Example ex_set : set_parameters (RMach ex_cfg [] []) ex_par = Ok (RMach ex_cfg ex_par
  [(1, 0); (1, 0); (2, 0); (2, 0); (3, 0); (4, 0); (4, 0); (3, 0)]%R) /\ n_par ex_cfg = 4 /\ n_bare ex_cfg = 8.
Proof. repeat split. Qed.
Example ex_real : Forall (holds (c_type ex_cfg)) ex_par /\ proper ex_cfg.
Proof.
  split; [repeat constructor|]. intros rows [= <-]. unfold isperm. repeat constructor.
Qed.
Example ex_rows : der_rows ex_cfg [[0; 1]; [1; 0]] = [0; 0; 1; 1; 2; 3; 3; 2].
Proof. reflexivity. Qed.
Example ex_off_axis : off_axis (1, 5)%R /\ off_axis (0, 0)%R /\ ~ off_axis (0, 1)%R.
Proof. unfold off_axis. cbn. repeat split; [left; lra|right; lra|]. intros [H|H]; lra. Qed.
Example ex_cosh : ccosh (0, 0)%R <> (0, 0)%R.
Proof. rewrite ccosh_zero. intros E. injection E. lra. Qed.
Example ex_density : construct 5 None (Some (DFloat (1 # 2))) true true ANone PComplex = Ok (RCfg 5 true true None 2 PComplex).
Proof. reflexivity. Qed.
Example ex_one_hot : one_hot [0; 1; 2]%Z 2 [[1; 0]; [2; 2]]%Z
  = [[(-1, 0); (1, 0); (-1, 0); (1, 0); (-1, 0); (-1, 0)]; [(-1, 0); (-1, 0); (1, 0); (-1, 0); (-1, 0); (1, 0)]]%R.
Proof. reflexivity. Qed.
Example ex_extended : extended 3 [1; 0] = [3; 4; 5; 0; 1; 2].
Proof. reflexivity. Qed.
Example ex_phase : exists m', set_phase (Phase (RMach wit_ph [] []) (RMach wit_ph [] [])) [(1, 0); (2, 0)]%R = (m', None) /\ get_phase m' = [(1, 0); (2, 0)]%R.
Proof. eexists. split; reflexivity. Qed.
Example ex_group : permutation_group 3 [[0; 1; 2]; [1; 2; 0]; [2; 0; 1]]
  /\ permutation_group 6 (map (extended 2) [[0; 1; 2]; [1; 2; 0]; [2; 0; 1]]).
Proof. split; [exact Ansatz_Proofs.rot3_group|]. apply (ext_group 3 2); [lia|exact Ansatz_Proofs.rot3_group]. Qed.
