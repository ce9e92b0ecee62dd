(** Proofs for C89: single operations, screws and glides. *)
From Coq Require Import List Arith Bool ZArith QArith Qreals Qabs Reals Lra Lia Nsatz.
From Verif Require Import Base FloatCmp_Model FloatCmp_Spec FloatCmp_Proofs Axial_Model Axial_Spec Axial_Alg Axial_Rot Axial_Grp Axial_Fam.
Import ListNotations.
Open Scope R_scope.

Lemma act_rot angle axis x : act (rotation angle axis) x = mapply (rot_matrix (radians angle) (unit_of axis)) x.
Proof. apply (act_pure (rotation angle axis)). reflexivity. Qed.
Lemma act_refl axis x : act (reflection axis) x = mapply (refl_matrix (unit_of axis)) x.
Proof. apply (act_pure (reflection axis)). reflexivity. Qed.
Lemma mapply_scal A c v : mapply A (vscal c v) = vscal c (mapply A v).
Proof. m3; ring. Qed.
Lemma unit_perp1 a v : a <> vzero -> vdot a v = 0 -> vdot (unit_of a) v = 0.
Proof.
  intros Ha E. apply norm_pos in Ha. unfold unit_of. destruct a as [x y z], v as [x' y' z']. cbv [vdot vx vy vz] in *. set (n := norm _) in *.
  transitivity ((x * x' + y * y' + z * z') / n); [field; lra|]. rewrite E. field. lra.
Qed.
Lemma rotation_ok angle axis : axis <> vzero -> is_rotation (radians angle) axis (act (rotation angle axis)).
Proof.
  intros Hx. pose proof (unit_unit _ Hx) as U. repeat split.
  - intros c a b. rewrite !act_rot. apply mapply_lin.
  - rewrite act_rot. rewrite (unit_scal axis Hx) at 2 3. rewrite mapply_scal, rot_axis by exact U. reflexivity.
  - intros v E. rewrite act_rot. apply unit_perp1 in E; [|exact Hx].
    assert (X : vscal (sin (radians angle) / norm axis) (cross axis v) = vscal (sin (radians angle)) (cross (unit_of axis) v)).
    { apply norm_pos in Hx. unfold unit_of. destruct axis as [x y z], v as [x' y' z']. set (n := norm _) in *. cbv [vscal cross vx vy vz]. f_equal; field; lra. }
    rewrite X. clear X. generalize dependent (unit_of axis). intros u U E. unfold rot_matrix. set (c := cos _). set (s := sin _). clearbody c s. unfold isunit in U. m3; nsatz.
Qed.
Lemma reflection_ok axis : axis <> vzero -> is_reflection axis (act (reflection axis)).
Proof.
  intros Hx. pose proof (unit_unit _ Hx) as U. repeat split.
  - intros c a b. rewrite !act_refl. apply mapply_lin.
  - rewrite act_refl. rewrite (unit_scal axis Hx) at 2 3. rewrite mapply_scal, refl_axis by exact U. generalize (unit_of axis). intros u. m3; ring.
  - intros v E. rewrite act_refl. apply refl_perp. now apply unit_perp1.
Qed.
Lemma rotoreflection_ok angle axis x : act (rotoreflection angle axis) x = act (reflection axis) (act (rotation angle axis) x).
Proof. rewrite act_rot, act_refl, <- mapply_mul. apply (act_pure (rotoreflection angle axis)). reflexivity. Qed.
Lemma inversion_ok x : act inversion x = vscal (-1) x.
Proof. cbn. m3; ring. Qed.

(** ** screws *)
Lemma screw_act angle trans origin x : act (screw angle trans origin) x =
  vadd (vadd origin trans) (mapply (rot_matrix (radians angle) (unit_of trans)) (vsub x origin)).
Proof. cbn. generalize (rot_matrix (radians angle) (unit_of trans)). intros A. m3; ring. Qed.
Lemma norm_scal c v : 0 <= c -> norm (vscal c v) = c * norm v.
Proof.
  intros H. unfold norm. replace (vdot (vscal c v) (vscal c v)) with ((c * c) * vdot v v) by (m3; ring).
  rewrite sqrt_mult_alt by nra. now rewrite sqrt_square.
Qed.
Lemma unit_scal_of c v : 0 < c -> v <> vzero -> unit_of (vscal c v) = unit_of v.
Proof.
  intros H Hv. pose proof (norm_pos _ Hv) as P. unfold unit_of. rewrite norm_scal by lra. destruct v as [x y z]. set (n := norm _) in *. cbv [vscal vx vy vz]. f_equal; field; lra.
Qed.
Lemma mapply_add A a b : mapply A (vadd a b) = vadd (mapply A a) (mapply A b).
Proof. m3; ring. Qed.
Lemma v_1 o a B : vsub (vadd (vadd o a) B) o = vadd a B.
Proof. m3; ring. Qed.
Lemma v_2 o t a b D : vadd (vadd o (vscal a t)) (vadd (vscal b t) D) = vadd (vadd o (vscal (a + b) t)) D.
Proof. m3; ring. Qed.
Lemma v_3 o t a b D : vadd (vadd o (vscal (a + b) t)) D = vadd (vadd (vadd o (vscal a t)) D) (vscal b t).
Proof. m3; ring. Qed.
Lemma v_4 o t x : vadd (vadd o (vscal 0 t)) (vsub x o) = x.
Proof. m3; ring. Qed.
Lemma v_5 a t b c : vsub (vadd a (vscal (b * c) t)) a = vscal b (vscal c t).
Proof. m3; ring. Qed.
Lemma v_6 o t a b c d A B : vsub (vadd (vadd o (vscal a t)) (mapply A (vsub o o))) (vadd (vadd o (vscal b t)) (mapply B (vsub o o))) = vscal c (vscal d t) -> vscal (a - b - c * d) t = vzero.
Proof. intros E. replace (vsub o o) with vzero in E by (m3; ring). m3; injection E; intros; lra. Qed.
Lemma v_7 c t : vscal c t = vzero -> t <> vzero -> c = 0.
Proof.
  intros X Ht. destruct (Req_dec c 0) as [|N]; [assumption|]. exfalso. apply Ht. destruct t as [x y z].
  cbv [vscal vzero vx vy vz] in *. injection X. intros Z1 Y1 X1. apply Rmult_integral in X1, Y1, Z1. f_equal; tauto.
Qed.
Lemma v_8 x t : vsub x x = vscal 0 t.
Proof. m3; ring. Qed.
Lemma v_9 o t x : x = vadd (vscal 0 t) (vadd o (vsub x o)).
Proof. m3; ring. Qed.
Lemma v_10 o t c A : vadd (vadd o (vscal c t)) A = vadd (vscal c t) (vadd o A).
Proof. m3; ring. Qed.
Section Screw.
Context (p : Z) (q : positive) (trans origin : v3).
Hypothesis Ht : trans <> vzero.
Hypothesis Hpq : Z.gcd p (Zpos q) = 1%Z.
Hypothesis Hq : (Zpos q < 100000000)%Z.
(** the angle, in degrees *)
Context (angle : Q) (Ha : (angle == 360 * (p # q))%Q).
Let u := unit_of trans.
Let U : isunit u. Proof. now apply unit_unit. Qed.
Definition scr (i : Z) (x : v3) : v3 := vadd (vadd origin (vscal (IZR i) trans)) (mapply (rot_matrix (2 * PI * (IZR i * Q2R (p # q))) u) (vsub x origin)).
Lemma Q2R_angle : Q2R angle = 360 * Q2R (p # q).
Proof. rewrite (Qeq_eqR _ _ Ha), Q2R_mult. f_equal. unfold Q2R. cbn. lra. Qed.
Lemma scr_screw i x : (0 < i)%Z -> act (screw (IZR i * Q2R angle) (vscal (IZR i) trans) origin) x = scr i x.
Proof.
  intros Hi. apply IZR_lt in Hi. rewrite screw_act, unit_scal_of by assumption. unfold scr. f_equal. f_equal. f_equal. unfold radians. rewrite Q2R_angle. field.
Qed.
Lemma trans_unit : trans = vscal (norm trans) u.
Proof. now apply unit_scal. Qed.
Lemma rot_trans t c : mapply (rot_matrix t u) (vscal c trans) = vscal c trans.
Proof. rewrite mapply_scal. f_equal. rewrite trans_unit, mapply_scal, rot_axis by exact U. reflexivity. Qed.
Lemma scr_add i j x : scr i (scr j x) = scr (i + j) x.
Proof.
  unfold scr at 1 2. set (B := mapply _ (vsub x origin)).
  rewrite v_1, mapply_add, rot_trans. subst B. rewrite <- mapply_mul, rot_add by exact U. unfold scr. rewrite plus_IZR.
  replace (2 * PI * (IZR i * Q2R (p # q)) + 2 * PI * (IZR j * Q2R (p # q))) with (2 * PI * ((IZR i + IZR j) * Q2R (p # q))) by ring.
  apply v_2.
Qed.
Lemma rot_turns (k : Z) : rot_matrix (2 * PI * IZR k) u = eye3.
Proof.
  assert (X : forall m : nat, rot_matrix (2 * PI * INR m) u = eye3).
  { induction m as [|m IH]; [cbn [INR]; rewrite Rmult_0_r; apply rot_0|]. rewrite S_INR, Rmult_plus_distr_l, <- rot_add, IH, mmul_1_l by exact U. rewrite Rmult_1_r. apply rot_2pi. }
  destruct (Z_le_dec 0 k) as [H|H].
  - rewrite <- (Z2Nat.id k), <- INR_IZR_INZ by exact H. apply X.
  - transitivity (mmul (rot_matrix (2 * PI * IZR k) u) (rot_matrix (2 * PI * INR (Z.to_nat (- k))) u)); [now rewrite X, mmul_1_r|]. rewrite rot_add by exact U. rewrite INR_IZR_INZ, Z2Nat.id, opp_IZR by lia. replace (2 * PI * IZR k + 2 * PI * - IZR k) with 0 by ring. apply rot_0.
Qed.
Lemma scr_period i k x : scr (i + k * Zpos q) x = vadd (scr i x) (vscal (IZR (k * Zpos q)) trans).
Proof.
  unfold scr. replace (2 * PI * (IZR (i + k * Zpos q) * Q2R (p # q))) with (2 * PI * (IZR i * Q2R (p # q)) + 2 * PI * IZR (k * p)).
  - rewrite <- rot_add, rot_turns, mmul_1_r by exact U. rewrite plus_IZR. apply v_3.
  - rewrite plus_IZR, !mult_IZR. unfold Q2R. cbn [Qnum Qden]. assert (IZR (Zpos q) <> 0) by (apply not_0_IZR; lia). field. assumption.
Qed.
Lemma loop_test i : (0 < i)%Z -> is_approx_int default_atol (inject_Z i * angle / 360) = Z.eqb (i mod Zpos q) 0.
Proof.
  intros Hi.
  assert (X : (inject_Z i * angle / 360 == (i * p) # q)%Q).
  { rewrite Ha. transitivity (inject_Z i * (p # q))%Q; [field|]. unfold Qeq, Qmult, inject_Z. cbn [Qnum Qden]. lia. }
  destruct (Z.eqb_spec (i mod Zpos q) 0) as [E|E].
  - apply Z_div_exact_2 in E; [|lia]. apply approx_int; [discriminate|]. exists ((i / Zpos q) * p)%Z.
    assert (Y : (inject_Z i * angle / 360 - inject_Z ((i / Zpos q) * p) == 0)%Q).
    { rewrite X. rewrite E at 1. unfold Qeq, Qminus, Qplus, Qopp, inject_Z. cbn [Qnum Qden]. lia. }
    rewrite Y. discriminate.
  - destruct (is_approx_int _ _) eqn:B; [|reflexivity]. exfalso. apply approx_int in B; [|discriminate]. destruct B as (m & B). rewrite X in B.
    assert (D : (i * p - m * Zpos q = 0)%Z).
    { apply Qabs_Qle_condition in B. destruct B as [A B]. unfold default_atol, Qle, Qminus, Qplus, Qopp, inject_Z in A, B. cbn [Qnum Qden] in A, B. nia. }
    apply E. apply Z.mod_divide; [lia|]. apply (Z.gauss _ p); [|rewrite Z.gcd_comm; exact Hpq]. exists m. lia.
Qed.
Definition els (k : nat) : list elem := map (fun i => screw (IZR (Z.of_nat i) * Q2R angle) (vscal (IZR (Z.of_nat i)) trans) origin) (seq (Pos.to_nat q - k) k).
Lemma loop_ok k fuel : (k < Pos.to_nat q)%nat -> (k < fuel)%nat -> screw_loop fuel (Zpos q - Z.of_nat k) angle trans origin = Some (els k).
Proof.
  revert fuel. induction k as [|k IH]; intros fuel Hk Hf; (destruct fuel as [|fuel]; [lia|]); cbn [screw_loop].
  - rewrite loop_test by lia. rewrite Z.sub_0_r, Z_mod_same_full. reflexivity.
  - rewrite loop_test by lia. rewrite Z.mod_small by lia. destruct (Z.eqb_spec (Zpos q - Z.of_nat (S k)) 0) as [E|_]; [lia|].
    replace (Zpos q - Z.of_nat (S k) + 1)%Z with (Zpos q - Z.of_nat k)%Z by lia. rewrite IH by lia. cbn [option_map]. f_equal. unfold els.
    replace (Pos.to_nat q - k)%nat with (S (Pos.to_nat q - S k)) by lia. cbn [seq map]. replace (Z.of_nat (Pos.to_nat q - S k)) with (Zpos q - Z.of_nat (S k))%Z by lia. reflexivity.
Qed.
Lemma screw_group_eq fuel : (Pos.to_nat q <= fuel)%nat -> screw_group fuel angle trans origin = Some (EId :: els (Pos.to_nat q - 1)).
Proof.
  intros Hf. unfold screw_group. replace 1%Z with (Zpos q - Z.of_nat (Pos.to_nat q - 1))%Z by lia. rewrite loop_ok by lia. reflexivity.
Qed.
Lemma scr_0 x : scr 0 x = x.
Proof. unfold scr. rewrite Rmult_0_l, Rmult_0_r, rot_0, mapply_1. apply v_4. Qed.
Lemma els_in e : In e (EId :: els (Pos.to_nat q - 1)) -> exists i, (0 <= i < Zpos q)%Z /\ forall x, act e x = scr i x.
Proof.
  intros [<-|H]; [exists 0%Z; split; [lia|intros x; now rewrite scr_0]|]. apply in_map_iff in H. destruct H as (i & <- & Hi%in_seq). exists (Z.of_nat i). split; [lia|]. intros x. apply scr_screw. lia.
Qed.
Lemma els_all i : (0 <= i < Zpos q)%Z -> exists e, In e (EId :: els (Pos.to_nat q - 1)) /\ forall x, act e x = scr i x.
Proof.
  intros Hi. destruct (Z.eq_dec i 0) as [->|N]; [exists EId; split; [now left|intros x; now rewrite scr_0]|].
  exists (screw (IZR i * Q2R angle) (vscal (IZR i) trans) origin). split; [|intros x; apply scr_screw; lia].
  right. apply in_map_iff. exists (Z.to_nat i). rewrite Z2Nat.id by lia. split; [reflexivity|]. apply in_seq. lia.
Qed.
Notation sm := (mod_trans (vscal (IZR (Zpos q)) trans)).
Lemma scr_mod i x : sm (scr i x) (scr (i mod Zpos q) x).
Proof.
  exists (i / Zpos q)%Z. rewrite (Z.div_mod i (Zpos q)) at 1 by lia. replace (Zpos q * (i / Zpos q) + i mod Zpos q)%Z with (i mod Zpos q + (i / Zpos q) * Zpos q)%Z by lia.
  rewrite scr_period, mult_IZR. apply v_5.
Qed.
Lemma scr_distinct i j : (0 <= i < Zpos q)%Z -> (0 <= j < Zpos q)%Z -> (forall x, sm (scr i x) (scr j x)) -> i = j.
Proof.
  intros Hi Hj H. destruct (H origin) as (k & E).
  assert (X : vscal (IZR (i - j - k * Zpos q)) trans = vzero).
  { rewrite !minus_IZR, mult_IZR. exact (v_6 _ _ _ _ _ _ _ _ E). }
  pose proof (v_7 _ _ X Ht) as Y.
  apply eq_IZR in Y. assert (k = 0)%Z by nia. lia.
Qed.
Lemma screw_ok fuel : (Pos.to_nat q <= fuel)%nat -> exists l, screw_group fuel angle trans origin = Some l /\ length l = Pos.to_nat q /\ finite_group act sm l /\
  (forall i, (i < Pos.to_nat q)%nat -> exists e, nth_error l i = Some e /\ forall x, act e x = vadd (vscal (INR i) trans) (vadd origin (mapply (rot_matrix (INR i * radians (Q2R angle)) u) (vsub x origin)))).
Proof.
  intros Hf. rewrite screw_group_eq by exact Hf. eexists. split; [reflexivity|]. split; [|split].
  - cbn [length]. unfold els. rewrite map_length, seq_length. lia.
  - constructor.
    + exists EId. split; [reflexivity|]. intros x. exists 0%Z. apply v_8.
    + intros a b Ha' Hb'. destruct (els_in _ Ha') as (i & Hi & Ei), (els_in _ Hb') as (j & Hj & Ej). destruct (els_all ((i + j) mod Zpos q)) as (e & He & Ee); [apply Z.mod_pos_bound; lia|].
      exists e. split; [exact He|]. intros x. rewrite Ei, Ej, Ee, scr_add. apply scr_mod.
    + intros a Ha'. destruct (els_in _ Ha') as (i & Hi & Ei). destruct (els_all ((- i) mod Zpos q)) as (e & He & Ee); [apply Z.mod_pos_bound; lia|].
      assert (X : forall x, sm (scr (i + (- i) mod Z.pos q) x) x).
      { intros x. rewrite <- (scr_0 x) at 2. replace 0%Z with ((i + (- i) mod Z.pos q) mod Zpos q)%Z; [apply scr_mod|]. rewrite Z.add_mod_idemp_r by lia. now rewrite Z.add_opp_diag_r. }
      exists e. split; [exact He|]. split; intros x; rewrite Ei, Ee, scr_add; [|rewrite Z.add_comm]; apply X.
    + set (l := EId :: els (Pos.to_nat q - 1)).
      assert (X : exists idx : list Z, Forall2 (fun e i => (0 <= i < Zpos q)%Z /\ forall x, act e x = scr i x) l idx /\ NoDup idx).
      { exists (map Z.of_nat (seq 0 (Pos.to_nat q))). split.
        - replace (Pos.to_nat q) with (S (Pos.to_nat q - 1)) at 1 by lia. cbn [seq map]. constructor; [split; [lia|intros x; now rewrite scr_0]|]. unfold els. replace (Pos.to_nat q - (Pos.to_nat q - 1))%nat with 1%nat by lia.
          assert (Y : forall s k, (1 <= s)%nat -> (s + k <= Pos.to_nat q)%nat -> Forall2 (fun e i => (0 <= i < Zpos q)%Z /\ forall x, act e x = scr i x)
            (map (fun i => screw (IZR (Z.of_nat i) * Q2R angle) (vscal (IZR (Z.of_nat i)) trans) origin) (seq s k)) (map Z.of_nat (seq s k))).
          { intros s k. revert s. induction k as [|k IH]; intros s Hs Hk; cbn [seq map]; constructor; [|apply IH; lia]. split; [lia|]. intros x. apply scr_screw. lia. }
          apply Y; lia.
        - apply FinFun.Injective_map_NoDup; [intros a b E; lia|apply seq_NoDup]. }
      destruct X as (idx & F & N). clearbody l. induction F as [|a i l idx [Hi Ei] F IH]; constructor.
      * apply Forall_forall. intros b Hb S0. inversion N as [|? ? X _]; subst. apply X. clear X N IH.
        assert (Y : exists j, In j idx /\ (0 <= j < Zpos q)%Z /\ forall x, act b x = scr j x).
        { induction F as [|? j ? ? E F IH]; [destruct Hb|]. destruct Hb as [<-|Hb]; [exists j; split; [now left|exact E]|]. destruct (IH Hb) as (j' & A & B). exists j'. split; [now right|exact B]. }
        destruct Y as (j & Hj & Bj & Ej). rewrite (scr_distinct i j); [exact Hj|exact Hi|exact Bj|]. intros x. rewrite <- Ei, <- Ej. apply S0.
      * apply IH. now inversion N.
  - intros i Hi. destruct i as [|i].
    + exists EId. split; [reflexivity|]. intros x. cbn [INR act]. rewrite Rmult_0_l, rot_0, mapply_1. apply v_9.
    + cbn [nth_error]. unfold els. replace (Pos.to_nat q - (Pos.to_nat q - 1))%nat with 1%nat by lia. eexists. split.
      * apply map_nth_error. rewrite (nth_error_nth' _ 0%nat) by (rewrite seq_length; lia). rewrite seq_nth by lia. reflexivity.
      * intros x. change (1 + i)%nat with (S i). rewrite scr_screw by lia. unfold scr. rewrite <- INR_IZR_INZ.
        replace (INR (S i) * radians (Q2R angle)) with (2 * PI * (INR (S i) * Q2R (p # q))) by (unfold radians; rewrite Q2R_angle; field).
        apply v_10.
Qed.
End Screw.

(** ** glides *)
Lemma glide_ok axis trans origin : axis <> vzero -> vdot axis trans = 0 -> exists g, glide axis trans origin = Ok g /\ glide_group axis trans origin = Ok [EId; g] /\
  (forall x, act g x = vadd trans (vadd origin (act (reflection axis) (vsub x origin)))) /\ (forall x, act g (act g x) = vadd x (vscal 2 trans)) /\ finite_group act (mod_trans (vscal 2 trans)) [EId; g].
Proof.
  intros Hx E. unfold glide_group, glide. rewrite perp_b by exact E. cbn [bind]. eexists. split; [reflexivity|]. split; [reflexivity|].
  set (g := ESym _). assert (A : forall x, act g x = vadd trans (vadd origin (act (reflection axis) (vsub x origin)))).
  { intros x. rewrite act_refl. subst g. cbn. generalize (refl_matrix (unit_of axis)). intros A. m3; ring. }
  assert (B : forall x, act g (act g x) = vadd x (vscal 2 trans)).
  { intros x. rewrite !A, !act_refl. pose proof (unit_unit _ Hx) as U. pose proof (refl_perp (unit_of axis) trans (unit_perp1 _ _ Hx E)) as P. pose proof (refl_sq _ U) as Q.
    set (M := refl_matrix (unit_of axis)) in *. replace (vsub (vadd trans (vadd origin (mapply M (vsub x origin)))) origin) with (vadd trans (mapply M (vsub x origin))) by (clearbody M; m3; ring).
    rewrite mapply_add, P, <- mapply_mul, Q, mapply_1. m3; ring. }
  split; [exact A|]. split; [exact B|]. clearbody g. constructor.
  - exists EId. split; [reflexivity|]. intros x. exists 0%Z. cbn. m3; ring.
  - intros a b Ha Hb. assert (R : forall y, mod_trans (vscal 2 trans) y y) by (intros y; exists 0%Z; m3; ring).
    destruct Ha as [<-|[<-|[]]], Hb as [<-|[<-|[]]].
    + exists EId. split; [now left|]. intros x. apply R.
    + exists g. split; [right; now left|]. intros x. apply R.
    + exists g. split; [right; now left|]. intros x. apply R.
    + exists EId. split; [now left|]. intros x. rewrite B. exists 1%Z. cbn. m3; ring.
  - intros a [<-|[<-|[]]].
    + exists EId. split; [now left|]. split; intros x; exists 0%Z; cbn; m3; ring.
    + exists g. split; [right; now left|]. split; intros x; rewrite B; exists 1%Z; m3; ring.
  - constructor; [|constructor; constructor]. constructor; [|constructor]. intros S0. destruct (S0 (vadd origin axis)) as (k & X). cbn [act] in X. rewrite A in X.
    replace (vsub (vadd origin axis) origin) with axis in X by (m3; ring). rewrite (proj1 (proj2 (reflection_ok axis Hx))) in X.
    pose proof (vdot_pos _ Hx) as P. apply (f_equal (vdot axis)) in X. 
    assert (L : vdot axis (vsub (vadd origin axis) (vadd trans (vadd origin (vscal (-1) axis)))) = 2 * vdot axis axis - vdot axis trans) by (clear; m3; ring).
    assert (R : vdot axis (vscal (IZR k) (vscal 2 trans)) = 2 * IZR k * vdot axis trans) by (clear; m3; ring). rewrite L, R, E in X. lra.
Qed.
Lemma glide_assert axis trans origin : 1 / 100000000 < Rabs (vdot axis trans) -> glide axis trans origin = Err AssertionError.
Proof. intros H. unfold glide, perpendicular_b. destruct (Rle_dec _ _); [lra|reflexivity]. Qed.
Lemma perp_assert n a b : 1 / 100000000 < Rabs (vdot a b) -> Cv n a b = Err AssertionError /\ D n a b = Err AssertionError /\ Dh n a b = Err AssertionError /\ Dd n a b = Err AssertionError.
Proof. intros H. unfold Cv, Dh, D, Dd, perpendicular_b. destruct (Rle_dec _ _); [lra|]. repeat split. Qed.

(** ** the assertion accepts axes that are not perpendicular *)
Definition ax1 : v3 := V3 0 0 (1 / 100000).
Definition ax2 : v3 := V3 (1 / 100000) 0 (1 / 100000).
Lemma ax1_neq : ax1 <> vzero. Proof. intros E. injection E. lra. Qed.
Lemma ax2_neq : ax2 <> vzero. Proof. intros E. injection E. lra. Qed.
Lemma ax_dot : vdot ax1 ax2 = 1 / 10000000000. Proof. cbv [vdot ax1 ax2 vx vy vz]. field. Qed.
Lemma short_axes : exists l, D 2 ax1 ax2 = Ok l /\ ~ finite_group act eq l.
Proof.
  unfold D, perpendicular_b. destruct (Rle_dec _ _) as [_|N]; [|exfalso; apply N; rewrite ax_dot, Rabs_pos_eq; lra]. eexists. split; [reflexivity|].
  rewrite !C2. cbn [prod_group list_prod map app fst snd prod_elem].
  assert (N1 : norm ax1 = 1 / 100000). { unfold norm. replace (vdot ax1 ax1) with ((1 / 100000) * (1 / 100000)) by (cbv [vdot ax1 vx vy vz]; ring). apply sqrt_square. lra. }
  assert (U1 : unit_of ax1 = V3 0 0 1). { unfold unit_of. rewrite N1. cbn. f_equal; field. }
  assert (G : forall x, act (rotation 180 ax1) x = V3 (- vx x) (- vy x) (vz x)).
  { intros x. rewrite act_pure by reflexivity. rewrite rot180, U1, rot_pi. m3; ring. }
  assert (F : forall x, act (rotation 180 ax2) x = V3 (vz x) (- vy x) (vx x)).
  { intros x. rewrite act_pure by reflexivity. rewrite rot180, rot_pi. pose proof (norm_sq ax2) as Q. pose proof (norm_pos _ ax2_neq) as P. unfold unit_of. set (n := norm ax2) in *. cbv [vdot ax2 vx vy vz] in Q. cbn [ax2 vx vy vz].
    assert (H : (1 / 100000 / n) * (1 / 100000 / n) = 1 / 2). { transitivity ((1 / 100000 * (1 / 100000)) / (n * n)); [field; lra|]. assert (Q' : n * n = 2 * (1 / 100000 * (1 / 100000))) by lra. rewrite Q'. field. }
    set (h := 1 / 100000 / n) in *. replace (0 / n) with 0 by (field; lra). clearbody h. assert (H' : 2 * (h * h) = 1) by lra. clear - H'. m3; nsatz. }
  intros [_ Cl _ _]. destruct (Cl (rotation 180 ax1) (rotation 180 ax2)) as (c & Hc & E); [cbn; tauto|cbn; tauto|].
  pose proof (E (V3 1 0 0)) as E1. pose proof (E (V3 0 1 0)) as E2. rewrite F, G in E1, E2. cbn [vx vy vz] in E1, E2.
  destruct Hc as [<-|[<-|[<-|[<-|[]]]]].
  - cbn in E1. injection E1. lra.
  - rewrite G in E1. cbn [vx vy vz] in E1. injection E1. lra.
  - cbn [prod_elem] in E2. change (ESym _) with (rotation 180 ax2) in E2 || idtac. rewrite F in E2. cbn [vx vy vz] in E2. injection E2. lra.
  - change (act _ ?x) with (act (prod_elem (rotation 180 ax2) (rotation 180 ax1)) x) in E1.
    rewrite act_pure in E1 by (apply pure_prod; reflexivity). destruct (pure_prod (rotation 180 ax2) (rotation 180 ax1) eq_refl eq_refl) as (_ & R). rewrite R, mapply_mul, <- !act_pure, G, F in E1 by reflexivity. cbn [vx vy vz] in E1. injection E1. lra.
Qed.
Lemma ax_dot_neq : vdot ax1 ax2 <> 0.
Proof. rewrite ax_dot. lra. Qed.
