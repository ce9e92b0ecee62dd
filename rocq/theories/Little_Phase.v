(** Phases and their sums (for C88). *)
From Coq Require Import List Arith Bool ZArith QArith Qreals Qcanon Qabs Reals Lia Lra Ring Field Permutation.
From Verif Require Import Base BaseFacts Rings FloatCmp_Model LatGen_Model PointGp_Model PointGp_Lin PointGp_Tables ARNN_Model ARNN_Proofs ToArray_Model
  Estim_Model Estim_Proofs SpaceGp_Model SpaceGp_Proofs Little_Model Little_Spec Little_Proofs.
Import ListNotations.
Open Scope nat_scope.

Lemma phase_ext a b : (a == b)%Q -> phase a = phase b.
Proof. intros H. unfold phase. now rewrite (Qeq_eqR _ _ H). Qed.
Lemma phase_add a b : phase (a + b) = (phase a * phase b)%C.
Proof.
  unfold phase. rewrite Q2R_plus, Rmult_plus_distr_l. cpx; [rewrite cos_plus|rewrite sin_plus]; ring.
Qed.
Lemma phase_0 : phase 0 = r1 cC.
Proof. unfold phase. assert (E : (2 * PI * Q2R 0 = 0)%R) by (unfold Q2R; cbn; lra). rewrite E, cos_0, sin_0. cbn. f_equal. ring. Qed.
Lemma phase_conj q : conj (phase q) = phase (- q).
Proof. unfold phase. rewrite Q2R_opp, <- Ropp_mult_distr_r, cos_neg, sin_neg. cpx; ring. Qed.
Lemma phase_unit q : (phase q * phase (- q))%C = r1 cC.
Proof. rewrite <- phase_add, <- phase_0. apply phase_ext. ring. Qed.
Lemma Q2R_Z z : Q2R (inject_Z z) = IZR z.
Proof. unfold Q2R, inject_Z. cbn [Qnum Qden]. change (Z.pos 1) with 1%Z. field. Qed.
Lemma phase_nat m : phase (inject_Z (Z.of_nat m)) = r1 cC.
Proof.
  unfold phase. rewrite Q2R_Z, <- INR_IZR_INZ. replace (2 * PI * INR m)%R with (0 + 2 * INR m * PI)%R by ring.
  rewrite cos_period, sin_period, cos_0, sin_0. cbn. f_equal. ring.
Qed.
Lemma phase_int z : phase (inject_Z z) = r1 cC.
Proof.
  destruct (Z_le_dec 0 z) as [H|H].
  - rewrite <- (Z2Nat.id z) by exact H. apply phase_nat.
  - pose proof (phase_unit (inject_Z (Z.of_nat (Z.to_nat (- z))))) as U. rewrite phase_nat in U.
    replace (phase (- inject_Z (Z.of_nat (Z.to_nat (- z))))) with (phase (inject_Z z)) in U.
    + rewrite <- U. ring.
    + apply phase_ext. rewrite Z2Nat.id by lia. rewrite inject_Z_opp. ring.
Qed.
Lemma phase_one q : phase q = r1 cC -> exists z, (q == inject_Z z)%Q.
Proof.
  intros H. apply (f_equal fst) in H. unfold phase in H. cbn [fst cC r1] in H. rewrite Rmult_assoc, cos_2a_sin in H.
  assert (S0 : sin (PI * Q2R q) = 0%R). { apply Rsqr_0_uniq. unfold Rsqr. lra. }
  apply sin_eq_0_0 in S0. destruct S0 as (k & E). exists k. apply eqR_Qeq. rewrite Q2R_Z. pose proof PI_neq0. apply (Rmult_eq_reg_l PI); [|assumption]. rewrite E. ring.
Qed.
Lemma cC_domain (a b : cpx) : (a * b)%C = r0 cC -> a <> r0 cC -> b = r0 cC.
Proof.
  intros H N. assert (P : (fst a * fst a + snd a * snd a <> 0)%R).
  { intros E. apply N. assert (A : (fst a * fst a >= 0)%R) by (apply Rle_ge, Rle_0_sqr). assert (A' : (snd a * snd a >= 0)%R) by (apply Rle_ge, Rle_0_sqr).
    assert (B : (fst a * fst a = 0)%R) by lra. assert (B' : (snd a * snd a = 0)%R) by lra.
    apply Rsqr_0_uniq in B, B'. destruct a as [x x']. cbn in *. now subst. }
  pose proof (f_equal fst H) as H1. pose proof (f_equal snd H) as H2. cbn [cC rmul r0 fst snd] in H1, H2.
  assert (X : (fst b * (fst a * fst a + snd a * snd a) = 0)%R).
  { transitivity (fst a * (fst a * fst b - snd a * snd b) + snd a * (fst a * snd b + snd a * fst b))%R; [ring|]. rewrite H1, H2. ring. }
  assert (Y : (snd b * (fst a * fst a + snd a * snd a) = 0)%R).
  { transitivity (fst a * (fst a * snd b + snd a * fst b) - snd a * (fst a * fst b - snd a * snd b))%R; [ring|]. rewrite H1, H2. ring. }
  apply Rmult_integral in X, Y. destruct b as [u v]. cbn in *. destruct X as [->|X]; [|contradiction]. destruct Y as [->|Y]; [reflexivity|contradiction].
Qed.
Definition cnat (n : nat) : cpx := emb (INR n).
Lemma cnat_S n : cnat (S n) = (cnat n + r1 cC)%C.
Proof. unfold cnat, emb. rewrite S_INR. cpx; ring. Qed.
Lemma fsum_const n c : fsum cC n (fun _ => c) = (cnat n * c)%C.
Proof. induction n as [|n IH]; [unfold cnat, emb; cbn [INR fsum]; cpx; ring|]. cbn [fsum]. rewrite IH, cnat_S. ring. Qed.
Lemma cnat_mul a b : cnat (a * b) = (cnat a * cnat b)%C.
Proof. unfold cnat. rewrite mult_INR. apply emb_mul. Qed.
Definition nz (k : nat) : Q := inject_Z (Z.of_nat k).
Lemma nz_S k q : (nz (S k) * q == nz k * q + q)%Q.
Proof. unfold nz. rewrite Nat2Z.inj_succ, <- Z.add_1_r, inject_Z_plus. change (inject_Z 1) with 1%Q. ring. Qed.
(** a geometric sum of roots of unity *)
Lemma roots_all n q : (exists z, (q == inject_Z z)%Q) -> fsum cC n (fun k => phase (nz k * q)) = cnat n.
Proof.
  intros (z & E). transitivity (fsum cC n (fun _ => r1 cC)).
  - apply fsum_ext. intros k _. rewrite <- (phase_int (Z.of_nat k * z)). apply phase_ext. rewrite E, inject_Z_mult. reflexivity.
  - rewrite fsum_const. ring.
Qed.
Lemma shift_sum n q : (phase q * fsum cC n (fun k => phase (nz k * q)) + r1 cC)%C = (fsum cC n (fun k => phase (nz k * q)) + phase (nz n * q))%C.
Proof.
  induction n as [|n IH].
  - cbn [fsum]. rewrite (phase_ext (nz 0 * q) 0), phase_0; [ring|]. unfold nz. change (inject_Z (Z.of_nat 0)) with 0%Q. ring.
  - cbn [fsum]. rewrite (phase_ext _ _ (nz_S n q)), phase_add.
    transitivity ((phase q * fsum cC n (fun k => phase (nz k * q)) + r1 cC) + phase q * phase (nz n * q))%C; [ring|]. rewrite IH. ring.
Qed.
Lemma roots_none n q : (exists z, (nz n * q == inject_Z z)%Q) -> ~ (exists z, (q == inject_Z z)%Q) -> fsum cC n (fun k => phase (nz k * q)) = r0 cC.
Proof.
  intros (z & E) N. pose proof (shift_sum n q) as H. rewrite (phase_ext _ _ E), phase_int in H.
  apply (cC_domain (phase q - r1 cC)%C).
  - set (s := fsum cC n _) in *. transitivity ((phase q * s + r1 cC) - (s + r1 cC))%C; [ring|]. rewrite H. ring.
  - intros X. apply N, phase_one. transitivity ((phase q - r1 cC) + r1 cC)%C; [ring|]. rewrite X. ring.
Qed.
Lemma int_dec (q : Q) : {exists z, (q == inject_Z z)%Q} + {~ exists z, (q == inject_Z z)%Q}.
Proof.
  destruct (Qeq_dec q (inject_Z (Qround.Qfloor q))) as [E|N]; [left; eauto|right]. intros (z & E). apply N. rewrite E. now rewrite Qround.Qfloor_Z.
Defined.

(** ** sums over translations *)
Fixpoint tphase (axes : list nat) (t : list Z) (v : vec) : cpx :=
  match axes, t with a :: axes, x :: t => (phase (inject_Z x * this (v a)) * tphase axes t v)%C | _, _ => r1 cC end.
Definition m_of (B : kbox) (a : nat) : nat := if nth a (b_pbc B) false then Z.to_nat (b_ext B a) else 1.
Lemma lsum_scal (c : cpx) l : lsum cC (map (fun x => c * x)%C l) = (c * lsum cC l)%C.
Proof. induction l as [|x l IH]; cbn [map lsum]; [ring|]. rewrite IH. ring. Qed.
Lemma lsum_flat {A} (f : A -> list cpx) l : lsum cC (flat_map f l) = lsum cC (map (fun x => lsum cC (f x)) l).
Proof. induction l as [|x l IH]; [reflexivity|]. cbn [flat_map map lsum]. rewrite lsum_app by apply cC_laws. now rewrite IH. Qed.
Lemma map_flat_map' {A B C} (g : B -> C) (f : A -> list B) l : map g (flat_map f l) = flat_map (fun x => map g (f x)) l.
Proof. induction l as [|x l IH]; [reflexivity|]. cbn. now rewrite map_app, IH. Qed.
Lemma lsum_scal_r (c : cpx) {A} (f : A -> cpx) l : lsum cC (map (fun x => f x * c)%C l) = (lsum cC (map f l) * c)%C.
Proof. induction l as [|x l IH]; cbn [map lsum]; [ring|]. rewrite IH. ring. Qed.
Lemma tsum_step B a axes v : lsum cC (map (fun t => tphase (a :: axes) t v) (trans_tuples B (a :: axes))) =
  (fsum cC (m_of B a) (fun k => phase (nz k * this (v a))) * lsum cC (map (fun t => tphase axes t v) (trans_tuples B axes)))%C.
Proof.
  cbn [trans_tuples]. change (if nth a (b_pbc B) false then Z.to_nat (b_ext B a) else 1) with (m_of B a).
  rewrite map_flat_map', lsum_flat, fsum_lsum by apply cC_laws. rewrite <- lsum_scal_r. f_equal. apply map_ext. intros k. rewrite map_map. cbn [tphase].
  fold (nz k). rewrite <- lsum_scal, map_map. reflexivity.
Qed.
Lemma tuples_count B a axes : length (trans_tuples B (a :: axes)) = m_of B a * length (trans_tuples B axes).
Proof.
  cbn [trans_tuples]. change (if nth a (b_pbc B) false then Z.to_nat (b_ext B a) else 1) with (m_of B a). rewrite <- (seq_length (m_of B a) 0) at 2.
  induction (seq 0 (m_of B a)) as [|x l IH]; [reflexivity|]. cbn [flat_map length]. rewrite app_length, map_length, IH. cbn. lia.
Qed.
Lemma tsum_all B axes v : (forall a, In a axes -> exists z, (this (v a) == inject_Z z)%Q) ->
  lsum cC (map (fun t => tphase axes t v) (trans_tuples B axes)) = cnat (length (trans_tuples B axes)).
Proof.
  induction axes as [|a axes IH]; intros H.
  - cbn. unfold cnat, emb. cbn. f_equal; ring.
  - rewrite tsum_step, tuples_count, cnat_mul, roots_all by (apply H; now left). rewrite IH by (intros b Hb; apply H; now right). reflexivity.
Qed.
Lemma tsum_none B axes v : (forall a, In a axes -> exists z, (nz (m_of B a) * this (v a) == inject_Z z)%Q) ->
  (exists a, In a axes /\ ~ exists z, (this (v a) == inject_Z z)%Q) ->
  lsum cC (map (fun t => tphase axes t v) (trans_tuples B axes)) = r0 cC.
Proof.
  induction axes as [|a axes IH]; intros H (b & Hb & N); [destruct Hb|]. rewrite tsum_step. destruct Hb as [->|Hb].
  - rewrite roots_none; [ring|apply H; now left|exact N].
  - rewrite IH; [ring|intros c Hc; apply H; now right|eauto].
Qed.
Lemma tuples_len B axes : forall t, In t (trans_tuples B axes) -> length t = length axes.
Proof.
  induction axes as [|a axes IH]; intros t H; cbn [trans_tuples] in H.
  - destruct H as [<-|[]]. reflexivity.
  - apply in_flat_map in H. destruct H as (k & _ & H). apply in_map_iff in H. destruct H as (t' & <- & H). cbn. now rewrite IH.
Qed.
Lemma this_add a b : (this (a + b)%Qc == this a + this b)%Q.
Proof. unfold Qcplus. apply Qc_of_this. Qed.
Lemma this_mul a b : (this (a * b)%Qc == this a * this b)%Q.
Proof. unfold Qcmult. apply Qc_of_this. Qed.
Lemma this_sub a b : (this (a - b)%Qc == this a - this b)%Q.
Proof. unfold Qcminus, Qcopp. rewrite this_add. setoid_rewrite Qc_of_this. ring. Qed.
Lemma tphase_kdot m s t v : length t = m -> tphase (seq s m) t v = phase (this (qs m (fun d => zc (nth d t 0%Z) * v (s + d)%nat)%Qc)).
Proof.
  revert s t. induction m as [|m IH]; intros s t H.
  - destruct t; [|discriminate]. cbn [seq tphase fsum]. symmetry. apply phase_0.
  - destruct t as [|x t]; [discriminate|]. cbn [seq tphase]. injection H as H. rewrite IH by exact H. rewrite <- phase_add. apply phase_ext.
    rewrite (qs_skip m 0) by lia. cbn [nth]. rewrite this_add, this_mul, zc_this, Nat.add_0_r, Qplus_comm. apply Qplus_inj_r. 
    match goal with |- (this ?a == this ?b)%Q => assert (X : a = b :> Qc) end; [|now rewrite X].
    apply qs_ext. intros i _. change (Nat.ltb i 0) with false. cbn iota. cbn [nth]. now rewrite Nat.add_succ_r.
Qed.
Lemma factor_tphase B axes t k v : (forall a, In a axes -> b_ext B a <> 0%Z /\ (zc (b_ext B a) * v a = zc (nth a k 0%Z))%Qc) ->
  trans_factor B axes t k = tphase axes t v.
Proof.
  revert t. induction axes as [|a axes IH]; intros t H; [now destruct t|]. destruct t as [|x t]; [reflexivity|]. cbn [trans_factor tphase].
  rewrite IH by (intros b Hb; apply H; now right). f_equal. apply phase_ext. destruct (H a (or_introl eq_refl)) as [N E].
  assert (N' : ~ (inject_Z (b_ext B a) == 0)%Q) by (intros X; apply N; unfold Qeq in X; cbn in X; lia).
  apply (f_equal this) in E. assert (E' : (inject_Z (b_ext B a) * this (v a) == inject_Z (nth a k 0%Z))%Q).
  { rewrite <- zc_this, <- this_mul. rewrite E. apply zc_this. }
  rewrite inject_Z_mult, <- E'. field. exact N'.
Qed.
