(** Proofs behind C88. *)
From Coq Require Import List Arith Bool ZArith QArith Qreals Qcanon Qabs Reals Lia Lra Ring Field Permutation.
From Verif Require Import Base BaseFacts Rings FloatCmp_Model FloatCmp_Spec FloatCmp_Proofs LatGen_Model PointGp_Model PointGp_Lin PointGp_Tables ARNN_Model ARNN_Proofs ToArray_Model
  Estim_Model Estim_Proofs SpaceGp_Model SpaceGp_Proofs Little_Model Little_Spec.
Import ListNotations.
Open Scope nat_scope.

(** ** reciprocal lattice *)
Lemma zc_this z : (this (zc z) == inject_Z z)%Q.
Proof. unfold zc. apply Qc_of_this. Qed.
Lemma qc_eq_this (a b : Qc) : (this a == this b)%Q -> a = b.
Proof. apply Qc_is_canon. Qed.
Lemma rint_int x z : (x == inject_Z z)%Q -> rint x = z.
Proof. intros H. apply rint_unique. rewrite H. setoid_replace (inject_Z z - inject_Z z)%Q with 0%Q by ring. reflexivity. Qed.
Lemma atol_pos : (0 <= default_atol)%Q.
Proof. discriminate. Qed.
Lemma approx_exact x z : (x == inject_Z z)%Q -> is_approx_int default_atol x = true.
Proof.
  intros H. apply (approx_int _ _ atol_pos). exists z. rewrite H. setoid_replace (inject_Z z - inject_Z z)%Q with 0%Q by ring. discriminate.
Qed.
Lemma nth_mapseq {A} (f : nat -> A) n d x : d < n -> nth d (map f (seq 0 n)) x = f d.
Proof. intros H. rewrite (nth_indep _ x (f 0)) by (rewrite map_length, seq_length; exact H). rewrite map_nth, seq_nth by exact H. reflexivity. Qed.
Lemma forallb_map {A B} (f : A -> B) p l : forallb p (map f l) = forallb (fun x => p (f x)) l.
Proof. induction l as [|x l IH]; [reflexivity|]. cbn. now rewrite IH. Qed.

Section Recip.
Variable B : kbox.
Let D := b_dim B.
Definition row_of (y : vec) : list Z := map (fun d => rint (this (zc (b_ext B d) * y d)%Qc)) (seq 0 D).
Lemma row_exact y : wave B y -> forall d, d < D -> (zc (b_ext B d) * y d = zc (nth d (row_of y) 0%Z))%Qc /\ (nth d (b_pbc B) false = false -> nth d (row_of y) 0%Z = 0%Z).
Proof.
  intros W d Hd. destruct (W d Hd) as (z & E & O). unfold row_of. rewrite nth_mapseq by exact Hd.
  assert (R : rint (this (zc (b_ext B d) * y d)%Qc) = z) by (rewrite E; apply rint_int, zc_this). rewrite R. auto.
Qed.
Lemma recip_shape ys k : to_reciprocal B ys = Ok k -> k = map row_of ys.
Proof.
  unfold to_reciprocal. destruct (negb _); [discriminate|]. destruct (negb _); [discriminate|]. injection 1 as <-.
  rewrite map_map. apply map_ext. intros y. unfold row_of. now rewrite map_map.
Qed.
Lemma recip_ok ys : (forall y, In y ys -> wave B y) -> to_reciprocal B ys = Ok (map row_of ys).
Proof.
  intros H. unfold to_reciprocal. fold D.
  set (r := map (fun y : vec => map (fun d => this (zc (b_ext B d) * y d)%Qc) (seq 0 D)) ys).
  assert (E1 : forallb (forallb (is_approx_int default_atol)) r = true).
  { unfold r. rewrite forallb_map. apply forallb_forall. intros y Hy. rewrite forallb_map. apply forallb_forall. intros d Hd. apply in_seq in Hd.
    destruct (H y Hy d) as (z & E & _); [unfold D in *; lia|]. apply (approx_exact _ z). rewrite E. apply zc_this. }
  rewrite E1. cbn [negb].
  assert (E2 : map (map rint) r = map row_of ys).
  { unfold r. rewrite map_map. apply map_ext. intros y. unfold row_of. now rewrite map_map. }
  rewrite E2. rewrite forallb_map.
  assert (E3 : forallb (fun y => forallb (fun d => nth d (b_pbc B) false || Z.eqb (nth d (row_of y) 0%Z) 0) (seq 0 D)) ys = true).
  { apply forallb_forall. intros y Hy. apply forallb_forall. intros d Hd. apply in_seq in Hd.
    destruct (row_exact y (H y Hy) d) as [_ O]; [lia|]. destruct (nth d (b_pbc B) false); [reflexivity|]. rewrite O by reflexivity. reflexivity. }
  rewrite E3. reflexivity.
Qed.
Lemma recip_far ys y : In y ys -> far_from_waves B y -> to_reciprocal B ys = Err Exception_.
Proof.
  intros Hy (d & Hd & F). unfold to_reciprocal. fold D in Hd |- *.
  set (r := map (fun y : vec => map (fun d => this (zc (b_ext B d) * y d)%Qc) (seq 0 D)) ys).
  destruct (forallb (forallb (is_approx_int default_atol)) r) eqn:E1; [|reflexivity]. cbn [negb].
  unfold r in E1. rewrite forallb_map in E1. rewrite forallb_forall in E1. specialize (E1 y Hy). rewrite forallb_map in E1. rewrite forallb_forall in E1.
  specialize (E1 d ltac:(apply in_seq; lia)). cbn beta in E1.
  destruct F as [F|[P F]]; [exfalso; apply (approx_int _ _ atol_pos) in E1; destruct E1 as (z & E1); now apply (F z)|].
  match goal with |- (if negb ?b then _ else _) = _ => destruct b eqn:E2; [|reflexivity] end. exfalso.
  unfold r in E2. rewrite map_map, forallb_map, forallb_forall in E2. specialize (E2 y Hy). rewrite forallb_forall in E2.
  specialize (E2 d ltac:(apply in_seq; lia)). cbn beta in E2. rewrite P, map_map in E2. rewrite nth_mapseq in E2 by lia. cbn [orb] in E2. apply Z.eqb_eq in E2.
  unfold is_approx_int, isclose in E1. rewrite E2 in E1. apply Qle_bool_iff in E1. apply F.
  assert (Z0 : (this (zc (b_ext B d) * y d)%Qc - inject_Z 0 == this (zc (b_ext B d) * y d)%Qc)%Q) by (change (inject_Z 0) with 0%Q; ring). now rewrite Z0 in E1.
Qed.
End Recip.

Lemma moved_star D G p y : p < length G -> nth p (star D G y) (fun _ => 0%Qc) = moved_k D G p y.
Proof.
  intros H. unfold star, moved_k, sym. rewrite (nth_indep _ (fun _ => 0%Qc) (mvec D (k_mat no_sym) y)) by (rewrite map_length; exact H).
  now rewrite (map_nth (fun s => mvec D (k_mat s) y)).
Qed.
Lemma little_far B G y p : p < length G -> far_from_waves B (moved_k (b_dim B) G p y) -> little_index B G y = Err Exception_.
Proof.
  intros Hp F. unfold little_index. rewrite (recip_far B _ (moved_k (b_dim B) G p y)); [reflexivity| |exact F].
  rewrite <- moved_star by exact Hp. apply nth_In. unfold star. now rewrite map_length.
Qed.
Lemma ext_pos B d : proper_box B -> d < b_dim B -> (1 <= b_ext B d)%Z.
Proof. intros (_ & F & _) H. rewrite Forall_forall in F. apply F, nth_In, H. Qed.
Lemma zc_neq0 z : z <> 0%Z -> zc z <> 0%Qc.
Proof. intros H E. apply H, zc_inj. now rewrite zc_0. Qed.
Lemma zc_mul a b : zc (a * b) = (zc a * zc b)%Qc.
Proof. apply Qc_is_canon. unfold zc, Qcmult. cbn [this Q2Qc]. rewrite !Qred_correct. rewrite inject_Z_mult. reflexivity. Qed.
Lemma mod_waves B y y' : proper_box B -> wave B y -> wave B y' ->
  (map (fun d => (nth d (row_of B y) 0 mod b_ext B d)%Z) (seq 0 (b_dim B)) = map (fun d => (nth d (row_of B y') 0 mod b_ext B d)%Z) (seq 0 (b_dim B)) <->
   equal_waves (b_dim B) y y').
Proof.
  intros PB W W'. split.
  - intros H d Hd. assert (E : (nth d (row_of B y) 0 mod b_ext B d)%Z = (nth d (row_of B y') 0 mod b_ext B d)%Z).
    { apply (f_equal (fun l => nth d l 0%Z)) in H. rewrite !nth_mapseq in H by exact Hd. exact H. }
    pose proof (ext_pos B d PB Hd) as Ep. destruct (row_exact B y W d Hd) as [R _], (row_exact B y' W' d Hd) as [R' _].
    exists ((nth d (row_of B y) 0 / b_ext B d) - (nth d (row_of B y') 0 / b_ext B d))%Z.
    pose proof (Z.div_mod (nth d (row_of B y) 0) (b_ext B d) ltac:(lia))%Z as M. pose proof (Z.div_mod (nth d (row_of B y') 0) (b_ext B d) ltac:(lia))%Z as M'.
    set (a := nth d (row_of B y) 0%Z) in *. set (a' := nth d (row_of B y') 0%Z) in *. set (e := b_ext B d) in *.
    assert (Ne : zc e <> 0%Qc) by (apply zc_neq0; lia).
    assert (X : (zc e * y d = zc e * (y' d + zc (a / e - a' / e)))%Qc).
    { rewrite Qcmult_plus_distr_r, R, R', <- zc_mul, <- zc_add. f_equal. lia. }
    apply (f_equal (fun q => / zc e * q)%Qc) in X. rewrite !Qcmult_assoc, (Qcmult_comm (/ zc e)), Qcmult_inv_r, !Qcmult_1_l in X by exact Ne. exact X.
  - intros H. apply map_ext_in. intros d Hd. apply in_seq in Hd. destruct (H d ltac:(lia)) as (z & E). assert (Hd' : d < b_dim B) by lia.
    destruct (row_exact B y W d Hd') as [R _], (row_exact B y' W' d Hd') as [R' _]. rewrite E, Qcmult_plus_distr_r, R', <- zc_mul, <- zc_add in R.
    apply zc_inj in R. rewrite <- R. pose proof (ext_pos B d PB Hd') as Ep. rewrite (Z.mul_comm (b_ext B d)). apply Z_mod_plus_full.
Qed.
Lemma equal_waves_ext D u v w : (forall d, d < D -> u d = v d) -> equal_waves D v w -> equal_waves D u w.
Proof. intros H E d Hd. rewrite H by exact Hd. now apply E. Qed.
Lemma equal_waves_ext_r D u v w : (forall d, d < D -> u d = v d) -> equal_waves D w v -> equal_waves D w u.
Proof. intros H E d Hd. rewrite H by exact Hd. now apply E. Qed.
Lemma equal_waves_sym D u v : equal_waves D u v -> equal_waves D v u.
Proof. intros H d Hd. destruct (H d Hd) as (z & E). exists (- z)%Z. rewrite E, zc_opp. ring. Qed.
Lemma equal_waves_trans D u v w : equal_waves D u v -> equal_waves D v w -> equal_waves D u w.
Proof. intros H H' d Hd. destruct (H d Hd) as (z & E), (H' d Hd) as (z' & E'). exists (z + z')%Z. rewrite E, E', zc_add. ring. Qed.
Lemma equal_waves_refl D u : equal_waves D u u.
Proof. intros d _. exists 0%Z. rewrite zc_0. ring. Qed.

Lemma star_waves B G y : keeps_waves B G -> wave B y -> forall v, In v (star (b_dim B) G y) -> wave B v.
Proof.
  intros K W v H. apply (In_nth _ _ (fun _ => 0%Qc)) in H. destruct H as (p & Hp & <-). unfold star in Hp. rewrite map_length in Hp.
  rewrite moved_star by exact Hp. now apply K.
Qed.
Lemma little_compute B G y : keeps_waves B G -> wave B y -> proper_box B -> G <> [] ->
  exists idx, little_index B G y = Ok idx /\ idx = filter (fun i => if list_eq_dec Z.eq_dec (map (fun d => (nth d (row_of B (moved_k (b_dim B) G i y)) 0 mod b_ext B d)%Z) (seq 0 (b_dim B)))
     (map (fun d => (nth d (row_of B (moved_k (b_dim B) G 0 y)) 0 mod b_ext B d)%Z) (seq 0 (b_dim B))) then true else false) (seq 0 (length G)).
Proof.
  intros K W PB NE. unfold little_index. rewrite (recip_ok B _ (star_waves B G y K W)). cbn [bind].
  set (F := fun v => map (fun d => (nth d (row_of B v) 0 mod b_ext B d)%Z) (seq 0 (b_dim B))). rewrite map_map.
  assert (Nt : forall i, i < length G -> nth i (map F (star (b_dim B) G y)) [] = F (moved_k (b_dim B) G i y)).
  { intros i Hi. rewrite (nth_indep _ [] (F (fun _ => 0%Qc))) by (unfold star; rewrite !map_length; exact Hi). rewrite (map_nth F). now rewrite moved_star. }
  assert (Lp : 0 < length G) by (destruct G; [contradiction|cbn; lia]).
  change (map (fun x => map (fun d => (nth d (row_of B x) 0 mod b_ext B d)%Z) (seq 0 (b_dim B))) (star (b_dim B) G y)) with (map F (star (b_dim B) G y)).
  pose proof (Nt 0 Lp) as N0. remember (map F (star (b_dim B) G y)) as m eqn:Em. destruct m as [|first m].
  { exfalso. apply (f_equal (@length _)) in Em. unfold star in Em. rewrite !map_length in Em. cbn in Em. lia. }
  cbn [nth] in N0. eexists. split; [reflexivity|]. apply filter_ext_in. intros i Hi. apply in_seq in Hi. rewrite Nt by lia. now rewrite N0.
Qed.
Lemma little_main B G y : proper_box B -> G <> [] -> first_is_identity (b_dim B) G -> keeps_waves B G -> wave B y ->
  exists idx, little_index B G y = Ok idx /\ NoDup idx /\ (forall p, In p idx <-> in_little (b_dim B) G y p).
Proof.
  intros PB NE I K W. destruct (little_compute B G y K W PB NE) as (idx & E & X). exists idx. split; [exact E|]. subst idx.
  split; [apply NoDup_filter, seq_NoDup|]. intros p. rewrite filter_In, in_seq. unfold in_little.
  assert (Lp : 0 < length G) by (destruct G; [contradiction|cbn; lia]).
  assert (Q : p < length G -> (map (fun d => (nth d (row_of B (moved_k (b_dim B) G p y)) 0 mod b_ext B d)%Z) (seq 0 (b_dim B)) =
     map (fun d => (nth d (row_of B (moved_k (b_dim B) G 0 y)) 0 mod b_ext B d)%Z) (seq 0 (b_dim B)) <-> equal_waves (b_dim B) (moved_k (b_dim B) G p y) y)).
  { intros Hp. rewrite mod_waves; [|exact PB|now apply K|now apply K]. split; intros H.
    - eapply equal_waves_ext_r; [|exact H]. intros d Hd. symmetry. now apply I.
    - eapply equal_waves_ext_r; [|exact H]. intros d Hd. now apply I. }
  split.
  - intros [H1 H2]. split; [lia|]. apply Q; [lia|]. destruct (list_eq_dec _ _ _) as [e|]; [exact e|discriminate].
  - intros [H1 H2]. split; [lia|]. apply Q in H2; [|exact H1]. destruct (list_eq_dec _ _ _) as [|n]; [reflexivity|contradiction].
Qed.

(** ** the little group is a subgroup *)
Section Action.
Variable D : nat.
Variable G : list ksym.
Variable mul : nat -> nat -> nat.
Variable inv : nat -> nat.
Hypothesis GT : group_table (length G) mul inv.
Hypothesis AC : acting D G mul.
Let n := length G.
Lemma moved_sub p u v d : moved_k D G p (fun d => (u d - v d)%Qc) d = (moved_k D G p u d - moved_k D G p v d)%Qc.
Proof. unfold moved_k, mvec. rewrite <- qs_sub. apply qs_ext. intros i _. ring. Qed.
Lemma moved_ext p u v d : (forall d, d < D -> u d = v d) -> moved_k D G p u d = moved_k D G p v d.
Proof. intros H. unfold moved_k, mvec. apply qs_ext. intros i Hi. now rewrite H. Qed.
Lemma moved_equal p u v : p < n -> equal_waves D u v -> equal_waves D (moved_k D G p u) (moved_k D G p v).
Proof.
  intros Hp H. destruct AC as (_ & _ & I). assert (E : equal_waves D (fun d => (u d - v d)%Qc) (fun _ => 0%Qc)).
  { intros d Hd. destruct (H d Hd) as (z & E). exists z. rewrite E. ring. }
  apply (I p) in E; [|exact Hp]. intros d Hd. destruct (E d Hd) as (z & Ez). rewrite moved_sub in Ez. exists z.
  transitivity ((moved_k D G p u d - moved_k D G p v d) + moved_k D G p v d)%Qc; [ring|]. rewrite Ez. ring.
Qed.
Lemma moved_mul p q y : p < n -> q < n -> equal_waves D (moved_k D G (mul p q) y) (moved_k D G p (moved_k D G q y)).
Proof. intros Hp Hq. destruct AC as (_ & A & _). intros d Hd. exists 0%Z. rewrite A by assumption. rewrite zc_0. ring. Qed.
Lemma moved_one y : equal_waves D (moved_k D G 0 y) y.
Proof. destruct AC as (A & _ & _). intros d Hd. exists 0%Z. rewrite A by assumption. rewrite zc_0. ring. Qed.
Lemma little_mul y p q : in_little D G y p -> in_little D G y q -> in_little D G y (mul p q).
Proof.
  intros [Hp Ep] [Hq Eq_]. split; [now apply (gt_mul _ _ _ GT)|]. eapply equal_waves_trans; [now apply moved_mul|].
  eapply equal_waves_trans; [apply moved_equal; [exact Hp|exact Eq_]|exact Ep].
Qed.
Lemma little_one y : in_little D G y 0.
Proof. split; [apply (gt_pos _ _ _ GT)|apply moved_one]. Qed.
Lemma little_inv y p : in_little D G y p -> in_little D G y (inv p).
Proof.
  intros [Hp Ep]. pose proof (gt_inv _ _ _ GT p Hp) as Hi. split; [exact Hi|].
  eapply equal_waves_trans; [apply moved_equal; [exact Hi|apply equal_waves_sym, Ep]|]. eapply equal_waves_trans; [apply equal_waves_sym, moved_mul; assumption|].
  rewrite (proj1 (gt_undo _ _ _ GT p Hp)). apply moved_one.
Qed.
(** two symmetries move the wave vector to the same place when they differ by an element of the little group *)
Lemma star_equal y p q : p < n -> q < n -> (equal_waves D (moved_k D G p y) (moved_k D G q y) <-> in_little D G y (mul (inv q) p)).
Proof.
  intros Hp Hq. pose proof (gt_inv _ _ _ GT q Hq) as Hi. split.
  - intros H. split; [now apply (gt_mul _ _ _ GT)|]. eapply equal_waves_trans; [now apply moved_mul|].
    eapply equal_waves_trans; [apply moved_equal; [exact Hi|exact H]|]. eapply equal_waves_trans; [apply equal_waves_sym, moved_mul; assumption|].
    rewrite (proj1 (gt_undo _ _ _ GT q Hq)). apply moved_one.
  - intros [Hm H]. apply (moved_equal q) in H; [|exact Hq]. eapply equal_waves_trans; [|exact H].
    eapply equal_waves_trans; [|apply moved_mul; assumption]. rewrite (gt_assoc _ _ _ GT) by assumption. rewrite (proj2 (gt_undo _ _ _ GT q Hq)).
    rewrite (proj1 (gt_one _ _ _ GT p Hp)). apply equal_waves_refl.
Qed.
End Action.
