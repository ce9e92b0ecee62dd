(** Proofs behind C88: characters. *)
From Coq Require Import List Arith Bool ZArith QArith Qreals Qcanon Qabs Reals Lia Lra Ring Field Permutation.
From Verif Require Import Base BaseFacts Rings FloatCmp_Model LatGen_Model PointGp_Model PointGp_Lin PointGp_Tables ARNN_Model ARNN_Proofs ToArray_Model
  Estim_Model Estim_Proofs SpaceGp_Model SpaceGp_Spec SpaceGp_Proofs SpaceGp_Group Little_Model Little_Spec Little_Proofs Little_Phase.
Import ListNotations.
Open Scope nat_scope.

Lemma prune_rounded z : rounded_off (prune_c z) z.
Proof. split; unfold rounded, prune_c, prune_r; cbn [fst snd]; destruct (Rle_dec _ _); [left|right|left|right]; split; lra. Qed.
Lemma scatter_in idx : forall row X, NoDup idx -> length row = length idx ->
  (forall j, j < length idx -> X (nth j idx 0) = nth j row (0, 0)%R) -> forall g, In g idx -> scatter idx row g = fst (X g : cpx).
Proof.
  induction idx as [|i idx IH]; intros row X ND Len H g Hg; [destruct Hg|]. destruct row as [|x row]; [discriminate|]. cbn [scatter].
  apply NoDup_cons_iff in ND. destruct ND as [Ni ND]. destruct (Nat.eqb_spec g i) as [->|Ne].
  - specialize (H 0 ltac:(cbn; lia)). cbn [nth] in H. now rewrite H.
  - destruct Hg as [->|Hg]; [contradiction|]. apply IH; [exact ND|now injection Len|intros j Hj; apply (H (S j)); cbn; lia|exact Hg].
Qed.
Lemma scatter_out idx : forall row g, ~ In g idx -> scatter idx row g = 0%R.
Proof.
  induction idx as [|i idx IH]; intros row g H; [reflexivity|]. destruct row as [|x row]; [reflexivity|]. cbn [scatter].
  destruct (Nat.eqb_spec g i) as [->|Ne]; [exfalso; apply H; now left|]. apply IH. intros X. apply H. now right.
Qed.
Lemma scatter_is idx row X g : NoDup idx -> length row = length idx -> continued idx row X -> (forall z, In z row -> snd z = 0%R) -> X g = (scatter idx row g, 0)%R.
Proof.
  intros ND Len [H O] Re. destruct (in_dec Nat.eq_dec g idx) as [I|I].
  - rewrite (scatter_in idx row X ND Len H g I). destruct (In_nth _ _ 0 I) as (j & Hj & E). assert (S0 : snd (X g) = 0%R).
    { rewrite <- E, H by exact Hj. apply Re, nth_In. lia. }
    destruct (X g) as [u v]. cbn in *. now subst.
  - rewrite O by exact I. now rewrite scatter_out.
Qed.
Lemma forall2_mapl {A B} (P : B -> A -> Prop) (f : A -> B) l : (forall x, In x l -> P (f x) x) -> Forall2 P (map f l) l.
Proof. induction l as [|x l IH]; intros H; cbn; [constructor|]. constructor; [apply H; now left|apply IH; intros z Hz; apply H; now right]. Qed.
Lemma kdot_add D u v y : (kdot D (fun d => u d + v d)%Qc y == kdot D u y + kdot D v y)%Q.
Proof.
  unfold kdot. rewrite <- this_add. match goal with |- (this ?a == this ?b)%Q => assert (X : a = b :> Qc) end; [|now rewrite X].
  rewrite <- qs_add. apply qs_ext. intros i _. ring.
Qed.
Lemma kdot_sub_r D u y z : (kdot D u (fun d => y d - z d)%Qc == kdot D u y - kdot D u z)%Q.
Proof.
  unfold kdot. rewrite <- this_sub. match goal with |- (this ?a == this ?b)%Q => assert (X : a = b :> Qc) end; [|now rewrite X].
  rewrite <- qs_sub. apply qs_ext. intros i _. ring.
Qed.

Section Irreps.
Variable B : kbox.
Variable G : list ksym.
Variable ct : nat -> nat -> nat.
Variable CT : list (list cpx).
Variable y : vec.
Let D := b_dim B.
Let n := length G.
Lemma irreps_main : proper_box B -> G <> [] -> first_is_identity D G -> keeps_waves B G -> wave B y -> real_table CT ->
  exists idx M, little_index B G y = Ok idx /\ irreps B G ct CT y = Ok M /\ length M = length CT /\
  forall r row X, nth_error CT r = Some row -> length row = length idx -> continued idx row X ->
  exists out, nth_error M r = Some out /\
    Forall2 (fun z tg => rounded_off z (induced D G ct (length idx) X y (fst tg) (snd tg))) out (list_prod (trans_tuples B (seq 0 D)) (seq 0 n)).
Proof.
  intros PB NE I K W Re. destruct (little_main B G y PB NE I K W) as (idx & E & ND & _). exists idx.
  unfold irreps. rewrite E. cbn [bind]. rewrite (recip_ok B _ (star_waves B G y K W)). cbn [bind].
  assert (D0 : Nat.eqb (b_dim B) 0 = false) by (destruct PB as (_ & _ & N); unfold b_dim; destruct (b_extent B); [contradiction|reflexivity]).
  rewrite D0. eexists. split; [reflexivity|]. split; [reflexivity|]. split; [unfold little_irreps; now rewrite !map_length|].
  intros r row X Hr Len C. eexists. split; [unfold little_irreps; rewrite !nth_error_map, Hr; reflexivity|].
  apply forall2_mapl. intros [t g] Htg. cbn [fst snd]. apply in_prod_iff in Htg. destruct Htg as [Ht Hg]. apply in_seq in Hg.
  match goal with |- rounded_off (prune_c ?a) ?b => replace b with a; [apply prune_rounded|] end.
  unfold induced. rewrite rscal_emb, <- (fsum_scal cC cC_laws). apply fsum_ext. intros p Hp.
  assert (Sx : forall h, X h = (scatter idx row h, 0)%R).
  { intros h. apply scatter_is; [exact ND|exact Len|exact C|]. intros z Hz. apply (Re row z); [eapply nth_error_In; exact Hr|exact Hz]. }
  rewrite Sx. fold D. rewrite !moved_star by exact Hp. fold (kdot D (k_w (nth g G (KS eye (fun _ => 0%Qc)))) (moved_k D G p y)).
  rewrite (nth_indep _ [] (row_of B (fun _ => 0%Qc))) by (unfold star; rewrite !map_length; exact Hp). rewrite map_nth. unfold D. rewrite moved_star by exact Hp.
  rewrite (factor_tphase B _ _ _ (moved_k (b_dim B) G p y)).
  2:{ intros a Ha. apply in_seq in Ha. split; [pose proof (ext_pos B a PB); lia|]. apply row_exact; [now apply K|lia]. }
  rewrite tphase_kdot by (rewrite (tuples_len _ _ _ Ht), seq_length; reflexivity). unfold moves_by.
  rewrite (phase_ext _ _ (kdot_add (b_dim B) (k_w (sym G g)) (fun d => zc (nth d t 0%Z)) (moved_k (b_dim B) G p y))). rewrite phase_add.
  cbn [Nat.add]. fold (kdot (b_dim B) (fun d => zc (nth d t 0%Z)) (moved_k (b_dim B) G p y)). fold D. change (nth g G (KS eye (fun _ => 0%Qc))) with (sym G g).
  assert (S1 : ((scatter idx row (ct g p) / INR (length idx))%R, 0%R) = (emb (/ INR (length idx)) * (scatter idx row (ct g p), 0%R))%C).
  { unfold emb. cpx; unfold Rdiv; ring. }
  rewrite S1. ring.
Qed.
End Irreps.

Lemma all_int_dec m (v : vec) : {a | a < m /\ ~ exists z, (this (v a) == inject_Z z)%Q} + {forall a, a < m -> exists z, (this (v a) == inject_Z z)%Q}.
Proof.
  induction m as [|d IH]; [right; intros; lia|]. destruct IH as [(a & Ha & N)|IH]; [left; exists a; split; [lia|exact N]|].
  destruct (int_dec (this (v d))) as [Y|N]; [right; intros a Ha; assert (C : a < d \/ a = d) by lia; destruct C as [C| ->]; [now apply IH|exact Y]|left; exists d; split; [lia|exact N]].
Qed.
(** ** orthogonality *)
Section Ortho.
Variable B : kbox.
Variable G : list ksym.
Variable mul : nat -> nat -> nat.
Variable inv : nat -> nat.
Variable y : vec.
Variables X X' : nat -> cpx.
Variable idx : list nat.
Let D := b_dim B.
Let n := length G.
Hypothesis PB : proper_box B.
Hypothesis GT : group_table n mul inv.
Hypothesis AC : acting D G mul.
Hypothesis KW : keeps_waves B G.
Hypothesis Wy : wave B y.
Hypothesis ND : NoDup idx.
Hypothesis IDX : forall p, In p idx <-> in_little D G y p.
Hypothesis CX : class_function D G mul inv y X.
Hypothesis CX' : class_function D G mul inv y X'.
Hypothesis FIT : phases_fit D G y.
Let cj := conjugated mul inv.
Let ts := trans_tuples B (seq 0 D).

Lemma inv_mul p q : p < n -> q < n -> inv (mul p q) = mul (inv q) (inv p).
Proof.
  intros Hp Hq. pose proof (gt_inv _ _ _ GT p Hp) as Ip. pose proof (gt_inv _ _ _ GT q Hq) as Iq. pose proof (gt_mul _ _ _ GT p q Hp Hq) as Hm.
  pose proof (gt_inv _ _ _ GT _ Hm) as Im. pose proof (gt_mul _ _ _ GT _ _ Iq Ip) as Hm'.
  rewrite <- (proj2 (gt_one _ _ _ GT (inv (mul p q)) Im)).
  assert (E : mul (mul p q) (mul (inv q) (inv p)) = 0).
  { rewrite <- (gt_assoc _ _ _ GT p q) by assumption. rewrite (gt_assoc _ _ _ GT q) by assumption. rewrite (proj2 (gt_undo _ _ _ GT q Hq)), (proj1 (gt_one _ _ _ GT _ Ip)).
    apply (gt_undo _ _ _ GT p Hp). }
  rewrite <- E. rewrite (gt_assoc _ _ _ GT) by assumption. rewrite (proj1 (gt_undo _ _ _ GT _ Hm)). now apply (gt_one _ _ _ GT).
Qed.
Lemma inv_inv p : p < n -> inv (inv p) = p.
Proof.
  intros Hp. pose proof (gt_inv _ _ _ GT p Hp) as Ip. pose proof (gt_inv _ _ _ GT _ Ip) as Iip.
  rewrite <- (proj2 (gt_one _ _ _ GT _ Iip)). rewrite <- (proj1 (gt_undo _ _ _ GT p Hp)). rewrite (gt_assoc _ _ _ GT) by assumption.
  rewrite (proj1 (gt_undo _ _ _ GT _ Ip)). now apply (gt_one _ _ _ GT).
Qed.
Lemma inv_inj p q : p < n -> q < n -> inv p = inv q -> p = q.
Proof. intros Hp Hq H. rewrite <- (inv_inv p), <- (inv_inv q) by assumption. now rewrite H. Qed.
Lemma cancel_r p q r : p < n -> q < n -> r < n -> mul p r = mul q r -> p = q.
Proof.
  intros Hp Hq Hr H. pose proof (gt_inv _ _ _ GT r Hr) as Ir. apply (f_equal (fun x => mul x (inv r))) in H.
  rewrite <- !(gt_assoc _ _ _ GT) in H by assumption. rewrite (proj2 (gt_undo _ _ _ GT r Hr)) in H.
  rewrite !(fun p Hp => proj2 (gt_one _ _ _ GT p Hp)) in H by assumption. exact H.
Qed.
Lemma cancel_l p q r : p < n -> q < n -> r < n -> mul r p = mul r q -> p = q.
Proof.
  intros Hp Hq Hr H. pose proof (gt_inv _ _ _ GT r Hr) as Ir. apply (f_equal (fun x => mul (inv r) x)) in H.
  rewrite !(gt_assoc _ _ _ GT) in H by assumption. rewrite (proj1 (gt_undo _ _ _ GT r Hr)) in H.
  rewrite !(fun p Hp => proj1 (gt_one _ _ _ GT p Hp)) in H by assumption. exact H.
Qed.
Lemma cj_lt g p : g < n -> p < n -> cj g p < n.
Proof. intros Hg Hp. unfold cj, conjugated. apply (gt_mul _ _ _ GT); [apply (gt_mul _ _ _ GT); [now apply (gt_inv _ _ _ GT)|exact Hg]|exact Hp]. Qed.
Lemma cj_inj g g' p : g < n -> g' < n -> p < n -> cj g p = cj g' p -> g = g'.
Proof.
  intros Hg Hg' Hp H. pose proof (gt_inv _ _ _ GT p Hp) as Ip. unfold cj, conjugated in H.
  apply cancel_r in H; [|now apply (gt_mul _ _ _ GT)|now apply (gt_mul _ _ _ GT)|exact Hp]. now apply cancel_l in H.
Qed.
(** q^-1 g q = h (p^-1 g p) h^-1 with h = q^-1 p *)
Lemma cj_change g p q : g < n -> p < n -> q < n -> cj g q = mul (mul (mul (inv q) p) (cj g p)) (inv (mul (inv q) p)).
Proof.
  intros Hg Hp Hq. pose proof (gt_inv _ _ _ GT p Hp) as Ip. pose proof (gt_inv _ _ _ GT q Hq) as Iq.
  rewrite inv_mul, inv_inv by assumption. unfold cj, conjugated.
  assert (M : forall a b, a < n -> b < n -> mul a b < n) by (apply (gt_mul _ _ _ GT)).
  rewrite <- (gt_assoc _ _ _ GT (mul (inv q) p)) by auto. rewrite <- (gt_assoc _ _ _ GT (mul (inv p) g) p) by auto.
  rewrite (gt_assoc _ _ _ GT p (inv p) q) by auto. rewrite (proj2 (gt_undo _ _ _ GT p Hp)), (proj1 (gt_one _ _ _ GT q Hq)).
  rewrite <- (gt_assoc _ _ _ GT (inv q) p) by auto. rewrite (gt_assoc _ _ _ GT p (mul (inv p) g) q) by auto.
  rewrite (gt_assoc _ _ _ GT p (inv p) g) by auto. rewrite (proj2 (gt_undo _ _ _ GT p Hp)), (proj1 (gt_one _ _ _ GT g Hg)).
  now rewrite (gt_assoc _ _ _ GT) by auto.
Qed.
Definition same (p q : nat) : bool := if in_dec Nat.eq_dec (mul (inv q) p) idx then true else false.
Lemma same_spec p q : p < n -> q < n -> (same p q = true <-> equal_waves D (moved_k D G p y) (moved_k D G q y)).
Proof.
  intros Hp Hq. unfold same. rewrite (star_equal D G mul inv GT AC y p q Hp Hq). rewrite <- IDX. destruct (in_dec _ _ _); split; auto; discriminate.
Qed.
Lemma m_of_wave u v a : wave B u -> wave B v -> a < D -> exists z, (nz (m_of B a) * this (u a - v a)%Qc == inject_Z z)%Q.
Proof.
  intros Wu Wv Ha. destruct (Wu a Ha) as (z & Ez & Oz), (Wv a Ha) as (z' & Ez' & Oz'). unfold m_of. pose proof (ext_pos B a PB Ha) as Ep.
  exists (if nth a (b_pbc B) false then (z - z')%Z else 0%Z). destruct (nth a (b_pbc B) false).
  - unfold nz. rewrite Z2Nat.id by lia. rewrite <- zc_this, <- this_mul, <- zc_this.
    match goal with |- (this ?a == this ?b)%Q => assert (Q0 : a = b :> Qc) end; [|now rewrite Q0]. unfold Z.sub. rewrite zc_add, zc_opp, <- Ez, <- Ez'. ring.
  - rewrite (Oz eq_refl) in Ez. rewrite (Oz' eq_refl) in Ez'. rewrite zc_0 in Ez, Ez'.
    assert (Ne : zc (b_ext B a) <> 0%Qc) by (apply zc_neq0; lia).
    apply Qcmult_integral in Ez, Ez'. destruct Ez as [Ez|Ez]; [contradiction|]. destruct Ez' as [Ez'|Ez']; [contradiction|]. rewrite Ez, Ez'.
    rewrite this_sub. change (inject_Z 0) with 0%Q. change (this 0%Qc) with 0%Q. ring.
Qed.
Lemma sum_t p q : p < n -> q < n ->
  lsum cC (map (fun t => tphase (seq 0 D) t (fun d => moved_k D G p y d - moved_k D G q y d)%Qc) ts) = if same p q then cnat (length ts) else r0 cC.
Proof.
  intros Hp Hq. pose proof (same_spec p q Hp Hq) as SS. destruct (same p q).
  - apply tsum_all. intros a Ha. apply in_seq in Ha. destruct (proj1 SS eq_refl a ltac:(lia)) as (z & E). exists z. rewrite E, <- zc_this.
    match goal with |- (this ?a == this ?b)%Q => assert (Q0 : a = b :> Qc) by ring end. now rewrite Q0.
  - assert (Hd : {a | a < D /\ ~ exists z, (this (moved_k D G p y a - moved_k D G q y a)%Qc == inject_Z z)%Q} +
       {forall a, a < D -> exists z, (this (moved_k D G p y a - moved_k D G q y a)%Qc == inject_Z z)%Q}).
    { apply (all_int_dec D (fun a => moved_k D G p y a - moved_k D G q y a)%Qc). }
    destruct Hd as [(a & Ha & N)|Hd].
    + apply tsum_none; [|exists a; split; [apply in_seq; lia|exact N]]. intros b Hb. apply in_seq in Hb. apply m_of_wave; [now apply KW|now apply KW|lia].
    + exfalso. assert (F : false = true); [|discriminate]. apply SS. intros d Hdd. destruct (Hd d Hdd) as (z & E). exists z.
      rewrite <- zc_this in E. apply qc_eq_this in E. rewrite <- E. ring.
Qed.
Lemma induced_emb (Y : nat -> cpx) t g : In t ts -> induced D G cj (length idx) Y y t g =
  (emb (/ INR (length idx)) * fsum cC n (fun p => Y (cj g p) * (phase (kdot D (k_w (sym G g)) (moved_k D G p y)) * phase (kdot D (fun d => zc (nth d t 0%Z)) (moved_k D G p y)))))%C.
Proof.
  intros Ht. unfold induced. rewrite rscal_emb. f_equal. apply fsum_ext. intros p Hp. f_equal. unfold moves_by. rewrite (phase_ext _ _ (kdot_add D _ _ _)). apply phase_add.
Qed.
Lemma kdot_tphase t v : In t ts -> phase (kdot D (fun d => zc (nth d t 0%Z)) v) = tphase (seq 0 D) t v.
Proof. intros Ht. rewrite tphase_kdot by (rewrite (tuples_len _ _ _ Ht), seq_length; reflexivity). reflexivity. Qed.
Lemma phase_sub a b : phase (a - b) = (phase a * conj (phase b))%C.
Proof. rewrite phase_conj, <- phase_add. reflexivity. Qed.
Lemma conj_mul a b : conj (a * b)%C = (conj a * conj b)%C.
Proof. apply (cr_conj_mul cC cC_laws). Qed.
Lemma count_same p : p < n -> fsum cC n (fun q => if same p q then r1 cC else r0 cC) = cnat (length idx).
Proof.
  intros Hp. set (h := fun i => if in_dec Nat.eq_dec i idx then r1 cC else r0 cC).
  transitivity (fsum cC n h).
  - rewrite <- (fsum_perm cC cC_laws n (fun q => mul (inv q) p) h).
    + apply fsum_ext. intros q Hq. unfold h, same. destruct (in_dec _ _ _); reflexivity.
    + intros q Hq. apply (gt_mul _ _ _ GT); [now apply (gt_inv _ _ _ GT)|exact Hp].
    + intros q q' Hq Hq' H. apply cancel_r in H; [|now apply (gt_inv _ _ _ GT)|now apply (gt_inv _ _ _ GT)|exact Hp]. now apply inv_inj.
  - rewrite fsum_lsum by apply cC_laws.
    assert (Hi : forall i, In i idx -> i < n) by (intros i Hi; apply IDX in Hi; apply Hi).
    assert (P : Permutation (filter (fun i => if in_dec Nat.eq_dec i idx then true else false) (seq 0 n)) idx).
    { apply NoDup_Permutation; [apply NoDup_filter, seq_NoDup|exact ND|]. intros i. rewrite filter_In, in_seq. destruct (in_dec Nat.eq_dec i idx) as [I|I].
      - split; [tauto|]. intros _. specialize (Hi i I). split; [lia|reflexivity].
      - split; [intros [_ F]; discriminate|contradiction]. }
    rewrite <- (Permutation_length P). clear. unfold h. induction (seq 0 n) as [|a l IH]; cbn [map lsum filter].
    + unfold cnat, emb. cbn. reflexivity.
    + destruct (in_dec Nat.eq_dec a idx); cbn [length]; rewrite IH; [rewrite cnat_S; ring|ring].
Qed.
Lemma term_eq g p q : g < n -> p < n -> q < n -> 
  (if same p q then X (cj g p) * conj (X' (cj g q)) * (phase (kdot D (k_w (sym G g)) (moved_k D G p y)) * conj (phase (kdot D (k_w (sym G g)) (moved_k D G q y)))) else r0 cC)%C =
  (if same p q then X (cj g p) * conj (X' (cj g p)) else r0 cC)%C.
Proof.
  intros Hg Hp Hq. destruct (same p q) eqn:E; [|reflexivity]. pose proof (proj1 (same_spec p q Hp Hq) E) as W.
  rewrite (FIT p q g Hp Hq Hg W). rewrite phase_conj, phase_unit. unfold same in E. destruct (in_dec Nat.eq_dec (mul (inv q) p) idx) as [I|]; [|discriminate].
  apply IDX in I. destruct (in_dec Nat.eq_dec (cj g p) idx) as [J|J].
  - apply IDX in J. rewrite (cj_change g p q Hg Hp Hq). destruct CX' as [_ C']. rewrite C' by assumption. ring.
  - destruct CX as [C0 _]. rewrite (C0 (cj g p)); [change (0%R, 0%R) with (r0 cC); ring|]. intros K. apply J. now apply IDX.
Qed.
Lemma lsum_fsum {A} (l : list A) m (f : A -> nat -> cpx) : lsum cC (map (fun x => fsum cC m (f x)) l) = fsum cC m (fun i => lsum cC (map (fun x => f x i) l)).
Proof. induction l as [|a l IH]; cbn [map lsum]; [symmetry; apply (fsum_zero cC cC_laws); reflexivity|]. rewrite IH. symmetry. apply (fsum_add cC cC_laws). Qed.
Lemma lsum_ext {A} (f g : A -> cpx) l : (forall x, In x l -> f x = g x) -> lsum cC (map f l) = lsum cC (map g l).
Proof. intros H. f_equal. now apply map_ext_in. Qed.
Lemma idx_pos : INR (length idx) <> 0%R.
Proof.
  apply not_0_INR. intros E. destruct idx as [|i l] eqn:El; [|discriminate]. assert (I : In 0 ([] : list nat)); [|destruct I]. rewrite <- El. rewrite El. apply IDX.
  eapply little_one; [exact GT|exact AC].
Qed.
Lemma ortho : lsum cC (map (fun t => fsum cC n (fun g => induced D G cj (length idx) X y t g * conj (induced D G cj (length idx) X' y t g))%C) ts) =
  rscal (INR (length ts) * INR n / INR (length idx)) (fsum cC n (fun h => X h * conj (X' h))%C).
Proof.
  set (l := emb (/ INR (length idx))). set (w := fun g p => phase (kdot D (k_w (sym G g)) (moved_k D G p y))).
  transitivity (lsum cC (map (fun t => fsum cC n (fun g => fsum cC n (fun p => fsum cC n (fun q =>
     (l * l * (X (cj g p) * conj (X' (cj g q)) * (w g p * conj (w g q)))) * tphase (seq 0 D) t (fun d => moved_k D G p y d - moved_k D G q y d)%Qc))))%C ts)).
  { apply lsum_ext. intros t Ht. apply fsum_ext. intros g Hg. rewrite !induced_emb by exact Ht. fold l. rewrite conj_mul, (conj_fsum cC cC_laws).
    assert (cl : conj l = l) by (unfold l, emb; cpx; ring). rewrite cl.
    transitivity (fsum cC n (fun p => (l * (X (cj g p) * (w g p * phase (kdot D (fun d => zc (nth d t 0%Z)) (moved_k D G p y))))) *
      (l * fsum cC n (fun q => conj (X' (cj g q) * (w g q * phase (kdot D (fun d => zc (nth d t 0%Z)) (moved_k D G q y)))))))%C).
    { rewrite (fsum_scal_r cC cC_laws), (fsum_scal cC cC_laws). reflexivity. }
    apply fsum_ext. intros p Hp. rewrite <- (fsum_scal cC cC_laws), <- (fsum_scal cC cC_laws). apply fsum_ext. intros q Hq. rewrite !conj_mul.
    rewrite <- kdot_tphase by exact Ht. rewrite (phase_ext _ _ (kdot_sub_r D _ (moved_k D G p y) (moved_k D G q y))), phase_sub. ring. }
  rewrite lsum_fsum.
  transitivity (fsum cC n (fun g => fsum cC n (fun p => fsum cC n (fun q => l * l * cnat (length ts) * ((X (cj g p) * conj (X' (cj g p))) * (if same p q then r1 cC else r0 cC)))))%C).
  { apply fsum_ext. intros g Hg. rewrite lsum_fsum. apply fsum_ext. intros p Hp. rewrite lsum_fsum. apply fsum_ext. intros q Hq.
    transitivity ((l * l * (X (cj g p) * conj (X' (cj g q)) * (w g p * conj (w g q)))) * lsum cC (map (fun t => tphase (seq 0 D) t (fun d => moved_k D G p y d - moved_k D G q y d)%Qc) ts))%C.
    { rewrite <- lsum_scal, map_map. reflexivity. }
    rewrite sum_t by assumption. pose proof (term_eq g p q Hg Hp Hq) as T. fold (w g p) in T. fold (w g q) in T. destruct (same p q); [|ring]. rewrite T. ring. }
  transitivity (fsum cC n (fun g => fsum cC n (fun p => l * l * cnat (length ts) * cnat (length idx) * (X (cj g p) * conj (X' (cj g p)))))%C).
  { apply fsum_ext. intros g Hg. apply fsum_ext. intros p Hp. rewrite (fsum_scal cC cC_laws), (fsum_scal cC cC_laws), count_same by exact Hp. ring. }
  rewrite (fsum_swap cC cC_laws).
  transitivity (fsum cC n (fun _ => l * l * cnat (length ts) * cnat (length idx) * fsum cC n (fun h => X h * conj (X' h)))%C).
  { apply fsum_ext. intros p Hp. rewrite (fsum_scal cC cC_laws). f_equal. apply (fsum_perm cC cC_laws n (fun g => cj g p) (fun h => X h * conj (X' h))%C).
    - intros g Hg. now apply cj_lt.
    - intros g g' Hg Hg' H. now apply (cj_inj g g' p). }
  rewrite fsum_const, rscal_emb. set (s := fsum cC n _).
  assert (E : emb (INR (length ts) * INR n / INR (length idx)) = (cnat n * (l * l * cnat (length ts) * cnat (length idx)))%C).
  { unfold l, cnat. rewrite <- !emb_mul. f_equal. field. apply idx_pos. }
  rewrite E. ring.
Qed.
Lemma dim_lemma : (forall d, d < D -> k_w (sym G 0) d = 0%Qc) -> induced D G cj (length idx) X y (repeat 0%Z D) 0 = rscal (INR n / INR (length idx)) (X 0).
Proof.
  intros W0. unfold induced. rewrite !rscal_emb.
  transitivity (emb (/ INR (length idx)) * fsum cC n (fun _ => X 0))%C.
  - f_equal. apply fsum_ext. intros p Hp. assert (E : cj 0 p = 0).
    { unfold cj, conjugated. rewrite (proj2 (gt_one _ _ _ GT (inv p) (gt_inv _ _ _ GT p Hp))). apply (gt_undo _ _ _ GT p Hp). }
    rewrite E. rewrite (phase_ext _ 0), phase_0; [ring|]. unfold kdot, moves_by.
    match goal with |- (this ?a == _)%Q => assert (Z0 : a = 0%Qc :> Qc) end; [|rewrite Z0; reflexivity].
    apply qs_zero. intros d Hd. rewrite W0 by exact Hd. rewrite nth_repeat, zc_0. ring.
  - rewrite fsum_const. unfold cnat, Rdiv. rewrite emb_mul. ring.
Qed.
End Ortho.

(** ** the columns are those of the space group *)
Lemma tuples_same L axes : trans_tuples (KB (g_extent (gl_geom L)) (g_pbc (gl_geom L))) axes = tuples L axes.
Proof.
  set (B := KB _ _). assert (H : forall ts, fold_left (fun ts a => flat_map (fun t => map (fun k => t ++ [k]) (steps L a)) ts) axes ts = flat_map (fun t => map (app t) (trans_tuples B axes)) ts).
  { induction axes as [|a axes IH]; intros ts; cbn [fold_left trans_tuples].
    - induction ts as [|t ts IH]; [reflexivity|]. cbn [flat_map map app]. rewrite app_nil_r. now f_equal.
    - rewrite IH. induction ts as [|t ts IHt]; [reflexivity|]. cbn [flat_map]. rewrite flat_map_app, IHt. f_equal. unfold steps.
      rewrite map_map. clear. change (nth a (b_pbc B) false) with (nth a (g_pbc (gl_geom L)) false). change (b_ext B a) with (nth a (g_extent (gl_geom L)) 0%Z).
      induction (seq 0 _) as [|k l IH]; [reflexivity|]. cbn [map flat_map]. rewrite map_app, IH. f_equal. rewrite map_map. apply map_ext. intros z. now rewrite <- app_assoc. }
  unfold tuples. rewrite H. cbn [flat_map]. rewrite app_nil_r. clear. induction (trans_tuples B axes) as [|t l IH]; [reflexivity|]. cbn [map]. now rewrite <- IH.
Qed.
Lemma basis_lemma n U V W k d : (forall i j, i < n -> j < n -> qs n (fun c => V i c * U c j)%Qc = (if Nat.eqb i j then 1 else 0)%Qc) -> d < n ->
  k_components n U (mvec n W k) d = mvec n (k_form n U V W) (k_components n U k) d.
Proof.
  intros H Hd. unfold k_components, mvec, k_form.
  transitivity (qs n (fun i => U d i * qs n (fun j => W i j * qs n (fun c => V j c * qs n (fun e => U c e * k e)))))%Qc.
  - apply qs_ext. intros i Hi. f_equal. apply qs_ext. intros j Hj. f_equal.
    transitivity (qs n (fun e => (if Nat.eqb j e then 1 else 0) * k e))%Qc.
    + rewrite (qs_single n _ j Hj); [rewrite Nat.eqb_refl; ring|]. intros e He Ne. destruct (Nat.eqb_spec j e); [congruence|ring].
    + transitivity (qs n (fun e => qs n (fun c => V j c * U c e) * k e))%Qc; [apply qs_ext; intros e He; now rewrite H|].
      transitivity (qs n (fun e => qs n (fun c => V j c * (U c e * k e))))%Qc; [apply qs_ext; intros e He; rewrite <- qs_scal_r; apply qs_ext; intros c Hc; ring|].
      rewrite qs_swap. apply qs_ext. intros c Hc. now rewrite qs_scal.
  - symmetry. transitivity (qs n (fun c => qs n (fun i => U d i * qs n (fun j => W i j * (V j c * qs n (fun e => U c e * k e))))))%Qc.
    + apply qs_ext. intros c Hc. rewrite <- qs_scal_r. apply qs_ext. intros i Hi. rewrite <- Qcmult_assoc. f_equal. rewrite <- qs_scal_r. apply qs_ext. intros j Hj. ring.
    + rewrite qs_swap. apply qs_ext. intros i Hi. rewrite qs_scal. f_equal. rewrite qs_swap. apply qs_ext. intros j Hj. now rewrite qs_scal.
Qed.

(** ** different stars *)
Section Stars.
Variable B : kbox.
Variable G : list ksym.
Variable mul : nat -> nat -> nat.
Variable inv : nat -> nat.
Variable cj : nat -> nat -> nat.
Variables y y' : vec.
Variables X X' : nat -> cpx.
Variables l l' : nat.
Let D := b_dim B.
Let n := length G.
Hypothesis PB : proper_box B.
Hypothesis GT : group_table n mul inv.
Hypothesis AC : acting D G mul.
Hypothesis KW : keeps_waves B G.
Hypothesis Wy : wave B y.
Hypothesis Wy' : wave B y'.
Hypothesis NS : forall p, p < n -> ~ equal_waves D (moved_k D G p y) y'.
Let ts := trans_tuples B (seq 0 D).
Lemma stars_apart p q : p < n -> q < n -> ~ equal_waves D (moved_k D G p y) (moved_k D G q y').
Proof.
  intros Hp Hq H. pose proof (gt_inv _ _ _ GT q Hq) as Hi. apply (NS (mul (inv q) p)); [now apply (gt_mul _ _ _ GT)|].
  eapply equal_waves_trans; [eapply moved_mul; eassumption|]. eapply equal_waves_trans; [eapply moved_equal; [eassumption|exact Hi|exact H]|].
  eapply equal_waves_trans; [apply equal_waves_sym; eapply moved_mul; eassumption|]. rewrite (proj1 (gt_undo _ _ _ GT q Hq)). eapply moved_one; eassumption.
Qed.
Lemma sum_apart p q : p < n -> q < n -> lsum cC (map (fun t => tphase (seq 0 D) t (fun d => moved_k D G p y d - moved_k D G q y' d)%Qc) ts) = r0 cC.
Proof.
  intros Hp Hq. destruct (all_int_dec D (fun a => moved_k D G p y a - moved_k D G q y' a)%Qc) as [(a & Ha & N)|Hd].
  - apply tsum_none; [|exists a; split; [apply in_seq; lia|exact N]]. intros b Hb. apply in_seq in Hb. eapply (m_of_wave B); try eassumption; [now apply KW|now apply KW|unfold D in *; lia].
  - exfalso. apply (stars_apart p q Hp Hq). intros d Hdd. destruct (Hd d Hdd) as (z & E). exists z. rewrite <- zc_this in E. apply qc_eq_this in E. rewrite <- E. ring.
Qed.
Lemma stars : lsum cC (map (fun t => fsum cC n (fun g => induced D G cj l X y t g * conj (induced D G cj l' X' y' t g))%C) ts) = r0 cC.
Proof.
  rewrite lsum_fsum. apply (fsum_zero cC cC_laws). intros g Hg.
  set (w := fun (y : vec) p => phase (kdot D (k_w (sym G g)) (moved_k D G p y))).
  transitivity (lsum cC (map (fun t => fsum cC n (fun p => fsum cC n (fun q => (emb (/ INR l) * emb (/ INR l') * (X (cj g p) * conj (X' (cj g q)) * (w y p * conj (w y' q)))) *
     tphase (seq 0 D) t (fun d => moved_k D G p y d - moved_k D G q y' d)%Qc)))%C ts)).
  - apply lsum_ext. intros t Ht. unfold induced. rewrite !rscal_emb, conj_mul, (conj_fsum cC cC_laws).
    assert (cl : conj (emb (/ INR l')) = emb (/ INR l')) by (unfold emb; cpx; ring). rewrite cl. fold n.
    transitivity (fsum cC n (fun p => (emb (/ INR l) * (X (cj g p) * phase (kdot D (moves_by G t g) (moved_k D G p y)))) *
      (emb (/ INR l') * fsum cC n (fun q => conj (X' (cj g q) * phase (kdot D (moves_by G t g) (moved_k D G q y'))))))%C).
    { rewrite (fsum_scal_r cC cC_laws), (fsum_scal cC cC_laws). reflexivity. }
    apply fsum_ext. intros p Hp. rewrite <- (fsum_scal cC cC_laws), <- (fsum_scal cC cC_laws). apply fsum_ext. intros q Hq. rewrite !conj_mul.
    rewrite <- (kdot_tphase B) by exact Ht. rewrite (phase_ext _ _ (kdot_sub_r D _ (moved_k D G p y) (moved_k D G q y'))), phase_sub.
    unfold moves_by. rewrite (phase_ext _ _ (kdot_add D (k_w (sym G g)) (fun d => zc (nth d t 0%Z)) (moved_k D G p y))), (phase_ext _ _ (kdot_add D (k_w (sym G g)) (fun d => zc (nth d t 0%Z)) (moved_k D G q y'))).
    rewrite !phase_add, conj_mul. fold (w y p) (w y' q). ring.
  - rewrite lsum_fsum. apply (fsum_zero cC cC_laws). intros p Hp. rewrite lsum_fsum. apply (fsum_zero cC cC_laws). intros q Hq.
    transitivity ((emb (/ INR l) * emb (/ INR l') * (X (cj g p) * conj (X' (cj g q)) * (w y p * conj (w y' q)))) * lsum cC (map (fun t => tphase (seq 0 D) t (fun d => moved_k D G p y d - moved_k D G q y' d)%Qc) ts))%C.
    + rewrite <- lsum_scal, map_map. reflexivity.
    + rewrite sum_apart by assumption. ring.
Qed.
End Stars.
