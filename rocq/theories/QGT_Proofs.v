From Coq Require Import List Arith Bool Reals Lra Lia Ring Permutation.
From Verif Require Import Base Rings ARNN_Model ARNN_Proofs Estim_Model Estim_Spec Estim_Proofs QGT_Model QGT_Spec.
Import ListNotations.
Open Scope nat_scope.

(** ** lists *)
Lemma combine_map_l {A B} (f : A -> B) (l : list A) : combine (map f l) l = map (fun x => (f x, x)) l.
Proof. induction l as [|a l IH]; cbn [map combine]; [reflexivity|]. now rewrite IH. Qed.
Lemma combine_map2 {A B B'} (f : A -> B) (g : A -> B') (l : list A) :
  combine (map f l) (map g l) = map (fun x => (f x, g x)) l.
Proof. induction l as [|a l IH]; cbn [map combine]; [reflexivity|]. now rewrite IH. Qed.
Lemma concat_map' {A B} (f : A -> B) (ls : list (list A)) : concat (map (map f) ls) = map f (concat ls).
Proof. now rewrite concat_map. Qed.
Lemma map_nth_seq {A B} (f : A -> B) (l : list A) d : map (fun i => f (nth i l d)) (seq 0 (length l)) = map f l.
Proof.
  induction l as [|a l IH]; [reflexivity|]. cbn [length seq map nth]. f_equal.
  rewrite <- seq_shift, map_map. exact IH.
Qed.

(** ** sums over lists *)
Section LSums.
  Variable C : cring.
  Hypothesis L : cring_laws C.
  Add Ring CringL : (cr_ring C L).
  Notation "0" := (r0 C).
  Notation "1" := (r1 C).
  Infix "+" := (radd C).
  Infix "*" := (rmul C).
  Infix "-" := (rsub C).
  Notation conj := (rconj C).
  Lemma lsum_ext {A} (f g : A -> T C) l : (forall a, In a l -> f a = g a) -> lsum C (map f l) = lsum C (map g l).
  Proof. intros H. f_equal. apply map_ext_in, H. Qed.
  Lemma lsum_zero {A} (f : A -> T C) l : (forall a, In a l -> f a = 0) -> lsum C (map f l) = 0.
  Proof.
    intros H. induction l as [|a l IH]; cbn [map lsum]; [reflexivity|].
    rewrite (H a (or_introl eq_refl)), IH; [ring|]. intros; apply H; now right.
  Qed.
  Lemma lsum_add {A} (f g : A -> T C) l : lsum C (map (fun a => f a + g a) l) = lsum C (map f l) + lsum C (map g l).
  Proof. induction l as [|a l IH]; cbn [map lsum]; [ring|]. rewrite IH. ring. Qed.
  Lemma lsum_sub {A} (f g : A -> T C) l : lsum C (map (fun a => f a - g a) l) = lsum C (map f l) - lsum C (map g l).
  Proof. induction l as [|a l IH]; cbn [map lsum]; [ring|]. rewrite IH. ring. Qed.
  Lemma lsum_scal {A} c (f : A -> T C) l : lsum C (map (fun a => c * f a) l) = c * lsum C (map f l).
  Proof. induction l as [|a l IH]; cbn [map lsum]; [ring|]. rewrite IH. ring. Qed.
  Lemma lsum_scal_r' {A} c (f : A -> T C) l : lsum C (map (fun a => f a * c) l) = lsum C (map f l) * c.
  Proof. induction l as [|a l IH]; cbn [map lsum]; [ring|]. rewrite IH. ring. Qed.
  Lemma lsum_concat {A} (f : A -> T C) ls : lsum C (map (fun l => lsum C (map f l)) ls) = lsum C (map f (concat ls)).
  Proof.
    induction ls as [|l ls IH]; cbn [map lsum concat]; [reflexivity|]. rewrite IH, map_app, (lsum_app C L). reflexivity.
  Qed.
  Lemma lsum_swap {A B} (f : A -> B -> T C) l m :
    lsum C (map (fun a => lsum C (map (f a) m)) l) = lsum C (map (fun b => lsum C (map (fun a => f a b) l)) m).
  Proof.
    induction l as [|a l IH]; cbn [map lsum].
    - symmetry. now apply lsum_zero.
    - rewrite IH, <- lsum_add. reflexivity.
  Qed.
  Lemma conj_zero : conj 0 = 0.
  Proof.
    assert (E : conj 0 + conj 0 = conj 0) by (rewrite <- (cr_conj_add C L); f_equal; ring).
    replace 0 with (conj 0 - conj 0) at 2 by ring. rewrite <- E at 2. ring.
  Qed.
  Lemma conj_lsum {A} (f : A -> T C) l : conj (lsum C (map f l)) = lsum C (map (fun a => conj (f a)) l).
  Proof.
    induction l as [|a l IH]; cbn [map lsum]; [apply conj_zero|]. rewrite (cr_conj_add C L), IH. reflexivity.
  Qed.
  Lemma lsum_fsum_swap {A} n (f : A -> nat -> T C) l :
    lsum C (map (fun a => fsum C n (f a)) l) = fsum C n (fun i => lsum C (map (fun a => f a i) l)).
  Proof.
    rewrite (fsum_lsum C L), <- (lsum_swap f). apply lsum_ext. intros a _. apply (fsum_lsum C L).
  Qed.

  (** the kernels *)
  Variable I : Type.
  Notation row := (I -> T C).
  Lemma vjp_sum (g : row -> T C) ranks c :
    vjp C I ranks (map (map g) ranks) c = lsum C (map (fun r => g r * r c) (concat ranks)).
  Proof.
    unfold vjp. rewrite combine_map_l, map_map. cbn [fst snd]. rewrite <- lsum_concat. apply lsum_ext. intros rk _.
    rewrite combine_map_l, map_map. reflexivity.
  Qed.
  Definition kernel (cols : list I) (rows : list row) (shift : T C) (v : row) (c : I) : T C :=
    lsum C (map (fun r => conj (r c) * lsum C (map (fun d => r d * v d) cols)) rows) + shift * v c.
  Lemma mat_vec_pytree_is leaves ranks shift v c :
    mat_vec_pytree C I leaves ranks shift v c = kernel (concat leaves) (concat ranks) shift v c.
  Proof.
    unfold mat_vec_pytree, kernel. rewrite vjp_sum, conj_lsum.
    rewrite (cr_ring C L).(Radd_comm). f_equal. apply lsum_ext. intros r _.
    rewrite (cr_conj_mul C L), (cr_conj_conj C L). unfold jvp. rewrite lsum_concat. ring.
  Qed.
  Lemma mat_vec_dense_is cols ranks shift v c :
    mat_vec_dense C I cols ranks shift v c = kernel cols (concat ranks) shift v c.
  Proof.
    unfold mat_vec_dense, kernel. f_equal. rewrite <- lsum_concat. apply lsum_ext. intros rk _.
    rewrite conj_lsum. apply lsum_ext. intros r _. rewrite (cr_conj_mul C L), (cr_conj_conj C L). ring.
  Qed.

  Variable qn : nat -> T C.
  Hypothesis Hq : forall a b, qn a * qn b = qn (a * b)%nat.
  Lemma mean_is n (ranks : list (list row)) c : Forall (fun r => length r = n) ranks ->
    mean C qn I ranks c = qn (n * length ranks)%nat * lsum C (map (fun r : row => r c) (concat ranks)).
  Proof.
    intros F. unfold mean.
    rewrite (lsum_ext _ (fun rk => qn n * lsum C (map (fun r : row => r c) rk))).
    - rewrite lsum_scal, lsum_concat, <- Hq. ring.
    - intros rk H. rewrite Forall_forall in F. now rewrite (F rk H).
  Qed.
  (** to_dense is the matrix of the product *)
  Lemma to_dense_is ranks shift eqb c d :
    to_dense_jac C I ranks shift eqb c d
    = lsum C (map (fun r => conj (r c) * r d) (concat ranks)) + shift * (if eqb c d then 1 else 0).
  Proof. unfold to_dense_jac. now rewrite lsum_concat. Qed.
  Lemma kernel_matrix cols rows shift v c (eqb : I -> I -> bool) :
    (forall d e, eqb d e = true <-> d = e) -> NoDup cols -> In c cols ->
    kernel cols rows shift v c
    = lsum C (map (fun d => (lsum C (map (fun r => conj (r c) * r d) rows) + shift * (if eqb c d then 1 else 0)) * v d) cols).
  Proof.
    intros He Hn Hc. unfold kernel.
    rewrite (lsum_ext (fun d => (lsum C (map (fun r : row => conj (r c) * r d) rows) + shift * (if eqb c d then 1 else 0)) * v d)
       (fun d => lsum C (map (fun r : row => conj (r c) * r d * v d) rows) + shift * (if eqb c d then v d else 0))).
    2:{ intros d _. rewrite (lsum_scal_r' (v d) (fun r : row => conj (r c) * r d)). destruct (eqb c d); ring. }
    rewrite lsum_add. f_equal.
    - rewrite lsum_swap. apply lsum_ext. intros r _. rewrite <- lsum_scal. apply lsum_ext. intros d _. ring.
    - rewrite lsum_scal. f_equal. induction cols as [|e cols IH]; [destruct Hc|].
      inversion_clear Hn as [|? ? Hne Hn']. cbn [map lsum]. destruct (eqb c e) eqn:E.
      + apply He in E. subst e. rewrite lsum_zero; [ring|]. intros d Hd. destruct (eqb c d) eqn:E; [|reflexivity].
        apply He in E. subst. contradiction.
      + destruct Hc as [<-|Hc]; [rewrite (proj2 (He e e) eq_refl) in E; discriminate|]. rewrite <- IH by assumption. ring.
  Qed.
End LSums.

(** ** orders of the real coordinates *)
Lemma flag_app_shift ls k b n : flag ((b, n) :: ls) (n + k) = flag ls k.
Proof. cbn [flag]. destruct (Nat.ltb_spec (n + k) n); [lia|]. f_equal. lia. Qed.
Lemma flag_head ls k b n : k < n -> flag ((b, n) :: ls) k = b.
Proof. intros H. cbn [flag]. destruct (Nat.ltb_spec k n); [reflexivity|lia]. Qed.

Section CoordSums.
  Variable C : cring.
  Hypothesis L : cring_laws C.
  Add Ring CringS : (cr_ring C L).
  Notation "x + y" := (radd C x y).
  Variable f : coord -> T C.
  Definition both (off : nat) (ls : leaves) (k : nat) : T C :=
    f ((off + k)%nat, false) + (if flag ls k then f ((off + k)%nat, true) else r0 C).

  Lemma lsum_parts p off n : lsum C (map f (map (fun k => (k, p)) (seq off n))) = fsum C n (fun k => f ((off + k)%nat, p)).
  Proof.
    rewrite map_map. rewrite (fsum_lsum C L). f_equal. revert off. induction n as [|n IH]; intros off; [reflexivity|].
    cbn [seq map]. f_equal; [do 2 f_equal; lia|]. rewrite IH.
    rewrite <- (seq_shift n 0), map_map. apply map_ext. intros k. do 2 f_equal. lia.
  Qed.
  Lemma fsum_split m n (g : nat -> T C) : fsum C (m + n) g = fsum C m g + fsum C n (fun i => g (m + i)%nat).
  Proof.
    induction n as [|n IH]; [rewrite Nat.add_0_r; cbn [fsum]; ring|]. rewrite Nat.add_succ_r. cbn [fsum]. rewrite IH. ring.
  Qed.
  Lemma real_leaves_sum ls : forall off,
    lsum C (map f (concat (real_leaves off ls))) = fsum C (n_pars ls) (both off ls).
  Proof.
    induction ls as [|[b n] ls IH]; intros off; [reflexivity|].
    cbn [real_leaves n_pars snd]. rewrite concat_app, map_app, (lsum_app C L), IH, fsum_split. f_equal.
    - transitivity (fsum C n (fun k => f ((off + k)%nat, false) + (if b then f ((off + k)%nat, true) else r0 C))).
      + rewrite (fsum_add C L). destruct b; cbn [concat]; rewrite ?app_nil_r, ?map_app, ?(lsum_app C L), !lsum_parts; [reflexivity|].
        rewrite (fsum_zero C L n (fun _ => r0 C)) by reflexivity. ring.
      + apply fsum_ext. intros k Hk. unfold both. now rewrite flag_head.
    - apply fsum_ext. intros k Hk. unfold both. rewrite flag_app_shift, Nat.add_assoc. reflexivity.
  Qed.
  Lemma lsum_filter (t : nat -> bool) g l : lsum C (map g (filter t l)) = lsum C (map (fun k => if t k then g k else r0 C) l).
  Proof.
    induction l as [|a l IH]; cbn [filter map lsum]; [reflexivity|]. destruct (t a); cbn [map lsum]; rewrite IH; ring.
  Qed.
  Lemma reim_sum ls : lsum C (map f (reim_columns ls)) = fsum C (n_pars ls) (both 0 ls).
  Proof.
    unfold reim_columns, both. rewrite map_app, (lsum_app C L), lsum_parts, (fsum_add C L). f_equal.
    rewrite map_map, lsum_filter, <- (fsum_lsum C L). reflexivity.
  Qed.
End CoordSums.

Lemma flag_all_true ls k : Forall (fun l => fst l = true) ls -> k < n_pars ls -> flag ls k = true.
Proof.
  revert k. induction ls as [|[b n] ls IH]; intros k F H; cbn [n_pars snd] in H; [lia|].
  apply Forall_cons_iff in F. destruct F as [F1 F]. cbn [fst] in F1. subst b. cbn [flag].
  destruct (Nat.ltb_spec k n); [reflexivity|]. apply IH; [exact F|lia].
Qed.
Lemma flag_all_false ls k : Forall (fun l => fst l = false) ls -> flag ls k = false.
Proof.
  revert k. induction ls as [|[b n] ls IH]; intros k F; [reflexivity|].
  apply Forall_cons_iff in F. destruct F as [F1 F]. cbn [fst] in F1. subst b. cbn [flag].
  destruct (Nat.ltb_spec k n); [reflexivity|]. now apply IH.
Qed.
Lemma filter_all {A} (t : A -> bool) l : (forall a, In a l -> t a = true) -> filter t l = l.
Proof. induction l as [|a l IH]; intros H; cbn [filter]; [reflexivity|]. rewrite (H a (or_introl eq_refl)), IH; [reflexivity|]. intros; apply H; now right. Qed.
Lemma filter_none {A} (t : A -> bool) l : (forall a, In a l -> t a = false) -> filter t l = [].
Proof. induction l as [|a l IH]; intros H; cbn [filter]; [reflexivity|]. rewrite (H a (or_introl eq_refl)), IH; [reflexivity|]. intros; apply H; now right. Qed.

Lemma columns_agree ls : homogeneous ls -> reim_columns ls = vec_columns ls.
Proof.
  intros H. unfold reim_columns, vec_columns. f_equal. destruct H as [H|H].
  - rewrite filter_all by (intros a Ha; apply in_seq in Ha; apply flag_all_true; [exact H|lia]).
    destruct ls as [|[b n] ls]; [reflexivity|]. apply Forall_cons_iff in H. destruct H as [H _]. cbn [fst] in H. subst b. reflexivity.
  - rewrite filter_none by (intros; now apply flag_all_false).
    replace (existsb (fun l : bool * nat => fst l) ls) with false; [reflexivity|].
    symmetry. induction ls as [|l ls IH]; [reflexivity|]. apply Forall_cons_iff in H. destruct H as [H1 H].
    cbn [existsb]. now rewrite H1, IH.
Qed.
Lemma coord_eqb_spec (c e : coord) : (fst c =? fst e) && Bool.eqb (snd c) (snd e) = true <-> c = e.
Proof.
  destruct c as [a p], e as [b q]. cbn [fst snd]. rewrite andb_true_iff, Nat.eqb_eq, Bool.eqb_true_iff. split.
  - now intros [-> ->].
  - now injection 1.
Qed.
Lemma positions_at cols (g : coord -> R) d c : In c cols ->
  positions cols (fun i => g (nth i cols (O, false))) d c = g c.
Proof.
  intros H. unfold positions.
  assert (G : forall cols' x, In c cols' -> (forall i, (i < length cols') -> x i = g (nth i cols' (O, false))) ->
    forall off, (fix go i cols0 := match cols0 with
    | [] => d
    | e :: cols1 => if ((fst c =? fst e)%nat && Bool.eqb (snd c) (snd e))%bool then x (i - off)%nat else go (S i) cols1
    end) off cols' = g c).
  { clear. induction cols' as [|e cols' IH]; intros x Hin Hx off; [destruct Hin|].
    destruct ((fst c =? fst e) && Bool.eqb (snd c) (snd e)) eqn:E.
    - apply coord_eqb_spec in E. subst e. rewrite Nat.sub_diag. rewrite Hx by (cbn [length]; lia). reflexivity.
    - destruct Hin as [->|Hin]; [rewrite (proj2 (coord_eqb_spec c c) eq_refl) in E; discriminate|].
      specialize (IH (fun i => x (S i)) Hin).
      assert (Hx' : forall i, i < length cols' -> x (S i) = g (nth i cols' (O, false))).
      { intros i Hi. rewrite Hx by (cbn [length]; lia). reflexivity. }
      specialize (IH Hx' (S off)). rewrite <- IH. clear.
      assert (G : forall l i, off < i -> 
        (fix go i cols0 := match cols0 with | [] => d
         | e :: cols1 => if ((fst c =? fst e)%nat && Bool.eqb (snd c) (snd e))%bool then x (i - off)%nat else go (S i) cols1 end) i l
        = (fix go i cols0 := match cols0 with | [] => d
         | e :: cols1 => if ((fst c =? fst e)%nat && Bool.eqb (snd c) (snd e))%bool then x (S (i - S off))%nat else go (S i) cols1 end) i l).
      { induction l as [|e l IH]; intros i Hi; [reflexivity|]. rewrite IH by lia.
        replace (S (i - S off)) with (i - off) by lia. reflexivity. }
      apply G. lia. }
  specialize (G cols (fun i => g (nth i cols (O, false))) H (fun i _ => eq_refl) O). cbv beta in G. 
  rewrite <- G. clear G.
  assert (G : forall l i,
        (fix go i cols0 := match cols0 with | [] => d
         | e :: cols1 => if ((fst c =? fst e)%nat && Bool.eqb (snd c) (snd e))%bool then g (nth i cols (O, false)) else go (S i) cols1 end) i l
        = (fix go i cols0 := match cols0 with | [] => d
         | e :: cols1 => if ((fst c =? fst e)%nat && Bool.eqb (snd c) (snd e))%bool then g (nth (i - 0) cols (O, false)) else go (S i) cols1 end) i l).
  { induction l as [|e l IH]; intros i; [reflexivity|]. rewrite IH, Nat.sub_0_r. reflexivity. }
  apply G.
Qed.
Lemma in_reim ls k p : k < n_pars ls -> (p = true -> flag ls k = true) -> In (k, p) (reim_columns ls).
Proof.
  intros Hk Hp. unfold reim_columns. apply in_or_app. destruct p.
  - right. apply in_map_iff. exists k. split; [reflexivity|]. apply filter_In. split; [apply in_seq; lia|auto].
  - left. apply in_map_iff. exists k. split; [reflexivity|]. apply in_seq. lia.
Qed.

(** ** averages *)
Open Scope R_scope.
Ltac rring := match goal with |- ?a = ?b => change (@eq R a b) end; cbn [rR radd rmul rsub ropp r0 r1 rconj]; ring.
Lemma qr_mul a b : qr a * qr b = qr (a * b).
Proof. unfold qr. rewrite mult_INR, Rinv_mult. reflexivity. Qed.
Lemma qc_mul a b : rmul cC (qc a) (qc b) = qc (a * b).
Proof. unfold qc. cpx; [rewrite mult_INR, Rinv_mult|]; ring. Qed.
Lemma sr_sq n : sr n * sr n = qr n.
Proof.
  unfold sr, qr. rewrite <- Rinv_mult. f_equal. apply sqrt_sqrt, pos_INR.
Qed.
Lemma sc_sq n : rmul cC (rconj cC (sc n)) (sc n) = qc n.
Proof. unfold sc, qc. cpx; [|ring]. change (/ INR n) with (qr n). rewrite <- (sr_sq n). unfold sr. ring. Qed.
Lemma fst_lsum' {A} (f : A -> cpx) l : fst (lsum cC (map f l)) = lsum rR (map (fun a => fst (f a)) l).
Proof. apply fst_lsum_map. Qed.
Lemma snd_lsum' {A} (f : A -> cpx) l : snd (lsum cC (map f l)) = lsum rR (map (fun a => snd (f a)) l).
Proof. induction l as [|a l IH]; [reflexivity|]. cbn [map lsum]. rewrite <- IH. reflexivity. Qed.

Section Ranks.
  Variable ranks : list (list sample).
  Variable n : nat.
  Hypothesis Hn : (0 < n)%nat.
  Hypothesis Hne : ranks <> [].
  Hypothesis HF : Forall (fun r => length r = n) ranks.
  Let ss := concat ranks.
  Let N := (n * length ranks)%nat.

  Lemma length_ss : length ss = N.
  Proof.
    unfold ss, N. clear Hne Hn. induction ranks as [|r rs IH]; cbn [concat length]; [lia|].
    apply Forall_cons_iff in HF. destruct HF as [F1 F]. rewrite app_length, IH by exact F. lia.
  Qed.
  Lemma n_local_is : n_local ranks = n.
  Proof.
    unfold n_local. clear Hn. destruct ranks as [|r rs]; [congruence|]. apply Forall_cons_iff in HF. now destruct HF.
  Qed.
  Lemma N_pos : (0 < N)%nat.
  Proof. unfold N. destruct ranks; [congruence|cbn [length]; lia]. Qed.
  Lemma N_neq : INR N <> 0.
  Proof. pose proof (lt_INR 0 N N_pos) as H. cbn [INR] in H. lra. Qed.
  Lemma lengths_map {I C} (g : sample -> I -> T C) : Forall (fun r => length r = n) (map (map g) ranks).
  Proof.
    apply Forall_map. eapply Forall_impl; [|exact HF]. intros r Hr. cbv beta in *. now rewrite map_length.
  Qed.

  Lemma mean_re (g : sample -> coord -> R) c :
    mean rR qr coord (map (map g) ranks) c = qr N * lsum rR (map (fun s => g s c) ss).
  Proof.
    rewrite (mean_is rR rR_laws coord qr qr_mul n) by apply (lengths_map (C:=rR)).
    rewrite map_length, concat_map', map_map. reflexivity.
  Qed.
  Lemma centered_1 s c : grad_1 s c - mean rR qr coord (map (map grad_1) ranks) c = fst (delta ss c s).
  Proof.
    rewrite mean_re. unfold delta, avg. rewrite length_ss. cbn [cC rsub fst]. unfold rscal. cbn [fst].
    rewrite fst_lsum'. reflexivity.
  Qed.
  Lemma centered_mi s c : grad_mi s c - mean rR qr coord (map (map grad_mi) ranks) c = snd (delta ss c s).
  Proof.
    rewrite mean_re. unfold delta, avg. rewrite length_ss. cbn [cC rsub snd]. unfold rscal. cbn [snd].
    rewrite snd_lsum'. unfold grad_mi. unfold qr. f_equal; [ring|]. f_equal. apply (lsum_ext rR). intros. rring.
  Qed.

  Definition row1 (s : sample) (c : coord) : R := (grad_1 s c - mean rR qr coord (map (map grad_1) ranks) c) * sr N.
  Definition row2 (s : sample) (c : coord) : R := (grad_mi s c - mean rR qr coord (map (map grad_mi) ranks) c) * sr N.
  Lemma row1_is s c : row1 s c = fst (delta ss c s) * sr N.
  Proof. unfold row1. now rewrite centered_1. Qed.
  Lemma row2_is s c : row2 s c = snd (delta ss c s) * sr N.
  Proof. unfold row2. now rewrite centered_mi. Qed.

  Lemma oks_real_sum (F : (coord -> R) -> R) :
    lsum rR (map F (concat (oks_pytree MReal ranks))) = lsum rR (map (fun s => F (row1 s)) ss).
  Proof.
    unfold oks_pytree, divide_sqrt, subtract_mean. rewrite !map_length, n_local_is, concat_map', map_map.
    rewrite concat_map', map_map, concat_map', map_map. reflexivity.
  Qed.
  Lemma oks_dense_real : oks_dense MReal ranks = oks_pytree MReal ranks.
  Proof. reflexivity. Qed.

  Lemma oks_complex_sum m (F : (coord -> R) -> R) : m <> MReal ->
    lsum rR (map F (concat (oks_pytree m ranks))) = lsum rR (map (fun s => F (row1 s) + F (row2 s)) ss).
  Proof.
    intros Hm. assert (E : oks_pytree m ranks = oks_pytree MComplex ranks) by (destruct m; [now contradiction Hm|reflexivity..]). rewrite E.
    unfold oks_pytree, divide_sqrt, subtract_mean. rewrite !map_map, combine_map2, !map_length, n_local_is.
    rewrite map_map. cbn [fst snd].
    rewrite <- (lsum_concat rR rR_laws). rewrite map_map. unfold ss. rewrite <- (lsum_concat rR rR_laws).
    apply (lsum_ext rR). intros rk _. rewrite !map_app, !map_map, (lsum_app rR rR_laws).
    rewrite (lsum_add rR rR_laws). reflexivity.
  Qed.
  Lemma oks_dense_complex_sum m (F : (coord -> R) -> R) : m <> MReal ->
    lsum rR (map F (concat (oks_dense m ranks))) = lsum rR (map (fun s => F (row1 s) + F (row2 s)) ss).
  Proof.
    intros Hm. assert (E : oks_dense m ranks = oks_dense MComplex ranks) by (destruct m; [now contradiction Hm|reflexivity..]). rewrite E.
    unfold oks_dense, divide_sqrt, subtract_mean. rewrite !map_map, combine_map2, !map_length, n_local_is.
    rewrite map_map.
    rewrite <- (lsum_concat rR rR_laws). rewrite map_map. unfold ss. rewrite <- (lsum_concat rR rR_laws).
    apply (lsum_ext rR). intros rk _. unfold interleave. cbn [fst snd]. rewrite !map_map, combine_map2.
    rewrite map_map. cbn [fst snd]. clear. induction rk as [|s rk IH]; [reflexivity|].
    cbn [map concat app lsum]. rewrite IH. symmetry. apply Rplus_assoc.
  Qed.
End Ranks.

Lemma ravg_is ss f : ravg ss f = / INR (length ss) * lsum rR (map f ss).
Proof. unfold ravg, avg, rscal. cbn [fst]. rewrite fst_lsum'. reflexivity. Qed.
Lemma fst_delta_v ls ss v s : fst (delta_v ls ss v s)
  = fsum rR (n_pars ls) (fun k => fst (v k) * fst (delta ss (k, false) s) + (if flag ls k then snd (v k) * fst (delta ss (k, true) s) else 0)).
Proof.
  unfold delta_v. rewrite fst_fsum. apply (fsum_ext rR). intros k _. destruct (flag ls k); reflexivity.
Qed.
Lemma snd_delta_v ls ss v s : snd (delta_v ls ss v s)
  = fsum rR (n_pars ls) (fun k => fst (v k) * snd (delta ss (k, false) s) + (if flag ls k then snd (v k) * snd (delta ss (k, true) s) else 0)).
Proof.
  unfold delta_v. rewrite snd_fsum. apply (fsum_ext rR). intros k _. destruct (flag ls k); reflexivity.
Qed.
Definition xval (v : nat -> cpx) (c : coord) : R := part (snd c) (v (fst c)).
Definition col_sum (ls : leaves) (cols : list coord) : Prop :=
  forall f : coord -> R, lsum rR (map f cols) = fsum rR (n_pars ls) (both rR f 0 ls).

Section RanksMain.
  Variable ranks : list (list sample).
  Variable n : nat.
  Hypothesis Hn : (0 < n)%nat.
  Hypothesis Hne : ranks <> [].
  Hypothesis HF : Forall (fun r => length r = n) ranks.
  Let ss := concat ranks.
  Let N := (n * length ranks)%nat.
  Variable ls : leaves.
  Variable cols : list coord.
  Hypothesis HC : col_sum ls cols.
  Variable v : nat -> cpx.

  Lemma row1_dot s : lsum rR (map (fun d => row1 ranks n s d * xval v d) cols) = sr N * fst (delta_v ls ss v s).
  Proof.
    rewrite HC, fst_delta_v. etransitivity; [|exact (fsum_scal rR rR_laws (n_pars ls) (sr N) _)].
    apply (fsum_ext rR). intros k _. unfold both. rewrite !(row1_is ranks n HF). unfold xval. cbn [fst snd part].
    fold ss. fold N. cbn [Nat.add]. destruct (flag ls k); rring.
  Qed.
  Lemma row2_dot s : lsum rR (map (fun d => row2 ranks n s d * xval v d) cols) = sr N * snd (delta_v ls ss v s).
  Proof.
    rewrite HC, snd_delta_v. etransitivity; [|exact (fsum_scal rR rR_laws (n_pars ls) (sr N) _)].
    apply (fsum_ext rR). intros k _. unfold both. rewrite !(row2_is ranks n HF). unfold xval. cbn [fst snd part].
    fold ss. fold N. cbn [Nat.add]. destruct (flag ls k); rring.
  Qed.
  Definition geo (c : coord) : R := ravg ss (fun s => fst (rmul cC (rconj cC (delta ss c s)) (delta_v ls ss v s))).
  Definition krow (c : coord) (r : coord -> R) : R := r c * lsum rR (map (fun d => r d * xval v d) cols).
  Lemma complex_sum c :
    lsum rR (map (fun s => krow c (row1 ranks n s) + krow c (row2 ranks n s)) ss) = geo c.
  Proof.
    unfold geo. rewrite ravg_is. unfold ss at 2. rewrite (length_ss ranks n HF). fold N ss.
    etransitivity; [|exact (lsum_scal rR rR_laws (/ INR N) _ ss)].
    apply (lsum_ext rR). intros s _. unfold krow. rewrite row1_dot, row2_dot, (row1_is ranks n HF), (row2_is ranks n HF).
    change (/ INR N) with (qr N). rewrite <- (sr_sq N). fold ss. fold N. cbn [cC rmul rconj fst snd]. rring.
  Qed.
  Lemma real_sum c : real_valued ss ->
    lsum rR (map (fun s => krow c (row1 ranks n s)) ss) = geo c.
  Proof.
    intros HR. rewrite <- complex_sum. apply (lsum_ext rR). intros s Hs.
    assert (D : forall c, snd (delta ss c s) = 0).
    { intros d. unfold delta, avg. cbn [cC rsub snd rscal]. unfold rscal. cbn [snd]. rewrite (HR s Hs), snd_lsum'.
      rewrite (lsum_zero rR rR_laws) by (intros t Ht; apply (HR t Ht)). cbn [rR r0]. ring. }
    unfold krow. rewrite row2_dot, (row2_is ranks n HF). fold ss. rewrite D. rring.
  Qed.
  Lemma kernel_is (rows : list (coord -> R)) shift c :
    kernel rR coord cols rows shift (xval v) c = lsum rR (map (krow c) rows) + shift * xval v c.
  Proof. reflexivity. Qed.
End RanksMain.

Lemma pytree_cols ls : col_sum ls (concat (real_leaves 0 ls)).
Proof. intros f. apply (real_leaves_sum rR rR_laws). Qed.
Lemma dense_cols ls : col_sum ls (reim_columns ls).
Proof. intros f. apply (reim_sum rR rR_laws). Qed.


Lemma pytree_main m ls ranks shift v k : even_ranks ranks -> ok_mode m (concat ranks) -> (k < n_pars ls)%nat ->
  matmul_pytree m ls ranks shift v k = geometric ls (concat ranks) shift v k.
Proof.
  intros [n [Hn [Hne HF]]] Hm Hk.
  assert (G : forall c, mat_vec_pytree rR coord (real_leaves 0 ls) (oks_pytree m ranks) shift (xval v) c
     = geo ranks ls v c + shift * xval v c).
  { intros c. rewrite (mat_vec_pytree_is rR rR_laws). rewrite kernel_is. f_equal. destruct m.
    - rewrite (oks_real_sum ranks n Hne HF). apply (real_sum ranks n HF ls _ (pytree_cols ls) v c Hm).
    - rewrite (oks_complex_sum ranks n Hne HF MComplex) by discriminate. apply (complex_sum ranks n HF ls _ (pytree_cols ls)).
    - destruct Hm. }
  destruct m; [| |destruct Hm]; unfold matmul_pytree, reassemble, geometric; fold (xval v); rewrite !G; unfold xval; cbn [fst snd part];
    destruct (flag ls k); reflexivity.
Qed.

Lemma dense_main m ls ranks shift v : even_ranks ranks -> ok_mode m (concat ranks) -> homogeneous ls ->
  exists y, matmul_dense m ls ranks shift v = Ok y /\
    forall k, (k < n_pars ls)%nat -> y k = geometric ls (concat ranks) shift v k.
Proof.
  intros [n [Hn [Hne HF]]] Hm Hh.
  assert (Hm' : m <> MHolo) by (intros ->; destruct Hm).
  unfold matmul_dense. replace (match m with MHolo => _ | _ => _ end) with
    (let jc := reim_columns ls in
      let vc := vec_columns ls in
      if (length jc =? length vc)%nat then
        let at_ (cols : list coord) (i : nat) := nth i cols (O, false) in
        let rows := map (map (fun (r : row rR coord) i => r (at_ jc i))) (oks_dense m ranks) in
        let x := fun i => let c := at_ vc i in part (snd c) (v (fst c)) in
        let y := mat_vec_dense rR nat (seq 0 (length jc)) rows shift x in
        Ok (reassemble ls (positions vc y 0))
      else Err TypeError) by (destruct m; [reflexivity|reflexivity|congruence]).
  cbv zeta. rewrite <- (columns_agree ls Hh). rewrite Nat.eqb_refl.
  set (jc := reim_columns ls).
  match goal with |- context [positions jc ?Y 0] => set (y := Y) end.
  assert (G : forall i, y i = (fun c => geo ranks ls v c + shift * xval v c) (nth i jc (O, false))).
  { intros i. unfold y. rewrite (mat_vec_dense_is rR rR_laws). unfold kernel. apply (f_equal2 Rplus); [|reflexivity].
    rewrite concat_map', map_map.
    rewrite (map_ext _ (krow jc v (nth i jc (O, false)))).
    - destruct m; [| |congruence].
      + rewrite oks_dense_real, (oks_real_sum ranks n Hne HF). apply (real_sum ranks n HF ls _ (dense_cols ls) v _ Hm).
      + rewrite (oks_dense_complex_sum ranks n Hne HF MComplex) by discriminate. apply (complex_sum ranks n HF ls _ (dense_cols ls)).
    - intros r. unfold krow. cbn [rR rconj rmul]. f_equal.
      rewrite <- (map_nth_seq (fun d => r d * xval v d) jc (O, false)). reflexivity. }
  exists (reassemble ls (positions jc y 0)). split; [reflexivity|]. intros k Hk.
  assert (P : forall p, (p = true -> flag ls k = true) -> positions jc y 0 (k, p) = geo ranks ls v (k, p) + shift * xval v (k, p)).
  { intros p Hp. rewrite <- (positions_at jc (fun c => geo ranks ls v c + shift * xval v c) 0 (k, p)) by (apply in_reim; assumption).
    unfold positions. clear - G. 
    assert (Q : forall l i, (fix go i cols := match cols with [] => 0 | e :: cols =>
        if ((fst (k, p) =? fst e)%nat && Bool.eqb (snd (k, p)) (snd e))%bool then y i else go (S i) cols end) i l
      = (fix go i cols := match cols with [] => 0 | e :: cols =>
        if ((fst (k, p) =? fst e)%nat && Bool.eqb (snd (k, p)) (snd e))%bool
        then geo ranks ls v (nth i jc (O, false)) + shift * xval v (nth i jc (O, false)) else go (S i) cols end) i l).
    { induction l as [|e l IH]; intros i; [reflexivity|]. rewrite IH, G. reflexivity. }
    apply Q. }
  unfold reassemble, geometric. destruct (flag ls k) eqn:E; rewrite ?P by (intros; congruence); reflexivity.
Qed.

(** ** on the fly *)
Add Ring cCring2 : (cr_ring cC cC_laws).
Lemma avg_is ss f : avg ss f = rmul cC (qc (length ss)) (lsum cC (map f ss)).
Proof. unfold avg. rewrite rscal_emb. reflexivity. Qed.
Lemma lsum_rscal {A} r (f : A -> cpx) l : lsum cC (map (fun a => rscal r (f a)) l) = rscal r (lsum cC (map f l)).
Proof.
  rewrite rscal_emb, <- (lsum_scal cC cC_laws). apply (lsum_ext cC). intros. apply rscal_emb.
Qed.
Lemma sum_delta ss c : ss <> [] -> lsum cC (map (delta ss c) ss) = r0 cC.
Proof.
  intros H. unfold delta. rewrite (lsum_sub cC cC_laws).
  assert (K : forall (z : cpx) l, lsum cC (map (fun _ : sample => z) l) = rscal (INR (length l)) z).
  { intros z l. induction l as [|a l IH]; [unfold rscal; cbn [map lsum length INR]; cpx; ring|].
    cbn [map lsum]. rewrite IH. cbn [length]. rewrite S_INR. unfold rscal. cpx; ring. }
  rewrite K. unfold avg. set (t := lsum cC (map (fun s => entry s c) ss)).
  assert (P : INR (length ss) <> 0) by (destruct ss; [congruence|]; cbn [length]; pose proof (lt_0_INR (S (length ss)) ltac:(lia)); lra).
  unfold rscal. cpx; field; exact P.
Qed.
Lemma cast_flag ls v k : cast ls v k = (fst (v k), if flag ls k then snd (v k) else 0).
Proof. unfold cast. destruct (flag ls k); [|reflexivity]. now destruct (v k). Qed.

Section OTF.
  Variable ranks : list (list sample).
  Variable n : nat.
  Hypothesis Hn : (0 < n)%nat.
  Hypothesis Hne : ranks <> [].
  Hypothesis HF : Forall (fun r => length r = n) ranks.
  Let ss := concat ranks.
  Let N := (n * length ranks)%nat.
  Variable ls : leaves.
  Variable v : nat -> cpx.

  Definition direction (s : sample) : cpx := o_jvp ls s (cast ls v).
  Lemma direction_is s : direction s = fsum cC (n_pars ls) (fun k =>
    radd cC (rscal (fst (v k)) (entry s (k, false))) (if flag ls k then rscal (snd (v k)) (entry s (k, true)) else (0, 0))).
  Proof.
    unfold direction, o_jvp. rewrite (fsum_lsum cC cC_laws). apply (lsum_ext cC). intros k _. unfold entry. cbn [fst snd].
    rewrite cast_flag. destruct (flag ls k); reflexivity.
  Qed.
  Lemma avg_direction : avg ss direction = fsum cC (n_pars ls) (fun k =>
    radd cC (rscal (fst (v k)) (avg ss (fun s => entry s (k, false))))
      (if flag ls k then rscal (snd (v k)) (avg ss (fun s => entry s (k, true))) else (0, 0))).
  Proof.
    rewrite avg_is. rewrite (lsum_ext cC _ _ ss (fun s _ => direction_is s)). rewrite (lsum_fsum_swap cC cC_laws).
    rewrite <- (fsum_scal cC cC_laws). apply (fsum_ext cC). intros k _. rewrite (lsum_add cC cC_laws), !avg_is.
    rewrite lsum_rscal, !rscal_emb. destruct (flag ls k).
    - rewrite lsum_rscal, rscal_emb. ring.
    - rewrite (lsum_zero cC cC_laws (fun _ => (0, 0))) by reflexivity. change (0, 0) with (r0 cC). ring.
  Qed.
  Lemma delta_direction s : delta_v ls ss v s = rsub cC (direction s) (avg ss direction).
  Proof.
    rewrite avg_direction, direction_is. unfold delta_v. rewrite <- (fsum_sub cC cC_laws). apply (fsum_ext cC). intros k _.
    unfold delta. rewrite !rscal_emb. destruct (flag ls k); [ring|]. change (0, 0) with (r0 cC). ring.
  Qed.
  Lemma sum_delta_v : lsum cC (map (delta_v ls ss v) ss) = r0 cC.
  Proof.
    unfold delta_v. rewrite (lsum_fsum_swap cC cC_laws). apply (fsum_zero cC cC_laws). intros k _.
    assert (S : ss <> []).
    { unfold ss. intros E. pose proof (length_ss ranks n HF) as Q. rewrite E in Q.
      pose proof (N_pos ranks n Hn Hne HF) as P. cbv zeta in P, Q. rewrite <- Q in P. inversion P. }
    rewrite (lsum_add cC cC_laws), lsum_rscal, rscal_emb, (sum_delta ss _ S). destruct (flag ls k).
    - rewrite lsum_rscal, rscal_emb, (sum_delta ss _ S). ring.
    - rewrite (lsum_zero cC cC_laws (fun _ => (0, 0))) by reflexivity. ring.
  Qed.

  (** the centred directional derivatives *)
  Lemma w_is : map (map (fun f => f tt)) (subtract_mean cC qc unit (map (map (fun z (_ : unit) => z))
      (map (map (rscal (1 / INR (n_local ranks * length ranks)))) (map (map direction) ranks))))
    = map (map (fun s => rscal (/ INR N) (delta_v ls ss v s))) ranks.
  Proof.
    rewrite (n_local_is ranks n Hne HF). fold N. unfold subtract_mean.
    set (R0 := map (map (fun z (_ : unit) => z)) _).
    assert (ER : R0 = map (map (fun s (_ : unit) => rscal (1 / INR N) (direction s))) ranks).
    { unfold R0. rewrite !map_map. apply map_ext. intros rk. rewrite !map_map. reflexivity. }
    assert (EM : mean cC qc unit R0 tt = rscal (/ INR N) (avg ss direction)).
    { rewrite ER. rewrite (mean_is cC cC_laws unit qc qc_mul n) by apply (lengths_map ranks n HF).
      rewrite map_length, concat_map', map_map. fold ss. rewrite avg_is. unfold ss at 2. rewrite (length_ss ranks n HF). fold N. fold ss.
      rewrite (lsum_ext cC _ (fun s => rmul cC (emb (/ INR N)) (direction s))).
      - rewrite (lsum_scal cC cC_laws), rscal_emb. ring.
      - intros s _. rewrite rscal_emb. do 2 f_equal. unfold Rdiv. ring. }
    clearbody R0. subst R0. set (M := mean cC qc unit _) in *. clearbody M.
    rewrite !map_map. apply map_ext. intros rk. rewrite !map_map. apply map_ext. intros s.
    rewrite EM, delta_direction, !rscal_emb. unfold Rdiv. rewrite Rmult_1_l. ring.
  Qed.

  Lemma re_sum c : lsum rR (map (fun s => fst (rmul cC (rconj cC (rscal (/ INR N) (delta_v ls ss v s))) (entry s c))) ss)
    = geo ranks ls v c.
  Proof.
    unfold geo. fold ss. rewrite ravg_is. unfold ss at 3. rewrite (length_ss ranks n HF). fold N. fold ss.
    rewrite <- fst_lsum'.
    rewrite (lsum_ext cC _ (fun s => radd cC (rmul cC (emb (/ INR N)) (rmul cC (rconj cC (delta_v ls ss v s)) (delta ss c s)))
      (rmul cC (rmul cC (emb (/ INR N)) (avg ss (fun s => entry s c))) (rconj cC (delta_v ls ss v s))))).
    2:{ intros s _. unfold delta. rewrite rscal_emb, (cr_conj_mul cC cC_laws).
        replace (rconj cC (emb (/ INR N))) with (emb (/ INR N)) by (unfold emb; cpx; ring). ring. }
    rewrite (lsum_add cC cC_laws), !(lsum_scal cC cC_laws), <- (conj_lsum cC cC_laws), sum_delta_v.
    replace (rconj cC (r0 cC)) with (r0 cC) by (cpx; ring).
    replace (radd cC (rmul cC (emb (/ INR N)) (lsum cC (map (fun s => rmul cC (rconj cC (delta_v ls ss v s)) (delta ss c s)) ss)))
      (rmul cC (rmul cC (emb (/ INR N)) (avg ss (fun s => entry s c))) (r0 cC)))
      with (rscal (/ INR N) (lsum cC (map (fun s => rmul cC (rconj cC (delta_v ls ss v s)) (delta ss c s)) ss)))
      by (rewrite rscal_emb; ring).
    unfold rscal. cbn [fst]. rewrite fst_lsum'. f_equal. apply (lsum_ext rR). intros s _. cbn [cC rmul rconj fst snd]. rring.
  Qed.

  Lemma onthefly_is shift k : (k < n_pars ls)%nat ->
    matmul_onthefly ls ranks shift v k = geometric ls ss shift v k.
  Proof.
    intros Hk. unfold matmul_onthefly. cbv zeta.
    change (map (map (fun s => o_jvp ls s (cast ls v))) ranks) with (map (map direction) ranks).
    rewrite w_is. unfold o_vjp. rewrite map_map. cbn [fst snd].
    rewrite combine_map_l, map_map. cbn [fst snd].
    rewrite (lsum_ext cC _ (fun rk => lsum cC (map (fun s => (rconj cC
       (fst (rmul cC (rconj cC (rscal (/ INR N) (delta_v ls ss v s))) (entry s (k, false))),
        if flag ls k then fst (rmul cC (rconj cC (rscal (/ INR N) (delta_v ls ss v s))) (entry s (k, true))) else 0))) rk))).
    2:{ intros rk _. rewrite map_map, combine_map_l, map_map. cbn [fst snd]. apply (lsum_ext cC). intros s _.
        unfold entry. cbn [fst snd]. destruct (flag ls k); [unfold jax_vjp|]; cpx; ring. }
    rewrite (lsum_concat cC cC_laws). fold ss. rewrite <- (conj_lsum cC cC_laws), (cr_conj_conj cC cC_laws), lsum_pair.
    rewrite re_sum. unfold geometric. destruct (flag ls k) eqn:E.
    - rewrite re_sum. rewrite cast_flag, E. unfold rscal, geo. cpx; fold ss; ring.
    - rewrite (lsum_zero rR rR_laws) by reflexivity. rewrite cast_flag, E. unfold rscal, geo. cpx; fold ss; cbn [rR r0]; ring.
  Qed.
End OTF.

Lemma onthefly_main ls ranks shift v k : even_ranks ranks -> (k < n_pars ls)%nat ->
  matmul_onthefly ls ranks shift v k = geometric ls (concat ranks) shift v k.
Proof. intros [n [Hn [Hne HF]]] Hk. exact (onthefly_is ranks n Hn Hne HF ls v shift k Hk). Qed.

(** ** mixed real and complex parameters *)
Lemma filter_lt {A} (t : A -> bool) l a : In a l -> t a = false -> (length (filter t l) < length l)%nat.
Proof.
  induction l as [|b l IH]; intros H E; [destruct H|]. cbn [filter length].
  assert (W : (length (filter t l) <= length l)%nat).
  { clear. induction l as [|c l IH]; [reflexivity|]. cbn [filter]. destruct (t c); cbn [length]; lia. }
  destruct H as [->|H]; [rewrite E; lia|]. specialize (IH H E). destruct (t b); cbn [length]; lia.
Qed.
Lemma dense_mixed m ls ranks shift v : m <> MHolo ->
  (exists l, In l ls /\ fst l = true) -> (exists k, (k < n_pars ls)%nat /\ flag ls k = false) ->
  matmul_dense m ls ranks shift v = Err TypeError.
Proof.
  intros Hm [l [Hl Ht]] [k [Hk Hf]].
  assert (E : (length (reim_columns ls) =? length (vec_columns ls))%nat = false).
  { apply Nat.eqb_neq. unfold reim_columns, vec_columns. rewrite !app_length.
    replace (existsb (fun l : bool * nat => fst l) ls) with true by (symmetry; apply existsb_exists; eauto).
    rewrite !map_length, seq_length.
    pose proof (filter_lt (flag ls) (seq 0 (n_pars ls)) k) as F. rewrite seq_length in F.
    assert (In k (seq 0 (n_pars ls))) by (apply in_seq; lia). specialize (F H Hf). lia. }
  destruct m; [| |congruence]; unfold matmul_dense; cbv zeta; rewrite E; reflexivity.
Qed.

(** ** holomorphic mode *)
Lemma holo_leaves_concat ls : concat (holo_leaves ls) = seq 0 (n_pars ls).
Proof.
  unfold holo_leaves. generalize O at 1 2. induction ls as [|[b n] ls IH]; intros off; [reflexivity|].
  cbn [n_pars snd concat]. rewrite IH, seq_app. reflexivity.
Qed.
Lemma delta_holo ls ss s k : holomorphic ls ss -> In s ss -> delta ss (k, true) s = rmul cC (0, 1) (delta ss (k, false) s).
Proof.
  intros [_ H] Hs. unfold delta, entry. cbn [fst snd]. rewrite (H s Hs k).
  rewrite !avg_is. rewrite (lsum_ext cC (fun s => jy s k) (fun s => rmul cC (0, 1) (jx s k))) by (intros t Ht; apply (H t Ht)).
  rewrite (lsum_scal cC cC_laws). ring.
Qed.
Lemma delta_v_holo ls ss v s : holomorphic ls ss -> In s ss ->
  delta_v ls ss v s = fsum cC (n_pars ls) (fun l => rmul cC (delta ss (l, false) s) (v l)).
Proof.
  intros H Hs. unfold delta_v. apply (fsum_ext cC). intros k Hk. rewrite (proj1 H k Hk), (delta_holo ls ss s k H Hs).
  unfold rscal. cpx; ring.
Qed.
Lemma geometric_holo_is ls ss shift v k : holomorphic ls ss -> (k < n_pars ls)%nat ->
  geometric ls ss shift v k = geometric_holo (n_pars ls) ss shift v k.
Proof.
  intros H Hk. unfold geometric, geometric_holo. rewrite (proj1 H k Hk), !ravg_is.
  assert (E : fsum cC (n_pars ls) (fun l => rmul cC (avg ss (fun s => rmul cC (rconj cC (delta ss (k, false) s)) (delta ss (l, false) s))) (v l))
    = rscal (/ INR (length ss)) (lsum cC (map (fun s => rmul cC (rconj cC (delta ss (k, false) s)) (delta_v ls ss v s)) ss))).
  { rewrite (lsum_ext cC _ (fun s => fsum cC (n_pars ls) (fun l => rmul cC (rmul cC (rconj cC (delta ss (k, false) s)) (delta ss (l, false) s)) (v l)))).
    - rewrite (lsum_fsum_swap cC cC_laws), rscal_emb, <- (fsum_scal cC cC_laws). apply (fsum_ext cC). intros l _.
      rewrite avg_is, (lsum_scal_r' cC cC_laws). unfold qc, emb. ring.
    - intros s Hs. rewrite (delta_v_holo ls ss v s H Hs), <- (fsum_scal cC cC_laws). apply (fsum_ext cC). intros l _. ring. }
  rewrite E. unfold rscal. cpx.
  - f_equal. f_equal. rewrite fst_lsum'. reflexivity.
  - f_equal. f_equal. rewrite snd_lsum'. apply (lsum_ext rR). intros s Hs. rewrite (delta_holo ls ss s k H Hs).
    cbn [cC rmul rconj fst snd]. rring.
Qed.
Section Holo.
  Variable ranks : list (list sample).
  Variable n : nat.
  Hypothesis Hn : (0 < n)%nat.
  Hypothesis Hne : ranks <> [].
  Hypothesis HF : Forall (fun r => length r = n) ranks.
  Let ss := concat ranks.
  Let N := (n * length ranks)%nat.
  Variable ls : leaves.
  Hypothesis HH : holomorphic ls ss.

  Lemma grad_holo_is s k : In s ss -> (k < n_pars ls)%nat -> grad_holo ls s k = entry s (k, false).
  Proof.
    intros Hs Hk. unfold grad_holo, entry. cbn [fst snd]. rewrite (proj1 HH k Hk), (proj2 HH s Hs k).
    unfold jax_vjp. cpx; ring.
  Qed.
  Definition row3 (s : sample) (k : nat) : cpx :=
    rmul cC (rsub cC (grad_holo ls s k) (mean cC qc nat (map (map (grad_holo ls)) ranks) k)) (sc N).
  Lemma row3_is s k : In s ss -> (k < n_pars ls)%nat -> row3 s k = rmul cC (delta ss (k, false) s) (sc N).
  Proof.
    intros Hs Hk. unfold row3. f_equal. rewrite (mean_is cC cC_laws nat qc qc_mul n) by apply (lengths_map ranks n HF).
    rewrite map_length, concat_map', map_map. fold ss. rewrite grad_holo_is by assumption. unfold delta. f_equal.
    rewrite avg_is. unfold ss at 2. rewrite (length_ss ranks n HF). fold ss. fold N. f_equal. apply (lsum_ext cC).
    intros t Ht. now apply grad_holo_is.
  Qed.
  Lemma oks_holo_sum (F : (nat -> cpx) -> cpx) :
    lsum cC (map F (concat (oks_holo ls ranks))) = lsum cC (map (fun s => F (row3 s)) ss).
  Proof.
    unfold oks_holo, divide_sqrt, subtract_mean. rewrite !map_length, (n_local_is ranks n Hne HF), concat_map', map_map.
    rewrite concat_map', map_map, concat_map', map_map. reflexivity.
  Qed.
  Lemma holo_kernel shift v k : (k < n_pars ls)%nat ->
    kernel cC nat (seq 0 (n_pars ls)) (concat (oks_holo ls ranks)) (shift, 0) v k
    = geometric_holo (n_pars ls) ss shift v k.
  Proof.
    intros Hk. unfold kernel, geometric_holo. rewrite (oks_holo_sum (fun r => rmul cC (rconj cC (r k)) (lsum cC (map (fun d => rmul cC (r d) (v d)) (seq 0 (n_pars ls)))))).
    f_equal; [|rewrite rscal_emb; reflexivity].
    rewrite (lsum_ext cC _ (fun s => fsum cC (n_pars ls) (fun l => rmul cC (rmul cC (qc N) (rmul cC (rconj cC (delta ss (k, false) s)) (delta ss (l, false) s))) (v l)))).
    - rewrite (lsum_fsum_swap cC cC_laws). apply (fsum_ext cC). intros l _. rewrite avg_is. unfold ss at 4.
      rewrite (length_ss ranks n HF). fold ss. fold N. rewrite <- (lsum_scal cC cC_laws), (lsum_scal_r' cC cC_laws). reflexivity.
    - intros s Hs. rewrite (row3_is s k Hs Hk). rewrite <- (fsum_lsum cC cC_laws), <- (fsum_scal cC cC_laws). apply (fsum_ext cC). intros l Hl.
      rewrite (row3_is s l Hs Hl), (cr_conj_mul cC cC_laws), <- (sc_sq N). ring.
  Qed.
End Holo.

Lemma holo_main ls ranks shift v : even_ranks ranks -> holomorphic ls (concat ranks) ->
  exists y, matmul_dense MHolo ls ranks shift v = Ok y /\
    forall k, (k < n_pars ls)%nat ->
      y k = geometric_holo (n_pars ls) (concat ranks) shift v k /\
      matmul_pytree MHolo ls ranks shift v k = geometric_holo (n_pars ls) (concat ranks) shift v k /\
      matmul_onthefly ls ranks shift v k = geometric_holo (n_pars ls) (concat ranks) shift v k.
Proof.
  intros HE HH. pose proof HE as [n [Hn [Hne HF]]]. eexists. split; [reflexivity|]. intros k Hk.
  assert (Fl : flag ls k = true) by (apply HH; exact Hk).
  assert (K := holo_kernel ranks n Hne HF ls HH shift v k Hk). split; [|split].
  - unfold cast. rewrite Fl. rewrite (mat_vec_dense_is cC cC_laws). exact K.
  - unfold matmul_pytree, cast. rewrite Fl. rewrite (mat_vec_pytree_is cC cC_laws), holo_leaves_concat. exact K.
  - rewrite onthefly_main by assumption. now apply geometric_holo_is.
Qed.

(** ** symmetric and positive *)
Lemma inner_is ls u v : inner ls u v
  = fsum rR (n_pars ls) (fun k => fst (u k) * fst (v k) + (if flag ls k then snd (u k) * snd (v k) else 0)).
Proof. unfold inner. rewrite fst_fsum. reflexivity. Qed.
Lemma inner_geometric ls ss shift u v : inner ls u (geometric ls ss shift v)
  = ravg ss (fun s => fst (rmul cC (rconj cC (delta_v ls ss u s)) (delta_v ls ss v s))) + shift * inner ls u v.
Proof.
  rewrite ravg_is, !inner_is.
  transitivity (fsum rR (n_pars ls) (fun k =>
     / INR (length ss) * lsum rR (map (fun s => fst (u k) * fst (rmul cC (rconj cC (delta ss (k, false) s)) (delta_v ls ss v s))
        + (if flag ls k then snd (u k) * fst (rmul cC (rconj cC (delta ss (k, true) s)) (delta_v ls ss v s)) else 0)) ss)
     + shift * (fst (u k) * fst (v k) + (if flag ls k then snd (u k) * snd (v k) else 0)))).
  - apply (fsum_ext rR). intros k _. unfold geometric. cbn [fst snd]. rewrite !ravg_is.
    rewrite (lsum_add rR rR_laws). rewrite (lsum_scal rR rR_laws). destruct (flag ls k).
    + rewrite (lsum_scal rR rR_laws).
      match goal with |- fst (u k) * (_ * ?A + _) + snd (u k) * (_ * ?B + _) = _ =>
        change (fst (u k) * (/ INR (length ss) * A + shift * fst (v k)) + snd (u k) * (/ INR (length ss) * B + shift * snd (v k))
          = / INR (length ss) * (fst (u k) * A + snd (u k) * B) + shift * (fst (u k) * fst (v k) + snd (u k) * snd (v k))) end.
      ring.
    + rewrite (lsum_zero rR rR_laws (fun _ => 0)) by reflexivity.
      match goal with |- fst (u k) * (_ * ?A + _) + _ = _ =>
        change (fst (u k) * (/ INR (length ss) * A + shift * fst (v k)) + 0
          = / INR (length ss) * (fst (u k) * A + 0) + shift * (fst (u k) * fst (v k) + 0)) end.
      ring.
  - rewrite (fsum_add rR rR_laws). rewrite !(fsum_scal rR rR_laws). rewrite <- (lsum_fsum_swap rR rR_laws).
    apply (f_equal2 Rplus); [|reflexivity]. apply (f_equal2 Rmult); [reflexivity|]. apply (lsum_ext rR). intros s _.
    cbn [cC rmul rconj fst snd]. rewrite (fst_delta_v ls ss u), (snd_delta_v ls ss u).
    set (X := fst (delta_v ls ss v s)). set (Y := snd (delta_v ls ss v s)).
    match goal with |- _ = ?A * _ - - ?B * _ => set (a := A); set (b := B) end.
    replace (a * X - - b * Y) with (a * X + b * Y) by ring. unfold a, b.
    symmetry. etransitivity; [exact (f_equal2 Rplus (eq_sym (fsum_scal_r rR rR_laws _ X _)) (eq_sym (fsum_scal_r rR rR_laws _ Y _)))|].
    etransitivity; [exact (eq_sym (fsum_add rR rR_laws _ _ _))|]. apply (fsum_ext rR). intros k _.
    destruct (flag ls k); rring.
Qed.

Lemma inner_comm ls u v : inner ls u v = inner ls v u.
Proof. rewrite !inner_is. apply (fsum_ext rR). intros k _. destruct (flag ls k); rring. Qed.
Lemma symmetric_main ls ss shift u v : inner ls u (geometric ls ss shift v) = inner ls v (geometric ls ss shift u).
Proof.
  rewrite !inner_geometric, (inner_comm ls u v). f_equal. rewrite !ravg_is. f_equal. apply (lsum_ext rR). intros s _.
  cbn [cC rmul rconj fst snd]. rring.
Qed.
Lemma lsum_nonneg {A} (f : A -> R) l : (forall a, In a l -> 0 <= f a) -> 0 <= lsum rR (map f l).
Proof.
  intros H. induction l as [|a l IH]; [cbn; lra|]. cbn [map lsum]. change (radd rR ?a ?b) with (a + b).
  pose proof (H a (or_introl eq_refl)). assert (0 <= lsum rR (map f l)) by (apply IH; intros; apply H; now right). lra.
Qed.
Lemma ravg_nonneg ss f : (forall s, 0 <= f s) -> 0 <= ravg ss f.
Proof.
  intros H. rewrite ravg_is. pose proof (lsum_nonneg f ss (fun s _ => H s)) as P.
  destruct ss as [|s ss]; [cbn [length INR map lsum]; cbn [rR r0]; lra|].
  pose proof (lt_0_INR (length (s :: ss)) ltac:(cbn [length]; lia)) as Q. apply Rinv_0_lt_compat in Q.
  apply Rmult_le_pos; lra.
Qed.
Lemma positive_main ls ss shift v : shift * inner ls v v <= inner ls v (geometric ls ss shift v).
Proof.
  rewrite inner_geometric.
  assert (0 <= ravg ss (fun s => fst (rmul cC (rconj cC (delta_v ls ss v s)) (delta_v ls ss v s)))).
  { apply ravg_nonneg. intros s. cbn [cC rmul rconj fst snd]. nra. }
  lra.
Qed.
Lemma fsum_nonneg n (f : nat -> R) : (forall k, (k < n)%nat -> 0 <= f k) -> 0 <= fsum rR n f.
Proof.
  intros H. induction n; [cbn; lra|]. cbn [fsum]. change (radd rR ?a ?b) with (a + b).
  pose proof (H n ltac:(lia)). assert (0 <= fsum rR n f) by (apply IHn; intros; apply H; lia). lra.
Qed.
Lemma fsum_pos n (f : nat -> R) k : (forall k, (k < n)%nat -> 0 <= f k) -> (k < n)%nat -> 0 < f k -> 0 < fsum rR n f.
Proof.
  intros H Hk P. induction n; [lia|]. cbn [fsum]. change (radd rR ?a ?b) with (a + b).
  pose proof (H n ltac:(lia)). assert (0 <= fsum rR n f) by (apply fsum_nonneg; intros; apply H; lia).
  destruct (Nat.eq_dec k n) as [->|D]; [lra|]. assert (0 < fsum rR n f) by (apply IHn; [intros; apply H; lia|lia]). lra.
Qed.
Lemma inner_pos ls v k : (k < n_pars ls)%nat -> (fst (v k) <> 0 \/ (flag ls k = true /\ snd (v k) <> 0)) -> 0 < inner ls v v.
Proof.
  intros Hk H. rewrite inner_is. apply (fsum_pos _ _ k).
  - intros i _. destruct (flag ls i); nra.
  - exact Hk.
  - destruct H as [H|[E H]]; [destruct (flag ls k); [|nra]|rewrite E]; nra.
Qed.
Lemma definite_main ls ss shift v k : 0 < shift -> (k < n_pars ls)%nat ->
  (fst (v k) <> 0 \/ (flag ls k = true /\ snd (v k) <> 0)) -> 0 < inner ls v (geometric ls ss shift v).
Proof.
  intros Hs Hk H. pose proof (positive_main ls ss shift v). pose proof (inner_pos ls v k Hk H). nra.
Qed.

(** Hermitian in the complex sense *)
Definition dv (P : nat) (ss : list sample) (v : nat -> cpx) (s : sample) : cpx :=
  fsum cC P (fun l => rmul cC (delta ss (l, false) s) (v l)).
Lemma hinner_geometric P ss shift u v : hinner P u (geometric_holo P ss shift v)
  = radd cC (avg ss (fun s => rmul cC (rconj cC (dv P ss u s)) (dv P ss v s))) (rscal shift (hinner P u v)).
Proof.
  unfold hinner, geometric_holo.
  transitivity (fsum cC P (fun k => radd cC (rmul cC (rconj cC (u k))
     (fsum cC P (fun l => rmul cC (avg ss (fun s => rmul cC (rconj cC (delta ss (k, false) s)) (delta ss (l, false) s))) (v l))))
     (rmul cC (emb shift) (rmul cC (rconj cC (u k)) (v k))))).
  - apply (fsum_ext cC). intros k _. rewrite rscal_emb. ring.
  - rewrite (fsum_add cC cC_laws), (fsum_scal cC cC_laws), <- rscal_emb. f_equal.
    rewrite avg_is.
    rewrite (lsum_ext cC _ (fun s => fsum cC P (fun k => fsum cC P (fun l =>
      rmul cC (rmul cC (rconj cC (u k)) (rmul cC (rconj cC (delta ss (k, false) s)) (delta ss (l, false) s))) (v l))))).
    + rewrite (lsum_fsum_swap cC cC_laws), <- (fsum_scal cC cC_laws). apply (fsum_ext cC). intros k _.
      rewrite (lsum_fsum_swap cC cC_laws), <- !(fsum_scal cC cC_laws). apply (fsum_ext cC). intros l _.
      rewrite avg_is, (lsum_scal_r' cC cC_laws), (lsum_scal cC cC_laws). ring.
    + intros s _. unfold dv. rewrite (conj_fsum cC cC_laws), <- (fsum_scal_r cC cC_laws). apply (fsum_ext cC). intros k _.
      rewrite (cr_conj_mul cC cC_laws), <- (fsum_scal cC cC_laws). apply (fsum_ext cC). intros l _. ring.
Qed.
Lemma hinner_conj P u v : hinner P u v = rconj cC (hinner P v u).
Proof.
  unfold hinner. rewrite (conj_fsum cC cC_laws). apply (fsum_ext cC). intros k _.
  rewrite (cr_conj_mul cC cC_laws), (cr_conj_conj cC cC_laws). ring.
Qed.
Lemma hermitian_main P ss shift u v :
  hinner P u (geometric_holo P ss shift v) = rconj cC (hinner P v (geometric_holo P ss shift u)).
Proof.
  rewrite !hinner_geometric, (cr_conj_add cC cC_laws), (hinner_conj P u v). rewrite !avg_is.
  assert (E : forall r z, rconj cC (rscal r z) = rscal r (rconj cC z)) by (intros; unfold rscal; cpx; ring).
  rewrite E. f_equal. rewrite (cr_conj_mul cC cC_laws), (conj_lsum cC cC_laws). f_equal.
  - unfold qc. cpx; ring.
  - apply (lsum_ext cC). intros s _. rewrite (cr_conj_mul cC cC_laws), (cr_conj_conj cC cC_laws). ring.
Qed.
Lemma hpositive_main P ss shift v :
  snd (hinner P v (geometric_holo P ss shift v)) = 0 /\
  shift * fst (hinner P v v) <= fst (hinner P v (geometric_holo P ss shift v)).
Proof.
  split.
  - pose proof (f_equal snd (hermitian_main P ss shift v v)) as E. cbn [cC rconj snd] in E.
    set (y := snd (hinner P v (geometric_holo P ss shift v))) in *.
    change (snd (hinner P v (geometric_holo P ss shift v))) with y in E. lra.
  - rewrite hinner_geometric. cbn [cC radd fst]. unfold rscal. cbn [fst].
    assert (H : fst (avg ss (fun s => rmul cC (rconj cC (dv P ss v s)) (dv P ss v s)))
      = ravg ss (fun s => fst (rmul cC (rconj cC (dv P ss v s)) (dv P ss v s)))).
    { unfold ravg, avg, rscal. cbn [fst]. rewrite !fst_lsum'. reflexivity. }
    assert (0 <= ravg ss (fun s => fst (rmul cC (rconj cC (dv P ss v s)) (dv P ss v s)))).
    { apply ravg_nonneg. intros s. cbn [cC rmul rconj fst snd]. nra. }
    change (@fst R R (avg ss (fun s => rmul cC (rconj cC (dv P ss v s)) (dv P ss v s)))) with
       (fst (avg ss (fun s => rmul cC (rconj cC (dv P ss v s)) (dv P ss v s)))). rewrite H. lra.
Qed.

(** ** dense matrices *)
Lemma dense_matrix_real leaves ranks shift v c : NoDup (concat leaves) -> In c (concat leaves) ->
  mat_vec_pytree rR coord leaves ranks shift v c
  = lsum rR (map (fun d => to_dense_jac rR coord ranks shift (fun c d => (fst c =? fst d)%nat && Bool.eqb (snd c) (snd d))%bool c d * v d) (concat leaves)).
Proof.
  intros Hd Hc. rewrite (mat_vec_pytree_is rR rR_laws).
  rewrite (kernel_matrix rR rR_laws coord (concat leaves) (concat ranks) shift v c
     (fun c d => (fst c =? fst d)%nat && Bool.eqb (snd c) (snd d))%bool coord_eqb_spec Hd Hc).
  apply (lsum_ext rR). intros d _. rewrite (to_dense_is rR rR_laws). reflexivity.
Qed.

Lemma onthefly_dense_holo ls ranks shift k l : even_ranks ranks -> holomorphic ls (concat ranks) ->
  (k < n_pars ls)%nat -> (l < n_pars ls)%nat ->
  to_dense_onthefly ls ranks shift true k l
  = radd cC (avg (concat ranks) (fun s => rmul cC (rconj cC (delta (concat ranks) (k, false) s)) (delta (concat ranks) (l, false) s)))
      (if (k =? l)%nat then (shift, 0) else (0, 0)).
Proof.
  intros HE HH Hk Hl. unfold to_dense_onthefly. rewrite onthefly_main, (geometric_holo_is ls _ _ _ _ HH) by assumption.
  unfold geometric_holo. f_equal.
  - rewrite (fsum_ext cC (n_pars ls) _ (fun i => if (i =? l)%nat then
       avg (concat ranks) (fun s => rmul cC (rconj cC (delta (concat ranks) (k, false) s)) (delta (concat ranks) (i, false) s)) else r0 cC)).
    + rewrite (fsum_delta cC cC_laws _ (fun i => avg (concat ranks) (fun s => rmul cC (rconj cC (delta (concat ranks) (k, false) s)) (delta (concat ranks) (i, false) s))) l Hl). reflexivity.
    + intros i _. destruct (i =? l)%nat; [change (1, 0) with (r1 cC)|change (0, 0) with (r0 cC)]; ring.
  - destruct (k =? l)%nat; unfold rscal; cpx; ring.
Qed.
Lemma onthefly_dense_real ls ranks shift k l : even_ranks ranks -> Forall (fun b => fst b = false) ls ->
  (k < n_pars ls)%nat -> (l < n_pars ls)%nat ->
  to_dense_onthefly ls ranks shift false k l
  = (ravg (concat ranks) (fun s => fst (rmul cC (rconj cC (delta (concat ranks) (k, false) s)) (delta (concat ranks) (l, false) s)))
      + (if (k =? l)%nat then shift else 0), 0).
Proof.
  intros HE HA Hk Hl. unfold to_dense_onthefly. rewrite onthefly_main by assumption. unfold geometric.
  rewrite (flag_all_false ls l HA). f_equal. f_equal.
  - rewrite !ravg_is. f_equal. apply (lsum_ext rR). intros s _.
    assert (E : delta_v ls (concat ranks) (fun i => if (i =? k)%nat then (1, 0) else (0, 0)) s = delta (concat ranks) (k, false) s).
    { unfold delta_v.
      rewrite (fsum_ext cC (n_pars ls) _ (fun i => if (i =? k)%nat then delta (concat ranks) (i, false) s else r0 cC)).
      - rewrite (fsum_delta cC cC_laws _ (fun i => delta (concat ranks) (i, false) s) k Hk). reflexivity.
      - intros i _. rewrite (flag_all_false ls i HA). destruct (i =? k)%nat; unfold rscal; cpx; ring. }
    rewrite E. cbn [cC rmul rconj fst snd]. rring.
  - rewrite (Nat.eqb_sym l k). destruct (k =? l)%nat; cbn [fst]; ring.
Qed.

(** ** rescaled shift *)
Section Rescale.
  Variable C : cring.
  Hypothesis L : cring_laws C.
  Add Ring CringR : (cr_ring C L).
  Infix "+" := (radd C).
  Infix "*" := (rmul C).
  Notation conj := (rconj C).
  Variable root : T C -> T C.
  Variable dvd : T C -> T C -> T C.
  Variable I : Type.
  Notation row := (I -> T C).
  Variable ranks : list (list row).
  Let s := scale_of C I root ranks.
  Definition square (c : I) : T C := lsum C (map (fun r : row => conj (r c) * r c) (concat ranks)).
  Hypothesis Hroot : forall c, s c * s c = square c.
  Hypothesis Hconj : forall c, conj (s c) = s c.
  Lemma rescaled_kernel cols shift v c : (forall d, In d (c :: cols) -> forall x, dvd x (s d) * s d = x) ->
    kernel C I cols (concat (fst (rescale C I root dvd ranks))) shift (fun d => v d * s d) c * s c
    = kernel C I cols (concat ranks) (r0 C) v c + shift * square c * v c.
  Proof.
    intros Hd. unfold kernel, rescale. cbn [fst]. fold s. rewrite concat_map', map_map.
    transitivity (lsum C (map (fun r : row => conj (dvd (r c) (s c)) * lsum C (map (fun d => dvd (r d) (s d) * (v d * s d)) cols)) (concat ranks)) * s c
       + shift * (s c * s c) * v c); [ring|]. rewrite Hroot.
    transitivity (lsum C (map (fun r : row => conj (r c) * lsum C (map (fun d => r d * v d) cols)) (concat ranks)) + shift * square c * v c); [|ring].
    f_equal. rewrite <- (lsum_scal_r' C L). apply (lsum_ext C). intros r _.
    rewrite (lsum_ext C (fun d => dvd (r d) (s d) * (v d * s d)) (fun d => r d * v d)).
    2:{ intros d Hin. rewrite <- (Hd d (or_intror Hin) (r d)) at 2. ring. }
    transitivity (conj (dvd (r c) (s c)) * conj (s c) * lsum C (map (fun d => r d * v d) cols)); [rewrite Hconj; ring|].
    rewrite <- (cr_conj_mul C L), (Hd c (or_introl eq_refl)). reflexivity.
  Qed.
End Rescale.
Lemma colnorm2_nonneg ranks c : 0 <= colnorm2 ranks c.
Proof. apply lsum_nonneg. intros r _. nra. Qed.
Lemma scale_real_is ranks c : scale_of rR coord sqrt ranks c = sqrt (colnorm2 ranks c).
Proof. unfold scale_of, colnorm2. rewrite (lsum_concat rR rR_laws). reflexivity. Qed.
Lemma rescaled_main leaves ranks shift v c : (forall d, In d (c :: concat leaves) -> colnorm2 ranks d <> 0) ->
  scaled_pytree rR coord leaves (rescale rR coord sqrt Rdiv ranks) shift v c
    = mat_vec_pytree rR coord leaves ranks 0 v c + shift * colnorm2 ranks c * v c /\
  scaled_dense rR coord (concat leaves) (rescale rR coord sqrt Rdiv ranks) shift v c
    = mat_vec_pytree rR coord leaves ranks 0 v c + shift * colnorm2 ranks c * v c.
Proof.
  intros H. unfold scaled_pytree, scaled_dense.
  rewrite !(mat_vec_pytree_is rR rR_laws), (mat_vec_dense_is rR rR_laws). cbn [rescale fst snd].
  assert (K := rescaled_kernel rR rR_laws sqrt Rdiv coord ranks).
  assert (Hr : forall c, rmul rR (scale_of rR coord sqrt ranks c) (scale_of rR coord sqrt ranks c) = square rR coord ranks c).
  { intros d. rewrite scale_real_is. exact (sqrt_sqrt _ (colnorm2_nonneg ranks d)). }
  assert (Hd : forall d, In d (c :: concat leaves) -> forall x, rmul rR (x / scale_of rR coord sqrt ranks d) (scale_of rR coord sqrt ranks d) = x).
  { intros d Hd x. rewrite scale_real_is. match goal with |- ?a = ?b => change (@eq R a b) end. cbn [rR rmul]. field.
    intros E. apply sqrt_eq_0 in E; [|apply colnorm2_nonneg]. exact (H d Hd E). }
  specialize (K Hr (fun c => eq_refl) (concat leaves) shift v c Hd). split; exact K.
Qed.
Lemma rescaled_dense ranks shift c d : colnorm2 ranks c <> 0 -> colnorm2 ranks d <> 0 ->
  scaled_to_dense rR coord (rescale rR coord sqrt Rdiv ranks) shift
    (fun c d => (fst c =? fst d)%nat && Bool.eqb (snd c) (snd d))%bool c d
  = lsum rR (map (fun r => r c * r d) (concat ranks))
    + shift * (if ((fst c =? fst d)%nat && Bool.eqb (snd c) (snd d))%bool then colnorm2 ranks c else 0).
Proof.
  intros Hc Hd. unfold scaled_to_dense. cbn [rescale fst snd]. rewrite !scale_real_is.
  assert (Nc : sqrt (colnorm2 ranks c) <> 0) by (intros E; apply sqrt_eq_0 in E; [contradiction|apply colnorm2_nonneg]).
  assert (Nd : sqrt (colnorm2 ranks d) <> 0) by (intros E; apply sqrt_eq_0 in E; [contradiction|apply colnorm2_nonneg]).
  rewrite (lsum_concat rR rR_laws).
  rewrite concat_map', map_map. cbn [rR radd rmul rconj r0]. rewrite (sqrt_sqrt _ (colnorm2_nonneg ranks c)).
  f_equal. apply (lsum_ext rR). intros r _. rewrite !scale_real_is.
  match goal with |- ?a = ?b => change (@eq R a b) end. field. split; assumption.
Qed.
