From Coq Require Import List Arith Reals Lra Lia Ring Bool.
From Verif Require Import Base Rings ARNN_Model ARNN_Proofs ToArray_Model Estim_Model Estim_Spec Estim_Proofs JaxUtils_Model JaxUtils_Spec.
Import ListNotations.
Open Scope R_scope.

Add Ring cCring3 : (cr_ring cC cC_laws).

(** ** ravel *)
Lemma split_concat t : split_like t (numbers t) = map l_vals t.
Proof.
  unfold numbers. induction t as [|l t IH]; cbn [map concat split_like]; [reflexivity|].
  rewrite firstn_app, firstn_all, Nat.sub_diag, skipn_app, skipn_all, Nat.sub_diag. cbn [firstn skipn app].
  now rewrite app_nil_r, IH.
Qed.
Lemma split_map (f : cpx -> cpx) t : forall v, split_like t (map f v) = map (map f) (split_like t v).
Proof. induction t as [|l t IH]; intros v; cbn [split_like map]; [reflexivity|]. now rewrite firstn_map, skipn_map, IH. Qed.
Lemma re_proper l : proper_leaf l -> l_complex l = false -> map re (l_vals l) = l_vals l.
Proof.
  intros P E. specialize (P E). rewrite <- (map_id (l_vals l)) at 2. apply map_ext_in. intros z Hz.
  rewrite Forall_forall in P. unfold re. rewrite <- (P z Hz). now destruct z.
Qed.
Lemma to_type_proper l : proper_leaf l -> map (to_type (l_complex l)) (l_vals l) = l_vals l.
Proof. intros P. destruct (l_complex l) eqn:E; [apply map_id|]. now apply re_proper. Qed.

Lemma ravel_size t : length (l_vals (ravel t)) = tree_size t.
Proof.
  unfold ravel, tree_size. cbn [l_vals]. induction t as [|l t IH]; cbn [map concat]; [reflexivity|].
  rewrite app_length, IH. reflexivity.
Qed.

Lemma unravel_ravel t : proper_tree t -> unravel t (ravel t) = t.
Proof.
  intros P. unfold unravel, ravel. cbn [l_vals l_complex]. fold (numbers t).
  destruct (any_complex t) eqn:A.
  - replace (map (to_type true) (numbers t)) with (numbers t) by (symmetry; apply map_id).
    rewrite split_concat. clear A. induction t as [|l t IH]; cbn [map combine]; [reflexivity|].
    apply Forall_cons_iff in P. destruct P as [Pl Pt]. rewrite (IH Pt). f_equal. cbn [fst snd].
    rewrite (to_type_proper l Pl). now destruct l.
  - rewrite split_map, split_concat.
    assert (Q : Forall (fun l => l_complex l = false) t).
    { apply Forall_forall. intros l Hl. destruct (l_complex l) eqn:E; [|reflexivity].
      unfold any_complex in A. rewrite <- A. symmetry. apply existsb_exists. exists l. auto. }
    clear A. induction t as [|l t IH]; cbn [map]; [reflexivity|].
    apply Forall_cons_iff in P. destruct P as [Pl Pt]. apply Forall_cons_iff in Q. destruct Q as [Ql Qt].
    rewrite (IH Pt Qt). f_equal. cbn [to_type]. change (to_type false) with re. rewrite (re_proper l Pl Ql). destruct l. cbn in *. congruence.
Qed.

Lemma concat_split t : forall v, length v = tree_size t -> concat (split_like t v) = v.
Proof.
  unfold tree_size. induction t as [|l t IH]; intros v L; cbn [split_like concat map] in *.
  - destruct v; [reflexivity|discriminate].
  - rewrite IH; [apply firstn_skipn|]. rewrite skipn_length.
    change (list_sum (length (l_vals l) :: map (fun l => length (l_vals l)) t)) with (length (l_vals l) + list_sum (map (fun l => length (l_vals l)) t))%nat in L. lia.
Qed.
Lemma split_length t v : length (split_like t v) = length t.
Proof. revert v. induction t; intros v; cbn [split_like length]; auto. Qed.
Lemma all_any c t : all_type c t -> t <> [] -> any_complex t = c.
Proof.
  intros H N. destruct t as [|l t]; [congruence|]. unfold any_complex. cbn [existsb]. apply Forall_cons_iff in H. destruct H as [E F].
  rewrite E. destruct c; [reflexivity|]. cbn [orb]. clear N E l. induction F as [|x l E F IH]; cbn [existsb]; [reflexivity|]. now rewrite E, IH.
Qed.
Lemma combine_re_im l : map (fun ab : cpx * cpx => (fst ab + (0, 1) * snd ab)%C) (combine (map re l) (map im l)) = l.
Proof.
  induction l as [|z l IH]; cbn [map combine]; [reflexivity|]. rewrite IH. f_equal. unfold re, im. destruct z as [a b]. cpx; ring.
Qed.

(** any vector of the right length survives the round trip if all leaves are complex, or all
    real (then a complex vector gives complex leaves) *)
Lemma ravel_unravel_uniform t v c : t <> [] -> all_type c t -> length (l_vals v) = tree_size t -> proper_leaf v ->
  numbers (unravel t v) = l_vals v.
Proof.
  intros NE H L PV. unfold unravel, numbers. rewrite (all_any c t H NE). destruct c.
  - rewrite map_map. cbn [l_vals].
    transitivity (concat (split_like t (l_vals v))); [|now apply concat_split].
    f_equal. replace (map (to_type true) (l_vals v)) with (l_vals v) by (symmetry; apply map_id).
    clear NE L. generalize (l_vals v). induction H as [|l t E F IH]; intros w; cbn [split_like combine map]; [reflexivity|].
    rewrite IH. f_equal. cbn [fst snd]. rewrite E. apply map_id.
  - destruct (l_complex v) eqn:EV.
    + rewrite !split_map, !map_map. cbn [l_vals].
      transitivity (concat (split_like t (l_vals v))); [|now apply concat_split]. f_equal.
      generalize (split_like t (l_vals v)). induction l as [|x l IH]; cbn [map combine]; [reflexivity|]. rewrite IH. f_equal. cbn [fst snd].
      apply combine_re_im.
    + rewrite map_map. cbn [l_vals]. rewrite map_id. change (to_type false) with re. rewrite (re_proper v PV EV). now apply concat_split.
Qed.

Lemma mixed_refuted : exists t v, proper_tree t /\ proper_leaf v /\ length (l_vals v) = tree_size t /\
  numbers (unravel t v) <> l_vals v.
Proof.
  exists [Leaf false [(1, 0)]; Leaf true [(2, 3)]], (Leaf true [(1, 1); (2, 3)]).
  split; [|split; [|split]].
  - apply Forall_cons; [intros _; apply Forall_cons; [reflexivity|constructor]|].
    apply Forall_cons; [intros E; discriminate|constructor].
  - intros E. discriminate.
  - reflexivity.
  - cbn. intros E. injection E as E. lra.
Qed.

(** ** tree_to_real *)
Lemma to_real_main l : proper_leaf l -> reassemble (to_real l) = l.
Proof.
  intros P. destruct l as [[|] vals]; unfold to_real, reassemble; cbn [l_complex l_vals].
  - f_equal. induction vals as [|z vals IH]; cbn [map combine]; [reflexivity|]. rewrite IH by (intros E; discriminate). f_equal.
    destruct z. cpx; ring.
  - f_equal. rewrite map_map. specialize (P eq_refl). cbn [l_vals] in P. induction P as [|z vals E F IH]; cbn [map]; [reflexivity|].
    rewrite IH. f_equal. destruct z. cbn in *. congruence.
Qed.
Lemma reassemble_main a b : length a = length b -> to_real (reassemble (RPair a b)) = RPair a b.
Proof.
  intros L. unfold to_real, reassemble. cbn [l_complex l_vals]. rewrite !map_map.
  assert (F : map fst (combine a b) = a /\ map snd (combine a b) = b).
  { revert b L. induction a as [|x a IH]; intros [|y b] L; try discriminate; [split; reflexivity|].
    injection L as L. destruct (IH b L) as [E1 E2]. cbn [combine map fst snd]. now rewrite E1, E2. }
  destruct F as [F1 F2]. f_equal.
  - rewrite <- F1 at 2. apply map_ext. intros [x y]. cbn [cC radd ropp rconj fst snd]. ring.
  - rewrite <- F2 at 2. apply map_ext. intros [x y]. cbn [cC radd ropp rconj fst snd]. ring.
Qed.

(** ** dot products and sums *)
Lemma combine_app {A B} (a a' : list A) (b b' : list B) : length a = length b -> combine (a ++ a') (b ++ b') = combine a b ++ combine a' b'.
Proof. revert b. induction a; intros [|y b] L; try discriminate; [reflexivity|]. cbn. injection L as L. now rewrite IHa. Qed.
Lemma fold_lsum l : forall x, fold_left (radd cC) l x = (x + lsum cC l)%C.
Proof. induction l as [|y l IH]; intros x; cbn [fold_left lsum]; [ring|]. rewrite IH. ring. Qed.
Lemma dot_main a b : same_shape a b -> a <> [] ->
  tree_dot a b = Ok (lsum cC (map (fun p => rmul cC (fst p) (snd p)) (combine (numbers a) (numbers b)))).
Proof.
  intros SS NE.
  assert (E : lsum cC (map (fun p => leaf_dot (fst p) (snd p)) (combine a b)) = lsum cC (map (fun p => rmul cC (fst p) (snd p)) (combine (numbers a) (numbers b)))).
  { clear NE. revert b SS. induction a as [|x a IH]; intros [|y b] SS; try discriminate; [reflexivity|].
    injection SS as S1 S2. unfold numbers in *. cbn [combine map concat lsum]. rewrite combine_app by exact S1. rewrite map_app, (lsum_app cC cC_laws).
    rewrite IH by exact S2. reflexivity. }
  unfold tree_dot. destruct a as [|x a]; [congruence|]. destruct b as [|y b]; [discriminate|]. cbn [combine map lsum] in *.
  rewrite fold_lsum, E. reflexivity.
Qed.
Lemma dot_empty b : tree_dot [] b = Err TypeError.
Proof. reflexivity. Qed.
Lemma axpy_main ac a x y : same_shape x y ->
  numbers (tree_axpy ac a x y) = map (fun p => radd cC (rmul cC a (fst p)) (snd p)) (combine (numbers x) (numbers y)).
Proof.
  revert y. induction x as [|l x IH]; intros [|m y] SS; try discriminate; [reflexivity|].
  injection SS as S1 S2. unfold numbers, tree_axpy in *. cbn [combine map concat]. rewrite combine_app by exact S1. rewrite map_app, IH by exact S2. reflexivity.
Qed.
Lemma cast_main x target : same_shape x target -> proper_tree (tree_cast x target) /\
  map l_complex (tree_cast x target) = map l_complex target /\
  (proper_tree x -> map l_complex x = map l_complex target -> tree_cast x target = x).
Proof.
  revert target. induction x as [|l x IH]; intros [|m y] SS; try discriminate.
  - repeat split; constructor.
  - injection SS as S1 S2. destruct (IH y S2) as (A & B & D). unfold tree_cast in *. cbn [combine map]. split; [|split].
    + constructor; [|exact A]. intros E. unfold cast_leaf in *. cbn [l_complex l_vals fst snd] in *. rewrite E.
      apply Forall_forall. intros z Hz. apply in_map_iff in Hz. destruct Hz as (w & <- & _). reflexivity.
    + now rewrite B.
    + intros P E. apply Forall_cons_iff in P. destruct P as [Pl Px]. injection E as E1 E2. rewrite D by assumption. f_equal.
      unfold cast_leaf. cbn [fst snd]. rewrite <- E1, (to_type_proper l Pl). now destruct l.
Qed.

(** ** element types *)
Lemma dtype_main t :
  (forall c, dtype_complex t = Ok c -> is_complex_dtype c = true /\ (is_complex_dtype t = false -> dtype_real c = Ok t)) /\
  (exists r, dtype_real t = Ok r /\ is_complex_dtype r = false /\ (is_complex_dtype t = true -> dtype_complex r = Ok t)) /\
  (dtype_complex t = Err TypeError <-> ~ In t [F32; F64; C64; C128]).
Proof.
  split; [|split].
  - intros c E. destruct t; try discriminate; injection E as <-; split; try reflexivity; discriminate.
  - destruct t; eexists; (split; [reflexivity|split; [reflexivity|]]); intros; try reflexivity; discriminate.
  - destruct t; cbn; split; intros; intuition congruence.
Qed.

(** ** Jacobians *)
Lemma fsum_pair m f g : fsum cC m (fun i => (f i, g i)) = (fsum rR m f, fsum rR m g).
Proof. apply injective_projections; [rewrite fst_fsum|rewrite snd_fsum]; reflexivity. Qed.

Lemma vjp_real m conjugate yc out_complex j y :
  (out_complex = false -> real_function m j) -> (yc = false -> forall i, (i < m)%nat -> snd (y i) = 0) ->
  nk_vjp m false false out_complex yc conjugate j y = pullback m conjugate j y.
Proof.
  intros HR HY. unfold nk_vjp, pullback. 
  assert (F : fsum cC m (fun i => (y i * derivative j i)%C) =
     (fsum rR m (fun i => fst (y i) * ux j i) - fsum rR m (fun i => snd (y i) * vx j i),
      fsum rR m (fun i => fst (y i) * vx j i) + fsum rR m (fun i => snd (y i) * ux j i))).
  { apply injective_projections; cbn [fst snd].
    - rewrite fst_fsum. transitivity (fsum rR m (fun i => rsub rR (fst (y i) * ux j i) (snd (y i) * vx j i))).
      + apply (fsum_ext rR). intros i _. unfold derivative. cbn [cC rmul rR rsub fst snd]. reflexivity.
      + apply (fsum_sub rR rR_laws).
    - rewrite snd_fsum. transitivity (fsum rR m (fun i => radd rR (fst (y i) * vx j i) (snd (y i) * ux j i))).
      + apply (fsum_ext rR). intros i _. unfold derivative. cbn [cC rmul rR radd fst snd]. reflexivity.
      + apply (fsum_add rR rR_laws). }
  destruct out_complex.
  - unfold nk_vjp_rc. rewrite F. unfold maybe_conj. 
    set (a := fsum rR m (fun i => fst (y i) * ux j i)). set (b := fsum rR m (fun i => snd (y i) * vx j i)).
    set (c := fsum rR m (fun i => fst (y i) * vx j i)). set (d := fsum rR m (fun i => snd (y i) * ux j i)).
    clearbody a b c d. cbn [rR T] in a, b, c, d. destruct conjugate; cpx; ring.
  - specialize (HR eq_refl).
    assert (Z1 : fsum rR m (fun i => snd (y i) * vx j i) = 0).
    { apply (fsum_zero rR rR_laws). intros i Hi. destruct (HR i Hi) as [-> _]. apply Rmult_0_r. }
    assert (Z2 : fsum rR m (fun i => fst (y i) * vx j i) = 0).
    { apply (fsum_zero rR rR_laws). intros i Hi. destruct (HR i Hi) as [-> _]. apply Rmult_0_r. }
    rewrite F, Z1, Z2. unfold nk_vjp_rr. destruct yc; cbn [negb].
    + set (a := fsum rR m (fun i => fst (y i) * ux j i)). set (d := fsum rR m (fun i => snd (y i) * ux j i)).
      clearbody a d. cbn [rR T] in a, d. destruct conjugate; cpx; ring.
    + specialize (HY eq_refl).
      assert (Z3 : fsum rR m (fun i => snd (y i) * ux j i) = 0).
      { apply (fsum_zero rR rR_laws). intros i Hi. rewrite (HY i Hi). apply Rmult_0_l. }
      rewrite Z3. set (a := fsum rR m (fun i => fst (y i) * ux j i)). clearbody a. cbn [rR T] in a. destruct conjugate; cpx; ring.
Qed.

Lemma vjp_holomorphic m conjugate yc j y : holomorphic m j ->
  nk_vjp m true true true yc conjugate j y = pullback m conjugate j y.
Proof.
  intros H. unfold nk_vjp, nk_vjp_cc, pullback, maybe_conj, jsum. cbn [to_type].
  assert (E : fsum cC m (fun i => jax_vjp (y i) (ux j i) (uy j i) (vx j i) (vy j i)) = fsum cC m (fun i => (y i * derivative j i)%C)).
  { apply fsum_ext. intros i Hi. destruct (H i Hi) as [-> ->]. unfold jax_vjp, derivative. cpx; ring. }
  now rewrite E.
Qed.

(** a real input next to a complex one *)
Lemma vjp_mixed m conjugate yc j y : 
  nk_vjp m true false true yc conjugate j y = (fst (pullback m false j y), 0).
Proof.
  unfold nk_vjp, nk_vjp_cc, pullback, maybe_conj, jsum. cbn [to_type].
  assert (E : fst (fsum cC m (fun i => jax_vjp (y i) (ux j i) (uy j i) (vx j i) (vy j i))) = fst (fsum cC m (fun i => (y i * derivative j i)%C))).
  { rewrite !fst_fsum. apply (fsum_ext rR). intros i Hi. unfold jax_vjp, derivative. cbn [cC rmul rR T fst snd]. reflexivity. }
  unfold re. rewrite E. destruct conjugate; [|reflexivity]. cpx; ring.
Qed.
Lemma vjp_mixed_refuted : exists m j y,
  nk_vjp m false false true true false j y = pullback m false j y /\ nk_vjp m true false true true false j y <> pullback m false j y.
Proof.
  exists 1%nat, (Jac (fun _ => 0) (fun _ => 0) (fun _ => 1) (fun _ => 0)), (fun _ => (1, 0)). split.
  - apply vjp_real; intros E; discriminate.
  - rewrite vjp_mixed. unfold pullback, derivative. cbn. intros E. injection E. lra.
Qed.
(** a real function of complex inputs ignores the imaginary part of the cotangent *)
Lemma vjp_cr_refuted : exists m j y, real_function m j /\
  nk_vjp m false false false true false j y = pullback m false j y /\ nk_vjp m true true false true false j y = r0 cC /\ pullback m false j y <> r0 cC.
Proof.
  exists 1%nat, (Jac (fun _ => 1) (fun _ => 0) (fun _ => 0) (fun _ => 0)), (fun _ => (0, 1)).
  assert (RF : real_function 1 (Jac (fun _ => 1) (fun _ => 0) (fun _ => 0) (fun _ => 0))) by (intros i _; split; reflexivity).
  split; [exact RF|split; [|split]].
  - apply vjp_real; [intros; exact RF|intros E; discriminate].
  - unfold nk_vjp, nk_vjp_cc, jsum, jax_vjp, to_type, re, maybe_conj. cbn. f_equal; ring.
  - unfold pullback, derivative. cbn. intros E. injection E. lra.
Qed.

(** ** gradients *)
Lemma grad_main aux ad hol (x : cpx) (a : aux) :
  (forall f r l, derivable_pt_lim f r l -> ad f r = l) ->
  (forall f l, derivable_pt_lim f (fst x) l -> forall has_aux,
     value_and_grad aux ad hol has_aux (FRR f) x a = Ok ((f (fst x), 0), (if has_aux then Some a else None), (l, 0))) /\
  (forall f l, cderiv f (fst x) l -> value_and_grad aux ad hol false (FRC f) x a = Ok (f (fst x), None, l)) /\
  (forall f has_aux, value_and_grad aux ad hol has_aux (FCC f) x a = Ok (f x, (if has_aux then Some a else None), hol f x)) /\
  (forall f has_aux, value_and_grad aux ad hol has_aux (FCR f) x a = Err RuntimeError).
Proof.
  intros AD. split; [|split; [|split]]; try reflexivity.
  - intros f l D has_aux. unfold value_and_grad. rewrite (AD f (fst x) l D). reflexivity.
  - intros f l [D1 D2]. unfold value_and_grad. rewrite (AD _ _ _ D1), (AD _ _ _ D2). f_equal. f_equal; [f_equal|].
    + destruct (f (fst x)). cpx; ring.
    + destruct l. cpx; ring.
Qed.
Lemma grad_same aux ad hol has_aux f x (a : aux) :
  grad aux ad hol has_aux f x a = match value_and_grad aux ad hol has_aux f x a with Ok (_, o, g) => Ok (g, o) | Err e => Err e end.
Proof. unfold grad. destruct (value_and_grad aux ad hol has_aux f x a) as [[[v o] g]|e]; reflexivity. Qed.
Lemma grad_aux_refuted aux ad hol f x (a : aux) :
  value_and_grad aux ad hol true (FRC f) x a = Err ValueError /\ grad aux ad hol true (FRC f) x a = Err ValueError.
Proof. split; reflexivity. Qed.

Lemma cast_vals x target : same_shape x target ->
  Forall2 (fun c l => map fst (l_vals c) = map fst (l_vals l) /\ (l_complex c = true -> l_vals c = l_vals l)) (tree_cast x target) x.
Proof.
  revert target. induction x as [|l x IH]; intros [|m y] SS; try discriminate; [constructor|].
  injection SS as S1 S2. unfold tree_cast in *. cbn [combine map]. constructor; [|now apply IH].
  unfold cast_leaf. cbn [fst snd l_vals l_complex]. split.
  - rewrite map_map. apply map_ext. intros z. now destruct (l_complex m).
  - intros ->. apply map_id.
Qed.
Lemma conj_main l : proper_leaf l -> l_complex (conj_leaf l) = l_complex l /\ l_vals (conj_leaf l) = map (rconj cC) (l_vals l).
Proof.
  intros P. unfold conj_leaf. destruct (l_complex l) eqn:E; [split; reflexivity|]. split; [exact E|].
  specialize (P E). induction P as [|z v Z F IH]; cbn [map]; [reflexivity|]. rewrite <- IH.
  assert (Ez : rconj cC z = z). { destruct z as [a b]. cbn [snd] in Z. subst b. cpx; ring. }
  rewrite Ez. reflexivity.
Qed.
Lemma promote_main main others t : maybe_promote main others = Ok t ->
  is_complex_dtype t = existsb is_complex_dtype (main :: others) /\ dtype_real t = dtype_real main.
Proof.
  unfold maybe_promote. destruct (existsb is_complex_dtype (main :: others)) eqn:E; intros H.
  - destruct main; cbn in H; try discriminate; injection H as <-; split; reflexivity.
  - injection H as <-. cbn [existsb] in E. apply orb_false_iff in E. destruct E as [E _]. split; [exact E|reflexivity].
Qed.

Lemma axpy_types ac a x y : same_shape x y ->
  map l_complex (tree_axpy ac a x y) = map (fun p => ac || fst p || snd p)%bool (combine (map l_complex x) (map l_complex y)).
Proof.
  revert y. induction x as [|l x IH]; intros [|m y] SS; try discriminate; [reflexivity|].
  injection SS as S1 S2. unfold tree_axpy in *. cbn [combine map]. now rewrite IH.
Qed.
