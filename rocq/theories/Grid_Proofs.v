(** Proofs of C90: the elements of the point group of a grid. *)
From Coq Require Import List Arith Bool ZArith QArith Qcanon Qabs Permutation Lia.
From Verif Require Import Base BaseFacts Rings FloatCmp_Model FloatCmp_Spec LatGen_Model PointGp_Model PointGp_Spec PointGp_Lin PointGp_Proofs SpaceGp_Model Grid_Model Grid_Spec.
Import ListNotations.
Open Scope nat_scope.

(** ** itertools.permutations *)
Lemma picks_perm {A} (l : list A) x r : In (x, r) (picks l) -> Permutation l (x :: r).
Proof.
  revert x r. induction l as [|y l IH]; intros x r; [intros []|]. cbn [picks]. intros [E|H].
  - injection E as <- <-. reflexivity.
  - apply in_map_iff in H. destruct H as ((z & r') & E & H). cbn [fst snd] in E. injection E as <- <-.
    apply IH in H. rewrite H. apply perm_swap.
Qed.
Lemma picks_in {A} (l : list A) x : In x l -> exists r, In (x, r) (picks l).
Proof.
  induction l as [|y l IH]; intros H; [destruct H|]. cbn [picks]. destruct H as [->|H].
  - exists l. now left.
  - destruct (IH H) as (r & Hr). exists (y :: r). right. apply in_map_iff. now exists (x, r).
Qed.
Lemma picks_fst {A} (l : list A) : map fst (picks l) = l.
Proof. induction l as [|x l IH]; [reflexivity|]. cbn [picks map fst]. f_equal. rewrite map_map. exact IH. Qed.
Lemma perms_in {A} n : forall l : list A, length l = n -> forall p, In p (permutations_of n l) <-> Permutation l p.
Proof.
  induction n as [|n IH]; intros l L p.
  - destruct l; [|discriminate]. cbn. split; [intros [<-|[]]; reflexivity|]. intros H. apply Permutation_nil in H. now left.
  - cbn [permutations_of]. rewrite in_flat_map. split.
    + intros ((x & r) & H & K). cbn [fst snd] in K. apply in_map_iff in K. destruct K as (q & <- & K).
      pose proof (picks_perm _ _ _ H) as P. rewrite P. constructor.
      apply IH; [|exact K]. apply Permutation_length in P. cbn in P. lia.
    + intros P. destruct p as [|x p]; [symmetry in P; apply Permutation_nil in P; subst; discriminate|].
      destruct (picks_in l x) as (r & Hr); [apply (Permutation_in x (Permutation_sym P)); now left|].
      exists (x, r). split; [exact Hr|]. cbn [fst snd]. apply in_map.
      pose proof (picks_perm _ _ _ Hr) as P'. apply IH; [apply Permutation_length in P'; cbn in P'; lia|].
      rewrite P' in P. now apply Permutation_cons_inv in P.
Qed.
Lemma nodup_flat {A B} (f : A -> list B) (l : list A) : NoDup l -> (forall x, In x l -> NoDup (f x)) ->
  (forall x y b, In x l -> In y l -> In b (f x) -> In b (f y) -> x = y) -> NoDup (flat_map f l).
Proof.
  induction l as [|x l IH]; intros N F D; [constructor|]. cbn [flat_map]. inversion N as [|? ? Nx Nl]; subst.
  assert (IHl : NoDup (flat_map f l)) by (apply IH; [exact Nl|intros; apply F; now right|intros y z b Y Z; apply D; now right]).
  assert (Hx : forall b, In b (f x) -> ~ In b (flat_map f l)).
  { intros b Hb H. apply in_flat_map in H. destruct H as (y & Hy & H). apply Nx. rewrite (D x y b); auto; [now left|now right]. }
  revert Hx. generalize (F x (or_introl eq_refl)). generalize (f x). intros fx N1 H1. induction fx as [|b fx IH1]; [exact IHl|].
  cbn [app]. inversion N1; subst. constructor.
  - rewrite in_app_iff. intros [H|H]; [auto|]. apply (H1 b); [now left|exact H].
  - apply IH1; [auto|]. intros c Hc. apply H1. now right.
Qed.
Lemma fst_unique {A B} (l : list (A * B)) a b c : NoDup (map fst l) -> In (a, b) l -> In (a, c) l -> b = c.
Proof.
  induction l as [|(z & w) l IH]; intros N; [intros []|]. cbn [map fst] in N. inversion N as [|? ? H1 H2]; subst. intros [E|I1] [E'|I2].
  - congruence.
  - injection E as -> ->. exfalso. apply H1. apply (in_map fst) in I2. exact I2.
  - injection E' as -> ->. exfalso. apply H1. apply (in_map fst) in I1. exact I1.
  - apply IH; auto.
Qed.
Lemma perms_nodup {A} n : forall l : list A, length l = n -> NoDup l -> NoDup (permutations_of n l).
Proof.
  induction n as [|n IH]; intros l L N; [repeat constructor; auto|]. cbn [permutations_of]. apply nodup_flat.
  - apply (NoDup_map_inv fst). now rewrite picks_fst.
  - intros (x & r) H. cbn [fst snd]. pose proof (picks_perm _ _ _ H) as P. apply FinFun.Injective_map_NoDup; [intros a b E; now injection E|].
    apply IH; [apply Permutation_length in P; cbn in P; lia|]. pose proof (Permutation_NoDup P N) as N'. now inversion N'.
  - intros (x & r) (y & r') b X Y Hb Hb'. cbn [fst snd] in *. apply in_map_iff in Hb, Hb'. destruct Hb as (q & <- & _), Hb' as (q' & E & _).
    injection E as <- _. f_equal. apply (fst_unique (picks l) y); auto. now rewrite picks_fst.
Qed.
Lemma perms_head {A} n : forall l : list A, length l = n -> exists r, permutations_of n l = l :: r.
Proof.
  induction n as [|n IH]; intros l L; [destruct l; [now exists []|discriminate]|]. destruct l as [|x l]; [discriminate|].
  cbn [permutations_of picks flat_map fst snd]. destruct (IH l) as (r & ->); [now injection L|]. cbn [map app]. eexists. reflexivity.
Qed.

(** ** matrices of signed permutations *)
Definition smat (p : list nat) (r : list bool) : mat := fun i j => if Nat.eqb j (nth i p 0) then sgn (nth j r false) else 0%Qc.
Definition good_perm (n : nat) (p : list nat) : Prop := Permutation (seq 0 n) p.
Lemma gp_len n p : good_perm n p -> length p = n.
Proof. intros H. apply Permutation_length in H. rewrite seq_length in H. auto. Qed.
Lemma gp_lt n p i : good_perm n p -> i < n -> nth i p 0 < n.
Proof.
  intros H Hi. assert (I : In (nth i p 0) p) by (apply nth_In; rewrite (gp_len n p H); exact Hi).
  apply (Permutation_in _ (Permutation_sym H)) in I. apply in_seq in I. lia.
Qed.
Lemma gp_inj n p i j : good_perm n p -> i < n -> j < n -> nth i p 0 = nth j p 0 -> i = j.
Proof.
  intros H Hi Hj E. pose proof (Permutation_NoDup H (seq_NoDup n 0)) as N. pose proof (gp_len n p H) as L.
  apply (NoDup_nth p 0); auto; lia.
Qed.
Lemma gp_surj n p j : good_perm n p -> j < n -> exists i, i < n /\ nth i p 0 = j.
Proof.
  intros H Hj. assert (I : In j p) by (apply (Permutation_in _ H), in_seq; lia). apply (In_nth _ _ 0) in I.
  destruct I as (i & Hi & E). rewrite (gp_len n p H) in Hi. eauto.
Qed.
Lemma sgn_sq b : (sgn b * sgn b = 1)%Qc.
Proof. destruct b; cbn; ring. Qed.
Lemma smat_vec n p r x i : good_perm n p -> i < n -> mvec n (smat p r) x i = (sgn (nth (nth i p 0%nat) r false) * x (nth i p 0%nat))%Qc.
Proof.
  intros H Hi. unfold mvec. rewrite (qs_single n _ (nth i p 0)); [unfold smat; now rewrite Nat.eqb_refl|now apply (gp_lt n)|].
  intros k _ Ne. unfold smat. destruct (Nat.eqb_spec k (nth i p 0)); [congruence|ring].
Qed.
Lemma smat_orthogonal n p r : good_perm n p -> orthogonal n (smat p r).
Proof.
  intros H i j Hi Hj. unfold mmul, tr. destruct (gp_surj n p i H Hi) as (k & Hk & E).
  rewrite (qs_single n _ k); [|exact Hk|].
  - unfold smat, eye. rewrite E, Nat.eqb_refl. destruct (Nat.eqb_spec i j) as [->|Ne].
    + rewrite Nat.eqb_refl. apply sgn_sq.
    + destruct (Nat.eqb_spec j i); [congruence|ring].
  - intros l Hl Ne. unfold smat at 1. destruct (Nat.eqb_spec i (nth l p 0)) as [E'|]; [|ring].
    exfalso. apply Ne. apply (gp_inj n p); auto. congruence.
Qed.
Lemma refl_orthogonal n a : orthogonal n (fun i j => if Nat.eqb i j then (if Nat.eqb i a then - (1) else 1)%Qc else 0%Qc).
Proof.
  intros i j Hi Hj. unfold mmul, tr. rewrite (qs_single n _ i); [|exact Hi|].
  - unfold eye. rewrite Nat.eqb_refl. destruct (Nat.eqb_spec i j) as [->|]; [destruct (Nat.eqb j a); ring|ring].
  - intros k _ Ne. destruct (Nat.eqb_spec k i); [congruence|ring].
Qed.
Lemma construct_none n W : orthogonal n W -> pg_symmetry n n W None = Ok (PGS n W (fun _ => 0%Qc)).
Proof.
  intros H. unfold pg_symmetry. rewrite Nat.eqb_refl. cbn [negb]. rewrite (allclose_meq n _ _ H). reflexivity.
Qed.

(** an element is the signed permutation (p, r) *)
Definition is_signed (n : nat) (a : elem) (pr : list nat * list bool) : Prop :=
  good n a /\ meq n (e_matrix a) (smat (fst pr) (snd pr)) /\ veq n (e_translation a) (fun _ => 0%Qc).
Lemma perm_symm_ok n p : good_perm n p -> exists q, perm_symm p = Ok q /\ is_signed n (ESym q) (p, []).
Proof.
  intros H. unfold perm_symm. rewrite (gp_len n p H).
  assert (M : meq n (fun i j => if Nat.eqb j (nth i p 0) then 1%Qc else 0%Qc) (smat p [])).
  { intros i j _ _. unfold smat. destruct (Nat.eqb j (nth i p 0)); [|reflexivity]. destruct j; reflexivity. }
  assert (O : orthogonal n (fun i j => if Nat.eqb j (nth i p 0) then 1%Qc else 0%Qc)).
  { intros i j Hi Hj. rewrite <- (smat_orthogonal n p [] H i j Hi Hj). unfold mmul, tr. apply qs_ext. intros k Hk.
    now rewrite (M k i Hk Hi), (M k j Hk Hj). }
  rewrite (construct_none n _ O). eexists. split; [reflexivity|]. split; [split; [reflexivity|exact O]|]. split; [exact M|]. intros i _. reflexivity.
Qed.
Lemma mapM_forall2 {A B C} (f : A -> res B) (R : B -> C -> Prop) (h : A -> C) l : (forall x, In x l -> exists y, f x = Ok y /\ R y (h x)) ->
  exists ys, mapM f l = Ok ys /\ Forall2 R ys (map h l).
Proof.
  induction l as [|x l IH]; intros H; [exists []; split; [reflexivity|constructor]|].
  destruct (H x (or_introl eq_refl)) as (y & E & Ry). destruct IH as (ys & E' & Rs); [intros z Hz; apply H; now right|].
  exists (y :: ys). cbn [mapM]. rewrite E. cbn [bind]. rewrite E'. split; [reflexivity|]. cbn [map]. now constructor.
Qed.
Definition split_signs (pr : list nat * list bool) := [(fst pr, snd pr ++ [false]); (fst pr, snd pr ++ [true])].
Lemma nth_snoc (r : list bool) b j : nth j (r ++ [b]) false = if Nat.eqb j (length r) then b else nth j r false.
Proof.
  destruct (Nat.eqb_spec j (length r)) as [->|Ne].
  - now rewrite app_nth2, Nat.sub_diag by lia.
  - destruct (Nat.lt_ge_cases j (length r)); [now rewrite app_nth1|]. rewrite (nth_overflow r) by lia. apply nth_overflow. rewrite app_length. cbn. lia.
Qed.
Lemma signed_false n a p r : is_signed n a (p, r) -> is_signed n a (p, r ++ [false]).
Proof.
  intros (G & M & W). split; [exact G|]. split; [|exact W]. intros i j Hi Hj. rewrite (M i j Hi Hj). cbn [fst snd]. unfold smat.
  rewrite nth_snoc. destruct (Nat.eqb_spec j (length r)) as [->|]; [|reflexivity]. now rewrite (nth_overflow r).
Qed.
Lemma signed_true n a p r k q : good_perm n p -> is_signed n a (p, r) -> length r = k -> axis_reflection k n = Ok q ->
  exists c, e_mul a (ESym q) = Ok c /\ is_signed n c (p, r ++ [true]).
Proof.
  intros Hp (G & M & W) Lr E. unfold axis_reflection in E. rewrite (construct_none n _ (refl_orthogonal n k)) in E. injection E as <-.
  set (R := fun i j => if Nat.eqb i j then (if Nat.eqb i k then - (1) else 1)%Qc else 0%Qc).
  assert (SR : forall A i j, i < n -> j < n -> mmul n A R i j = (A i j * (if Nat.eqb j k then - (1) else 1))%Qc).
  { intros A i j Hi Hj. unfold mmul. rewrite (qs_single n _ j); [unfold R; now rewrite Nat.eqb_refl|exact Hj|].
    intros l _ Ne. unfold R. destruct (Nat.eqb_spec l j); [congruence|ring]. }
  assert (SM : forall i j, i < n -> j < n -> (smat p r i j * (if Nat.eqb j k then - (1) else 1))%Qc = smat p (r ++ [true]) i j).
  { intros i j _ _. unfold smat. rewrite nth_snoc, Lr. destruct (Nat.eqb j (nth i p 0)); [|ring]. destruct (Nat.eqb_spec j k) as [->|]; [|ring].
    rewrite <- Lr, (nth_overflow r) by lia. cbn [sgn]. ring. }
  destruct a as [|s].
  - cbn [e_mul]. eexists. split; [reflexivity|]. split; [split; [reflexivity|apply refl_orthogonal]|]. split; [|intros i _; reflexivity].
    intros i j Hi Hj. cbn [e_matrix p_W fst snd]. rewrite <- SM by auto. cbn [e_matrix fst snd] in M. rewrite <- (M i j Hi Hj).
    unfold eye, R. destruct (Nat.eqb_spec i j) as [->|]; [|ring]. destruct (Nat.eqb j k); ring.
  - cbn [e_mul]. destruct G as [Gn Gp]. destruct (product_closed s (PGS n R (fun _ => 0%Qc))) as (c & Ec & Nc & Pc); [exact Gp|apply refl_orthogonal|exact Gn|].
    fold R. rewrite Ec. cbn [bind]. eexists. split; [reflexivity|]. apply product_fields in Ec. destruct Ec as (_ & ->). cbn [p_n p_W p_w] in *.
    split; [split; [exact Gn|exact Pc]|]. rewrite Gn in *. split.
    + intros i j Hi Hj. cbn [e_matrix p_W fst snd]. rewrite SR by auto. cbn [e_matrix fst snd] in M. rewrite (M i j Hi Hj). now apply SM.
    + intros i Hi. cbn [e_translation p_w]. cbn [e_translation] in W. rewrite (W i Hi). unfold mvec. rewrite qs_zero by (intros; ring). ring.
Qed.

Lemma reflect_ok k n : exists q, axis_reflection k n = Ok q.
Proof. unfold axis_reflection. rewrite (construct_none n _ (refl_orthogonal n k)). eexists. reflexivity. Qed.
(** one round of the loop *)
Lemma round n k l prs q : axis_reflection k n = Ok q -> Forall (fun pr => good_perm n (fst pr) /\ length (snd pr) = k) prs -> Forall2 (is_signed n) l prs ->
  exists l', mapM (fun ab => e_mul (fst ab) (snd ab)) (list_prod l [EId; ESym q]) = Ok l' /\ Forall2 (is_signed n) l' (flat_map split_signs prs).
Proof.
  intros E F H. induction H as [|a (p & r) l prs Ha H IH]; [exists []; split; [reflexivity|constructor]|].
  inversion F as [|? ? [Hp Hr] F']; subst. destruct (IH F') as (l' & E' & R'). cbn [fst snd] in *.
  destruct (signed_true n a p r _ q Hp Ha eq_refl E) as (c & Ec & Rc).
  exists (a :: c :: l'). cbn [list_prod map app mapM fst snd].
  assert (E1 : e_mul a EId = Ok a) by (destruct a; reflexivity). rewrite E1. cbn [bind]. rewrite Ec. cbn [bind].
  change (list_prod l [EId; ESym q]) with (list_prod l [EId; ESym q]) in E'. rewrite E'. cbn [bind]. split; [reflexivity|].
  cbn [flat_map split_signs app fst snd]. constructor; [now apply signed_false|]. constructor; [exact Rc|exact R'].
Qed.
Fixpoint rounds (m : nat) (prs : list (list nat * list bool)) : list (list nat * list bool) :=
  match m with O => prs | S m => rounds m (flat_map split_signs prs) end.
Lemma loop_ok n m : forall k l prs, Forall (fun pr => good_perm n (fst pr) /\ length (snd pr) = k) prs -> Forall2 (is_signed n) l prs ->
  exists l', add_reflections n (seq k m) (PG l n None) = Ok (PG l' n None) /\ Forall2 (is_signed n) l' (rounds m prs).
Proof.
  induction m as [|m IH]; intros k l prs F H; [exists l; split; [reflexivity|exact H]|]. cbn [seq add_reflections rounds].
  destruct (reflect_ok k n) as (q & Eq). rewrite Eq. cbn [bind]. unfold pg_group_product. cbn [g_ndim g_cell g_elems]. rewrite Nat.eqb_refl. cbn [negb bind].
  destruct (round n k l prs q Eq F H) as (l' & E & R). rewrite E. cbn [bind]. apply IH; [|exact R].
  rewrite Forall_forall in *. intros pr I. apply in_flat_map in I. destruct I as (x & Ix & I). destruct (F x Ix) as [F1 F2].
  destruct I as [<-|[<-|[]]]; cbn [fst snd]; (split; [exact F1|]); rewrite app_length, F2; cbn; lia.
Qed.
Lemma rounds_in m : forall k prs, Forall (fun pr => length (snd pr) = k) prs -> forall p r,
  In (p, r) (rounds m prs) <-> length r = k + m /\ In (p, firstn k r) prs.
Proof.
  induction m as [|m IH]; intros k prs F p r; cbn [rounds].
  - rewrite Nat.add_0_r. split.
    + intros H. pose proof (proj1 (Forall_forall _ _) F _ H) as L. cbn in L. split; [exact L|]. now rewrite firstn_all2 by lia.
    + intros (L & H). now rewrite firstn_all2 in H by lia.
  - rewrite (IH (S k)).
    + rewrite in_flat_map. split.
      * intros (L & (p' & r') & H & I). split; [lia|]. pose proof (proj1 (Forall_forall _ _) F _ H) as L'. cbn [snd] in L'.
        assert (E : p' = p /\ r' = firstn k (firstn (S k) r)).
        { cbn [split_signs fst snd] in I. destruct I as [E|[E|[]]]; (split; [exact (f_equal fst E)|]);
            pose proof (f_equal snd E) as E2; cbn [snd] in E2; rewrite <- E2; rewrite firstn_app, firstn_all2 by lia; replace (k - length r') with 0 by lia; cbn [firstn]; now rewrite app_nil_r. }
        destruct E as [-> E]. rewrite firstn_firstn, Nat.min_l in E by lia. now rewrite <- E.
      * intros (L & H). split; [lia|]. exists (p, firstn k r). split; [exact H|]. cbn [split_signs fst snd].
        assert (E : firstn (S k) r = firstn k r ++ [nth k r false]).
        { clear - L. revert k L. induction r as [|b r IHr]; intros k L; [cbn in L; lia|]. destruct k; [reflexivity|]. cbn [firstn nth app]. f_equal. apply IHr. cbn in L. lia. }
        rewrite E. destruct (nth k r false); [right; left|left]; reflexivity.
    + rewrite Forall_forall in *. intros pr I. apply in_flat_map in I. destruct I as (x & Ix & I). pose proof (F x Ix) as F2.
      destruct I as [<-|[<-|[]]]; cbn [fst snd]; rewrite app_length, F2; cbn; lia.
Qed.
Lemma snoc_inj {A} (r r' : list A) b b' : r ++ [b] = r' ++ [b'] -> r = r' /\ b = b'.
Proof. apply app_inj_tail. Qed.
Lemma rounds_nodup m : forall prs, NoDup prs -> NoDup (rounds m prs).
Proof.
  induction m as [|m IH]; intros prs N; [exact N|]. cbn [rounds]. apply IH. apply nodup_flat; [exact N| |].
  - intros (p & r) _. cbn [split_signs fst snd]. constructor; [|repeat constructor; intros []]. intros [E|[]]. injection E as E. apply app_inj_tail in E. destruct E. discriminate.
  - intros (p & r) (p' & r') b _ _ I I'. cbn [split_signs fst snd] in I, I'.
    destruct I as [<-|[<-|[]]], I' as [E|[E|[]]]; injection E as -> E; apply app_inj_tail in E; destruct E as [-> _]; reflexivity.
Qed.
Lemma rounds_head m : forall p r prs, exists prs', rounds m ((p, r) :: prs) = (p, r ++ repeat false m) :: prs'.
Proof.
  induction m as [|m IH]; intros p r prs; [exists prs; cbn; now rewrite app_nil_r|]. cbn [rounds flat_map split_signs fst snd app].
  destruct (IH p (r ++ [false]) ((p, r ++ [true]) :: flat_map split_signs prs)) as (prs' & E). exists prs'. rewrite E, <- app_assoc. reflexivity.
Qed.

(** ** the whole function *)
Definition allowed (extent : list Z) (pbc : list bool) := filter (same_kinds (kinds extent pbc)) (permutations_of (length extent) (seq 0 (length extent))).
Definition params (extent : list Z) (pbc : list bool) := rounds (length extent) (map (fun p => (p, [])) (allowed extent pbc)).
(** the final form of an element *)
Definition is_about (n : nat) (o : vec) (a : elem) (pr : list nat * list bool) : Prop :=
  good n a /\ meq n (e_matrix a) (smat (fst pr) (snd pr)) /\ veq n (e_translation a) (fun i => o i - mvec n (smat (fst pr) (snd pr)) o i)%Qc.

Lemma same_kinds_refl kind : same_kinds kind (seq 0 (length kind)) = true.
Proof. unfold same_kinds. apply forallb_forall. intros i Hi. apply in_seq in Hi. rewrite seq_nth by lia. apply Z.eqb_refl. Qed.
Lemma kinds_len extent pbc : length pbc = length extent -> length (kinds extent pbc) = length extent.
Proof. intros H. unfold kinds. rewrite map_length, combine_length. lia. Qed.
Lemma nth_kinds extent pbc i : length pbc = length extent -> i < length extent ->
  nth i (kinds extent pbc) 0%Z = if nth i pbc false then nth i extent 0%Z else (- nth i extent 0)%Z.
Proof.
  intros H Hi. unfold kinds. set (g := fun ep : Z * bool => if snd ep then fst ep else (- fst ep)%Z).
  change 0%Z with (g (0%Z, true)) at 1. rewrite map_nth. rewrite (nth_indep _ (0%Z, true) (0%Z, false)) by (rewrite combine_length; lia).
  rewrite combine_nth by lia. reflexivity.
Qed.
Lemma eye_smat n : meq n eye (smat (seq 0 n) (repeat false n)).
Proof.
  intros i j Hi Hj. unfold eye, smat. rewrite seq_nth by exact Hi. cbn [Nat.add]. rewrite (Nat.eqb_sym j i). destruct (Nat.eqb i j); [|reflexivity].
  rewrite nth_repeat. reflexivity.
Qed.
Lemma allowed_head extent pbc : length pbc = length extent -> exists r, allowed extent pbc = seq 0 (length extent) :: r.
Proof.
  intros H. unfold allowed. destruct (perms_head (length extent) (seq 0 (length extent))) as (r & ->); [apply seq_length|]. cbn [filter].
  pose proof (same_kinds_refl (kinds extent pbc)) as S. rewrite (kinds_len extent pbc H) in S. rewrite S. eexists. reflexivity.
Qed.
Lemma elements_ok extent pbc : length pbc = length extent ->
  exists l, grid_point_group extent pbc = Ok (PG l (length extent) None) /\ hd_error l = Some EId /\
    Forall2 (is_about (length extent) (origin_of extent pbc)) l (params extent pbc).
Proof.
  intros Hl. set (n := length extent). unfold grid_point_group. fold n. fold n in Hl.
  change (filter (same_kinds (kinds extent pbc)) (permutations_of n (seq 0 n))) with (allowed extent pbc).
  assert (GP : forall p, In p (allowed extent pbc) -> good_perm n p).
  { intros p Hp. apply filter_In in Hp. destruct Hp as [Hp _]. apply perms_in in Hp; [exact Hp|apply seq_length]. }
  destruct (mapM_forall2 perm_symm (fun q pr => is_signed n (ESym q) pr) (fun p => (p, [])) (allowed extent pbc)) as (ps & E & R).
  { intros p Hp. apply perm_symm_ok. auto. }
  rewrite E. cbn [bind].
  assert (R' : Forall2 (is_signed n) (map ESym ps) (map (fun p => (p, [])) (allowed extent pbc))).
  { clear - R. induction R; cbn [map]; constructor; auto. }
  destruct (loop_ok n n 0 (map ESym ps) (map (fun p => (p, [])) (allowed extent pbc))) as (l & El & Rl); [|exact R'|].
  { apply Forall_forall. intros pr I. apply in_map_iff in I. destruct I as (p & <- & I). split; [now apply GP|reflexivity]. }
  rewrite El. cbn [bind g_elems]. change (rounds n (map (fun p => (p, [])) (allowed extent pbc))) with (params extent pbc) in Rl.
  destruct (allowed_head extent pbc Hl) as (rest & EA). fold n in EA.
  destruct (rounds_head n (seq 0 n) [] (map (fun p => (p, [])) rest)) as (prs & EP). cbn [app] in EP.
  assert (EQ : params extent pbc = (seq 0 n, repeat false n) :: prs) by (unfold params; rewrite EA; exact EP).
  rewrite EQ in Rl |- *. inversion Rl as [|a ? es ? Ra Res]; subst. 
  unfold pg_change_origin. cbn [g_elems g_ndim g_cell mapM bind].
  assert (GR : Forall (fun pr => good_perm n (fst pr)) prs).
  { apply Forall_forall. intros (p & r) I. assert (I' : In (p, r) (params extent pbc)) by (rewrite EQ; now right).
    assert (F0 : Forall (fun pr : list nat * list bool => length (snd pr) = 0) (map (fun p => (p, [])) (allowed extent pbc))).
    { apply Forall_forall. intros x Ix. apply in_map_iff in Ix. destruct Ix as (y & <- & _). reflexivity. }
    apply (proj1 (rounds_in n 0 _ F0 p r)) in I'. destruct I' as (_ & I'). apply in_map_iff in I'. destruct I' as (y & Ey & Iy). injection Ey as <-. now apply GP. }
  assert (X : exists es', mapM (fun a => match a with EId => Ok EId | ESym p => let? q := change_origin p (origin_of extent pbc) in Ok (ESym q) end) es = Ok es' /\
     Forall2 (is_about n (origin_of extent pbc)) es' prs).
  { clear - Res GR. set (o := origin_of extent pbc). induction Res as [|a (p & r) es prs Ha Res IH]; [exists []; split; [reflexivity|constructor]|].
    inversion GR as [|? ? Hp GR']; subst. destruct (IH GR') as (es' & E' & R'). cbn [mapM]. destruct Ha as (G & M & W). cbn [fst snd] in *.
    destruct a as [|s].
    - exists (EId :: es'). cbn [bind]. rewrite E'. split; [reflexivity|]. constructor; [|exact R']. split; [exact I|]. split; [exact M|]. cbn [fst snd].
      intros i Hi. cbn [e_translation]. assert (X : mvec n (smat p r) o i = o i); [|rewrite X; ring].
      unfold mvec. rewrite (qs_ext n _ (fun k => eye i k * o k)%Qc) by (intros k Hk; now rewrite <- (M i k Hi Hk)). now apply eye_l.
    - destruct G as [Gn Gp]. rewrite (change_fields s o Gp). cbn [bind]. eexists. rewrite E'. split; [reflexivity|]. constructor; [|exact R'].
      split; [split; [exact Gn|exact Gp]|]. split; [exact M|]. cbn [fst snd e_translation p_w]. rewrite Gn. intros i Hi. rewrite eye_minus by exact Hi.
      assert (X : mvec n (p_W s) o i = mvec n (smat p r) o i); [|now rewrite X].
      unfold mvec. apply qs_ext. intros k Hk. cbn [e_matrix] in M. now rewrite (M i k Hi Hk). }
  destruct X as (es' & Ees & Res'). rewrite Ees. cbn [bind]. eexists. split; [reflexivity|]. split; [reflexivity|]. constructor; [|exact Res'].
  split; [exact I|]. split; [apply eye_smat|]. cbn [fst snd e_translation]. intros i Hi. assert (X : mvec n (smat (seq 0 n) (repeat false n)) (origin_of extent pbc) i = origin_of extent pbc i); [|rewrite X; ring].
  unfold mvec. rewrite (qs_ext n _ (fun k => eye i k * origin_of extent pbc k)%Qc) by (intros k Hk; now rewrite <- (eye_smat n i k Hi Hk)). now apply eye_l.
Qed.

(** ** what the parameters range over *)
Lemma allowed_in extent pbc p : boxed extent pbc ->
  (In p (allowed extent pbc) <-> good_perm (length extent) p /\ keeps_box extent pbc (fun i => nth i p 0)).
Proof.
  intros [Hl He]. unfold allowed. rewrite filter_In, perms_in by apply seq_length. fold (good_perm (length extent) p).
  split; intros [G K]; (split; [exact G|]).
  - intros i Hi. unfold same_kinds in K. rewrite forallb_forall in K. specialize (K i). rewrite (kinds_len extent pbc Hl) in K.
    rewrite in_seq in K. specialize (K ltac:(lia)). apply Z.eqb_eq in K.
    pose proof (gp_lt _ _ i G Hi) as Hj. rewrite !nth_kinds in K by auto.
    rewrite Forall_forall in He. pose proof (He _ (nth_In extent 0%Z Hi)). pose proof (He _ (nth_In extent 0%Z Hj)).
    destruct (nth i pbc false), (nth (nth i p 0) pbc false); split; auto; lia.
  - unfold same_kinds. apply forallb_forall. intros i Hi. apply in_seq in Hi. rewrite (kinds_len extent pbc Hl) in Hi.
    assert (Hi' : i < length extent) by lia. pose proof (gp_lt _ _ i G Hi') as Hj. destruct (K i Hi') as [K1 K2].
    rewrite !nth_kinds by auto. rewrite K1, K2. apply Z.eqb_refl.
Qed.
Lemma params_in extent pbc p r : boxed extent pbc ->
  (In (p, r) (params extent pbc) <-> length r = length extent /\ good_perm (length extent) p /\ keeps_box extent pbc (fun i => nth i p 0)).
Proof.
  intros B. unfold params.
  assert (F0 : Forall (fun pr : list nat * list bool => length (snd pr) = 0) (map (fun p => (p, [])) (allowed extent pbc))).
  { apply Forall_forall. intros x Ix. apply in_map_iff in Ix. destruct Ix as (y & <- & _). reflexivity. }
  rewrite (rounds_in _ 0 _ F0). rewrite in_map_iff, <- allowed_in by exact B. cbn [Nat.add firstn]. split; intros [L H]; (split; [exact L|]).
  - destruct H as (y & E & H). injection E as <-. exact H.
  - now exists p.
Qed.
Lemma params_nodup extent pbc : NoDup (params extent pbc).
Proof.
  unfold params. apply rounds_nodup. apply FinFun.Injective_map_NoDup; [intros a b E; now injection E|].
  apply NoDup_filter, perms_nodup; [apply seq_length|apply seq_NoDup].
Qed.

Lemma about_act n o a p r x i : good_perm n p -> is_about n o a (p, r) -> i < n ->
  e_act a x i = box_map o (fun i => nth i p 0) (fun i => nth (nth i p 0) r false) x i.
Proof.
  intros G (A & M & W) Hi. cbn [fst snd] in *.
  assert (E : e_act a x i = (mvec n (e_matrix a) x i + e_translation a i)%Qc).
  { destruct a as [|s]; cbn [e_act e_matrix e_translation].
    - unfold mvec. rewrite eye_l by exact Hi. ring.
    - destruct A as [<- _]. reflexivity. }
  rewrite E, (W i Hi). assert (X : mvec n (e_matrix a) x i = mvec n (smat p r) x i) by (unfold mvec; apply qs_ext; intros k Hk; now rewrite (M i k Hi Hk)).
  rewrite X, !smat_vec by auto. unfold box_map. ring.
Qed.
Lemma origin_centre extent pbc : centre extent pbc (origin_of extent pbc).
Proof.
  intros i Hi. unfold origin_of. destruct (nth i pbc false); [reflexivity|].
  apply Qc_is_canon. unfold Qcplus. cbn [this Q2Qc]. rewrite !Qred_correct. field.
Qed.
Lemma sgn_inj a b : sgn a = sgn b -> a = b.
Proof. destruct a, b; intros H; auto; discriminate. Qed.
(** different parameters give different maps *)
Lemma box_map_inj n o p r p' r' : good_perm n p -> good_perm n p' -> length r = n -> length r' = n ->
  (forall x i, i < n -> box_map o (fun i => nth i p 0) (fun i => nth (nth i p 0) r false) x i = box_map o (fun i => nth i p' 0) (fun i => nth (nth i p' 0) r' false) x i) ->
  p = p' /\ r = r'.
Proof.
  intros G G' L L' H.
  assert (E : forall i, i < n -> nth i p 0 = nth i p' 0 /\ nth (nth i p 0) r false = nth (nth i p' 0) r' false).
  { intros i Hi. pose proof (H (fun j => o j) i Hi) as H0. pose proof (H (fun j => o j + if Nat.eqb j (nth i p 0%nat) then 1 else 0)%Qc i Hi) as H1. clear H.
    unfold box_map in *. rewrite Nat.eqb_refl in H1.
    set (s := sgn (nth (nth i p 0%nat) r false)) in *. set (s' := sgn (nth (nth i p' 0%nat) r' false)) in *.
    destruct (Nat.eqb_spec (nth i p' 0) (nth i p 0)) as [Ep|Np].
    - split; [now symmetry|]. apply sgn_inj. fold s s'.
      assert (X : (o i + s = o i + s')%Qc) by (transitivity (o i + s * (o (nth i p 0%nat) + 1 - o (nth i p 0%nat)))%Qc; [ring|rewrite H1; ring]).
      transitivity (o i + s - o i)%Qc; [ring|rewrite X; ring].
    - exfalso. assert (X : s = 0%Qc).
      { transitivity ((o i + s * (o (nth i p 0%nat) + 1 - o (nth i p 0%nat))) - o i)%Qc; [ring|]. rewrite H1. ring. }
      unfold s in X. destruct (nth (nth i p 0) r false); discriminate X. }
  assert (Ep : p = p').
  { apply (nth_ext _ _ 0 0); [now rewrite (gp_len n p G), (gp_len n p' G')|]. intros i Hi. apply E. now rewrite (gp_len n p G) in Hi. }
  subst p'. split; [reflexivity|]. apply (nth_ext _ _ false false); [lia|]. intros j Hj. destruct (gp_surj n p j G) as (i & Hi & Ei); [lia|].
  destruct (E i Hi) as [_ E2]. now rewrite Ei in E2.
Qed.

Lemma NoDup_map_in {A B} (f : A -> B) l : (forall x y, In x l -> In y l -> f x = f y -> x = y) -> NoDup l -> NoDup (map f l).
Proof.
  induction l as [|x l IH]; intros I N; [constructor|]. inversion N; subst. cbn [map]. constructor.
  - intros H. apply in_map_iff in H. destruct H as (y & E & H). assert (y = x); [|subst; contradiction]. apply I; [now right|now left|exact E].
  - apply IH; [|assumption]. intros y z Hy Hz. apply I; now right.
Qed.
Lemma good_perm_of n s : axis_perm n s -> good_perm n (map s (seq 0 n)).
Proof.
  intros [A B]. unfold good_perm. apply NoDup_Permutation_bis.
  - apply seq_NoDup.
  - rewrite map_length. auto.
  - intros x Hx. apply in_seq in Hx. 
    assert (ND : NoDup (map s (seq 0 n))).
    { apply NoDup_map_in; [intros i j Hi Hj; apply in_seq in Hi, Hj; apply B; lia|apply seq_NoDup]. }
    assert (I : incl (seq 0 n) (map s (seq 0 n))); [|apply I, in_seq; lia].
    apply NoDup_length_incl; [exact ND|now rewrite map_length|]. intros y Hy. apply in_map_iff in Hy. destruct Hy as (i & <- & Hi). apply in_seq in Hi. apply in_seq. specialize (A i). lia.
Qed.

Lemma nth_map_seq n (s : nat -> nat) i d : i < n -> nth i (map s (seq 0 n)) d = s i.
Proof. intros H. rewrite (nth_indep _ d (s 0)) by (rewrite map_length, seq_length; exact H). rewrite map_nth, seq_nth by exact H. reflexivity. Qed.
Lemma inverse_index n s : axis_perm n s -> exists t, axis_perm n t /\ (forall i, i < n -> t (s i) = i) /\ (forall j, j < n -> s (t j) = j).
Proof.
  intros S. pose proof (good_perm_of n s S) as G. destruct S as [S1 S2].
  set (t := fun j => hd 0 (filter (fun i => Nat.eqb (s i) j) (seq 0 n))).
  assert (T : forall j, j < n -> t j < n /\ s (t j) = j).
  { intros j Hj. destruct (gp_surj n _ j G Hj) as (i & Hi & E). rewrite nth_map_seq in E by exact Hi.
    assert (I : In i (filter (fun i => Nat.eqb (s i) j) (seq 0 n))) by (apply filter_In; split; [apply in_seq; lia|now apply Nat.eqb_eq]).
    unfold t. destruct (filter _ _) as [|k l] eqn:F; [destruct I|]. cbn [hd].
    assert (K : In k (filter (fun i => Nat.eqb (s i) j) (seq 0 n))) by (rewrite F; now left). apply filter_In in K. destruct K as [K1 K2].
    apply in_seq in K1. apply Nat.eqb_eq in K2. split; [lia|exact K2]. }
  exists t. split; [split; [intros j Hj; apply T, Hj|]|split].
  - intros i j Hi Hj E. rewrite <- (proj2 (T i Hi)), <- (proj2 (T j Hj)). now rewrite E.
  - intros i Hi. apply S2; [apply T, S1, Hi|exact Hi|]. apply T, S1, Hi.
  - intros j Hj. apply T, Hj.
Qed.

Lemma forall2_nth {A B} (R : A -> B -> Prop) l l' da db i : Forall2 R l l' -> i < length l -> R (nth i l da) (nth i l' db).
Proof. intros H. revert i. induction H; intros [|i] Hi; cbn in *; try lia; auto. apply IHForall2. lia. Qed.
Lemma forall2_len {A B} (R : A -> B -> Prop) l l' : Forall2 R l l' -> length l = length l'.
Proof. induction 1; cbn; auto. Qed.

(** the map of an element, as a matrix and a translation *)
Lemma elements_main extent pbc : boxed extent pbc -> exists G, grid_point_group extent pbc = Ok G /\ g_ndim G = length extent /\ g_cell G = None /\ hd_error (g_elems G) = Some EId /\
  (forall i, i < length (g_elems G) -> good (length extent) (el G i) /\
     exists s f, axis_perm (length extent) s /\ keeps_box extent pbc s /\ forall c, centre extent pbc c -> acts_as (length extent) (el G i) (box_map c s f)) /\
  (forall s f c, axis_perm (length extent) s -> keeps_box extent pbc s -> centre extent pbc c ->
     exists i, i < length (g_elems G) /\ acts_as (length extent) (el G i) (box_map c s f)) /\
  (forall i j, i < length (g_elems G) -> j < length (g_elems G) -> same_map (length extent) (el G i) (el G j) -> i = j).
Proof.
  intros B. destruct B as [Hl He] eqn:EB. clear EB. destruct (elements_ok extent pbc Hl) as (l & E & H & R). set (n := length extent) in *. set (o := origin_of extent pbc) in *.
  exists (PG l n None). split; [exact E|]. cbn [g_ndim g_cell g_elems]. split; [reflexivity|]. split; [reflexivity|]. split; [exact H|].
  pose proof (forall2_len _ _ _ R) as Len.
  assert (CU : forall c, centre extent pbc c -> forall i, i < n -> c i = o i).
  { intros c Hc i Hi. pose proof (origin_centre extent pbc i Hi) as O. specialize (Hc i Hi). fold o in O. destruct (nth i pbc false); [congruence|].
    assert (X : ((1 + 1) * c i = (1 + 1) * o i)%Qc) by (transitivity (c i + c i)%Qc; [ring|]; rewrite Hc, <- O; ring).
    transitivity ((1 + 1) * c i / (1 + 1))%Qc; [field; discriminate|rewrite X; field; discriminate]. }
  assert (BM : forall c s f x i, centre extent pbc c -> axis_perm n s -> i < n -> box_map c s f x i = box_map o s f x i).
  { intros c s f x i Hc [S1 _] Hi. unfold box_map. now rewrite (CU c Hc i Hi), (CU c Hc (s i) (S1 i Hi)). }
  assert (PE : forall i, i < length l -> exists p r, nth i (params extent pbc) ([], []) = (p, r) /\ length r = n /\ good_perm n p /\ keeps_box extent pbc (fun i => nth i p 0) /\ is_about n o (nth i l EId) (p, r)).
  { intros i Hi. destruct (nth i (params extent pbc) ([], [])) as [p r] eqn:EP. exists p, r. split; [reflexivity|].
    assert (I : In (p, r) (params extent pbc)) by (rewrite <- EP; apply nth_In; lia). apply params_in in I; [|exact B]. destruct I as (I1 & I2 & I3).
    split; [exact I1|]. split; [exact I2|]. split; [exact I3|]. rewrite <- EP. now apply forall2_nth. }
  assert (AP : forall p, good_perm n p -> axis_perm n (fun i => nth i p 0)).
  { intros p G. split; [intros i Hi; now apply (gp_lt n)|intros i j Hi Hj; now apply (gp_inj n)]. }
  split; [|split].
  - intros i Hi. destruct (PE i Hi) as (p & r & _ & Lr & G & K & A). unfold el. cbn [g_elems]. split; [exact (proj1 A)|].
    exists (fun i => nth i p 0), (fun i => nth (nth i p 0) r false). split; [now apply AP|]. split; [exact K|]. intros c Hc x k Hk. rewrite BM by auto.
    now apply (about_act n).
  - intros s f c S K Hc. pose proof (good_perm_of n s S) as G. destruct (inverse_index n s S) as (t & T & TS & ST).
    set (p := map s (seq 0 n)) in *. set (r := map (fun j => f (t j)) (seq 0 n)).
    assert (I : In (p, r) (params extent pbc)).
    { apply params_in; [exact B|]. split; [unfold r; now rewrite map_length, seq_length|]. split; [exact G|]. intros i Hi. unfold p. rewrite nth_map_seq by exact Hi. now apply K. }
    apply (In_nth _ _ ([], [])) in I. destruct I as (i & Hi & Ei). exists i. split; [lia|]. destruct (PE i) as (p' & r' & E' & _ & _ & _ & A); [lia|].
    rewrite Ei in E'. injection E' as <- <-. intros x k Hk. unfold el. cbn [g_elems]. rewrite (about_act n o _ p r) by auto. rewrite (BM c s f x k) by auto.
    unfold box_map. assert (Ek : nth k p 0 = s k) by (unfold p; now rewrite nth_map_seq). rewrite Ek. destruct S as [S1 S2]. pose proof (S1 k Hk) as Sk.
    assert (X : nth (s k) r false = f k); [|now rewrite X]. unfold r. set (g := fun j => f (t j)).
    rewrite (nth_indep _ false (g 0)) by (rewrite map_length, seq_length; exact Sk). rewrite map_nth, seq_nth by exact Sk. unfold g. cbn [Nat.add]. now rewrite TS.
  - intros i j Hi Hj S. destruct (PE i Hi) as (p & r & E1 & L1 & G1 & K1 & A1). destruct (PE j Hj) as (p' & r' & E2 & L2 & G2 & K2 & A2).
    assert (X : p = p' /\ r = r').
    { apply (box_map_inj n o); auto. intros x k Hk. rewrite <- (about_act n o (nth i l EId) p r), <- (about_act n o (nth j l EId) p' r') by auto. now apply S. }
    destruct X as [-> ->]. apply (proj1 (NoDup_nth (params extent pbc) ([], [])) (params_nodup extent pbc)); [lia|lia|congruence].
Qed.
