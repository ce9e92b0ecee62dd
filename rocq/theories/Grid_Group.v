(** Proofs of C90: the point group of a grid is a group, and its tables exist. *)
From Coq Require Import List Arith Bool ZArith QArith Qcanon Qabs Permutation Lia Lqa.
From Verif Require Import Base BaseFacts Rings FloatCmp_Model FloatCmp_Spec LatGen_Model PointGp_Model PointGp_Spec PointGp_Lin PointGp_Proofs PointGp_Tables PointGp_Group
  SpaceGp_Model Grid_Model Grid_Spec Grid_Proofs.
Import ListNotations.
Open Scope nat_scope.

Lemma perm_comp n s t : axis_perm n s -> axis_perm n t -> axis_perm n (fun i => t (s i)).
Proof. intros [A B] [C D]. split; [auto|]. intros i j Hi Hj E. apply B; auto. Qed.
Lemma keeps_comp extent pbc s t : axis_perm (length extent) s -> keeps_box extent pbc s -> keeps_box extent pbc t -> keeps_box extent pbc (fun i => t (s i)).
Proof. intros [A _] S T i Hi. destruct (S i Hi) as [S1 S2], (T (s i) (A i Hi)) as [T1 T2]. split; congruence. Qed.
Lemma keeps_inv extent pbc s t : axis_perm (length extent) t -> (forall j, j < length extent -> s (t j) = j) -> keeps_box extent pbc s -> keeps_box extent pbc t.
Proof. intros [A _] E S i Hi. destruct (S (t i) (A i Hi)) as [S1 S2]. rewrite (E i Hi) in *. split; congruence. Qed.
Lemma sgn_xor a b : sgn (xorb a b) = (sgn a * sgn b)%Qc.
Proof. destruct a, b; cbn; ring. Qed.
Lemma box_comp n c s f s' f' x i : axis_perm n s -> i < n ->
  box_map c s f (box_map c s' f' x) i = box_map c (fun i => s' (s i)) (fun i => xorb (f i) (f' (s i))) x i.
Proof. intros _ _. unfold box_map. rewrite sgn_xor. ring. Qed.
Lemma box_inv n c s f t x i : (forall i, i < n -> t (s i) = i) -> i < n ->
  box_map c s f (box_map c t (fun j => f (t j)) x) i = x i.
Proof. intros E Hi. unfold box_map. rewrite (E i Hi). transitivity (c i + sgn (f i) * sgn (f i) * (x i - c i))%Qc; [ring|]. rewrite sgn_sq. ring. Qed.
Lemma box_ext n c s f x y i : axis_perm n s -> i < n -> veq n x y -> box_map c s f x i = box_map c s f y i.
Proof. intros [S _] Hi E. unfold box_map. now rewrite (E (s i) (S i Hi)). Qed.

(** an element acts by its matrix and translation *)
Lemma act_affine n a x i : good n a -> i < n -> e_act a x i = (mvec n (e_matrix a) x i + e_translation a i)%Qc.
Proof.
  intros G Hi. destruct a as [|p]; cbn [e_act e_matrix e_translation].
  - rewrite mvec_eye by exact Hi. ring.
  - destruct G as [<- _]. reflexivity.
Qed.
Lemma unit_vec n A i j : j < n -> mvec n A (fun k => eye k j) i = A i j.
Proof. intros Hj. unfold mvec. now apply eye_r. Qed.
Lemma affine_eq n A a B b : (forall x i, i < n -> (mvec n A x i + a i = mvec n B x i + b i)%Qc) -> meq n A B /\ veq n a b.
Proof.
  intros H. assert (T : veq n a b).
  { intros i Hi. specialize (H (fun _ => 0%Qc) i Hi). unfold mvec in H. rewrite !qs_zero in H by (intros; ring).
    transitivity (0 + a i)%Qc; [ring|]. rewrite H. ring. }
  split; [|exact T]. intros i j Hi Hj. specialize (H (fun k => eye k j) i Hi). rewrite !unit_vec in H by exact Hj. rewrite (T i Hi) in H.
  transitivity (A i j + b i - b i)%Qc; [ring|]. rewrite H. ring.
Qed.
Lemma matrix_of n a c s f i j : good n a -> axis_perm n s -> acts_as n a (box_map c s f) -> i < n -> j < n ->
  e_matrix a i j = if Nat.eqb j (s i) then sgn (f i) else 0%Qc.
Proof.
  intros G S A Hi Hj. pose proof (A (fun k => eye k j) i Hi) as H1. pose proof (A (fun _ => 0%Qc) i Hi) as H0.
  rewrite (act_affine n) in H0, H1 by auto. rewrite unit_vec in H1 by exact Hj. unfold mvec in H0. rewrite qs_zero in H0 by (intros; ring).
  unfold box_map in *. transitivity ((e_matrix a i j + e_translation a i) - (0 + e_translation a i))%Qc; [ring|]. rewrite H0, H1. unfold eye.
  rewrite (Nat.eqb_sym (s i) j). destruct (Nat.eqb j (s i)); ring.
Qed.
Lemma near_sgn b x : near (sgn b) x -> (x = sgn true \/ x = 0 \/ x = sgn false)%Qc -> x = sgn b.
Proof.
  unfold near, width. intros N [ -> | [ -> | -> ] ]; destruct b; auto; exfalso; vm_compute in N; now apply N.
Qed.

Lemma group_main extent pbc : boxed extent pbc -> exists G, grid_point_group extent pbc = Ok G /\
  (forall i j, i < length (g_elems G) -> j < length (g_elems G) -> exists k, k < length (g_elems G) /\
     forall x, veq (length extent) (e_act (el G k) x) (e_act (el G i) (e_act (el G j) x))) /\
  (forall i, i < length (g_elems G) -> exists k, k < length (g_elems G) /\
     forall x, veq (length extent) (e_act (el G k) (e_act (el G i) x)) x) /\
  forall minv, (forall W, orthogonal (length extent) W -> inverse_of (length extent) W (minv (length extent) W)) ->
    exists t P, pg_inverse minv G = Ok t /\ pg_product_table minv G = Ok P /\
      (forall i, i < length (g_elems G) -> nth i t 0 < length (g_elems G) /\ forall x, veq (length extent) (e_act (el G i) (e_act (el G (nth i t 0)) x)) x) /\
      (forall i j, i < length (g_elems G) -> j < length (g_elems G) -> nth j (nth i P []) 0 < length (g_elems G) /\
         forall x, veq (length extent) (e_act (el G i) (e_act (el G (nth j (nth i P []) 0)) x)) (e_act (el G j) x)).
Proof.
  intros B. destruct (elements_main extent pbc B) as (G & E & Nd & Cell & _ & Each & All & Inj). set (n := length extent) in *.
  exists G. split; [exact E|]. set (c := origin_of extent pbc). pose proof (origin_centre extent pbc) as Hc. fold c in Hc.
  assert (MUL : forall i j, i < length (g_elems G) -> j < length (g_elems G) -> exists k, k < length (g_elems G) /\
     forall x, veq n (e_act (el G k) x) (e_act (el G i) (e_act (el G j) x))).
  { intros i j Hi Hj. destruct (Each i Hi) as (Gi & s & f & S & K & A). destruct (Each j Hj) as (Gj & s' & f' & S' & K' & A'). specialize (A c Hc). specialize (A' c Hc).
    destruct (All (fun i => s' (s i)) (fun i => xorb (f i) (f' (s i))) c) as (k & Hk & Ak); [now apply perm_comp|now apply keeps_comp|exact Hc|].
    exists k. split; [exact Hk|]. intros x d Hd. rewrite (Ak x d Hd), (A _ d Hd), <- (box_comp n) by auto. apply (box_ext n); auto. intros e He. symmetry. now apply A'. }
  assert (INV : forall i, i < length (g_elems G) -> exists k, k < length (g_elems G) /\ forall x, veq n (e_act (el G k) (e_act (el G i) x)) x).
  { intros i Hi. destruct (Each i Hi) as (Gi & s & f & S & K & A). specialize (A c Hc). destruct (inverse_index n s S) as (t & T & TS & ST).
    destruct (All t (fun j => f (t j)) c) as (k & Hk & Ak); [exact T|now apply (keeps_inv extent pbc s)|exact Hc|]. exists k. split; [exact Hk|].
    intros x d Hd. rewrite (Ak _ d Hd). rewrite (box_ext n c t _ _ _ d T Hd (A x)).
    unfold box_map. rewrite (ST d Hd). transitivity (c d + sgn (f (t d)) * sgn (f (t d)) * (x d - c d))%Qc; [ring|]. rewrite sgn_sq. ring. }
  split; [exact MUL|]. split; [exact INV|]. intros minv MI.
  assert (VC : valid_cell G) by (unfold valid_cell; now rewrite Cell).
  assert (ORT : forall i, i < length (g_elems G) -> orthogonal n (e_matrix (el G i))).
  { intros i Hi. destruct (Each i Hi) as (Gi & _). destruct (el G i) as [|p]; cbn [e_matrix].
    - intros a b Ha Hb. unfold mmul, tr. rewrite (eye_r n b (fun k => eye k a)) by exact Hb. unfold eye. now rewrite Nat.eqb_sym.
    - destruct Gi as [<- Gp]. exact Gp. }
  assert (PROD : forall i j x d, i < length (g_elems G) -> j < length (g_elems G) -> d < n ->
     e_act (el G i) (e_act (el G j) x) d = (mvec n (prod_W G (el G i) (el G j)) x d + prod_w G (el G i) (el G j) d)%Qc).
  { intros i j x d Hi Hj Hd. rewrite (act_affine n) by (auto; apply Each; auto). unfold prod_W, prod_w. rewrite Nd. rewrite mvec_mmul.
    rewrite (mvec_ext n _ (e_matrix (el G i)) _ (fun k => mvec n (e_matrix (el G j)) x k + e_translation (el G j) k)%Qc d Hd).
    - rewrite mvec_add. ring.
    - intros a b _ _. reflexivity.
    - intros k Hk. apply act_affine; auto. apply Each; auto. }
  destruct (group_law G minv VC) as (t & P & Et & EP & Ht & HP).
  - (* distinct *)
    intros i j Hi Hj [NM _]. rewrite Nd in NM. apply Inj; auto. destruct (Each i Hi) as (Gi & s & f & S & K & A). destruct (Each j Hj) as (Gj & s' & f' & S' & K' & A').
    specialize (A c Hc). specialize (A' c Hc).
    assert (X : forall d, d < n -> s d = s' d /\ f d = f' d).
    { intros d Hd. pose proof (proj1 S d Hd) as Hs. specialize (NM d (s d) Hd Hs). rewrite (matrix_of n _ c s f) in NM by auto. rewrite (matrix_of n _ c s' f') in NM by auto.
      rewrite Nat.eqb_refl in NM. apply near_sgn in NM; [|destruct (Nat.eqb (s d) (s' d)); [destruct (f' d); cbn; auto|auto]].
      destruct (Nat.eqb_spec (s d) (s' d)) as [Es|Ns]; [|destruct (f d); discriminate NM]. split; [exact Es|]. now apply sgn_inj. }
    intros x d Hd. rewrite (A x d Hd), (A' x d Hd). unfold box_map. destruct (X d Hd) as [-> ->]. reflexivity.
  - intros i Hi. rewrite Nd. split; [now apply MI, ORT|]. unfold keeps_lattice. now rewrite Cell.
  - intros i j Hi Hj. destruct (MUL i j Hi Hj) as (k & Hk & M). exists k. split; [exact Hk|]. unfold equal_mod. rewrite Cell, Nd.
    apply affine_eq. intros x d Hd. rewrite <- PROD by auto. rewrite <- (act_affine n) by (auto; apply Each; auto). now apply M.
  - intros i Hi. destruct (INV i Hi) as (k & Hk & M). exists k. split; [exact Hk|]. unfold equal_mod. rewrite Cell, Nd.
    assert (PX : meq n (prod_W G (el G k) (el G i)) eye /\ veq n (prod_w G (el G k) (el G i)) (fun _ => 0%Qc)).
    { apply affine_eq. intros x d Hd. rewrite <- PROD by auto. rewrite (M x d Hd), mvec_eye by exact Hd. ring. }
    destruct PX as [PW Pw]. unfold prod_W, prod_w in PW, Pw. rewrite Nd in PW, Pw.
    destruct (MI _ (ORT i Hi)) as [I1 I2]. unfold inv_w, inv_W. rewrite Nd. set (M' := e_matrix (el G i)) in *. set (V := minv n M') in *. set (Ak := e_matrix (el G k)) in *.
    assert (EW : meq n Ak V).
    { apply (meq_trans n _ (mmul n Ak (mmul n M' V))).
      - apply (meq_trans n _ (mmul n Ak eye)); [apply meq_sym, mmul_eye_r|]. apply mmul_ext; [intros a b _ _; reflexivity|now apply meq_sym].
      - apply (meq_trans n _ (mmul n (mmul n Ak M') V)); [intros a b _ _; symmetry; apply mmul_assoc|].
        apply (meq_trans n _ (mmul n eye V)); [|apply mmul_eye_l]. apply mmul_ext; [exact PW|intros a b _ _; reflexivity]. }
    split; [exact EW|]. intros d Hd. specialize (Pw d Hd). cbn beta in Pw.
    rewrite <- (mvec_ext n Ak V (e_translation (el G i)) (e_translation (el G i)) d Hd EW) by (intros a _; reflexivity).
    transitivity (mvec n Ak (e_translation (el G i)) d + e_translation (el G k) d - mvec n Ak (e_translation (el G i)) d)%Qc; [ring|]. rewrite Pw. ring.
  - exists t, P. split; [exact Et|]. split; [exact EP|]. split.
    + intros i Hi. destruct (Ht i Hi) as [L M]. split; [exact L|]. unfold equal_mod in M. rewrite Cell, Nd in M. destruct M as [M1 M2].
      intros x d Hd. rewrite PROD by auto. rewrite <- (M2 d Hd). rewrite <- (mvec_ext n _ _ x x d Hd M1) by (intros a _; reflexivity). rewrite mvec_eye by exact Hd. ring.
    + intros i j Hi Hj. destruct (HP i j Hi Hj) as [L M]. split; [exact L|]. unfold equal_mod in M. rewrite Cell, Nd in M. destruct M as [M1 M2].
      intros x d Hd. rewrite PROD by auto. rewrite <- (M2 d Hd). rewrite <- (mvec_ext n _ _ x x d Hd M1) by (intros a _; reflexivity).
      symmetry. apply act_affine; auto. apply Each; auto.
Qed.
