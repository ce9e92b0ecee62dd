(** Concrete groups for the examples and refutations of C86. *)
From Coq Require Import List Arith Bool ZArith QArith Qcanon Qabs Lia Lqa.
From Verif Require Import Base BaseFacts Rings FloatCmp_Model FloatCmp_Spec FloatCmp_Proofs LatGen_Model
  PointGp_Model PointGp_Spec PointGp_Lin PointGp_Proofs PointGp_Tables PointGp_Group.
Import ListNotations.
Open Scope nat_scope.

Ltac qcv := vm_compute; apply Qc_is_canon; reflexivity.
Ltac small := repeat match goal with H : ?i < 0 |- _ => exfalso; exact (Nat.nlt_0_r _ H) | H : S _ < S _ |- _ => apply Nat.succ_lt_mono in H | H : ?i < S _ |- _ => is_var i; destruct i as [|i]; [clear H|] end.

(** reflection in the first axis with a half translation: a glide *)
Definition ex_W : mat := fun i j => if Nat.eqb i j then (if Nat.eqb i 0 then 1 else - (1))%Qc else 0%Qc.
Definition ex_w : vec := fun i => if Nat.eqb i 0 then Q2Qc (1 # 2) else 0%Qc.
Definition ex_glide : pgs := PGS 2 ex_W ex_w.
Definition ex_group : point_group := PG [EId; ESym ex_glide] 2 (Some (eye, eye)).
Definition ex_minv (n : nat) (A : mat) : mat := tr A.

Lemma ex_orthogonal : proper_map ex_glide.
Proof. intros i j Hi Hj. cbn [ex_glide p_n] in *. small; qcv. Qed.
Lemma ex_eye : inverse_of 2 eye eye.
Proof. split; intros i j Hi Hj; small; qcv. Qed.
Lemma ex_cell : valid_cell ex_group.
Proof. exact ex_eye. Qed.
Lemma ex_distinct : distinct ex_group.
Proof.
  intros i j Hi Hj [A _]. cbn [ex_group g_elems length g_ndim] in *. assert (L : 1 < 2) by lia. specialize (A 1 1 L L).
  small; try reflexivity; exfalso; vm_compute in A; now apply A.
Qed.
Lemma ex_keeps i : i < 2 -> keeps_lattice ex_group (e_matrix (el ex_group i)).
Proof.
  intros Hi v [m H]. cbn [ex_group g_ndim] in *.
  assert (E : forall k, k < 2 -> v k = Q2Qc (inject_Z (m k))).
  { intros k Hk. rewrite H by exact Hk. small; cbn [fsum qC T r0 radd eye Nat.eqb]; ring. }
  exists (fun k => if Nat.eqb i 0 then m k else if Nat.eqb k 0 then m k else (- m k)%Z).
  intros k Hk. unfold mvec. cbn [fsum qC T r0 radd]. rewrite (E 0), (E 1) by lia. small;
    cbn [fsum qC T r0 radd eye Nat.eqb el ex_group g_elems nth e_matrix ex_glide p_W ex_W]; rewrite ?inject_opp; ring.
Qed.
Lemma ex_lattice v m : (forall i, i < 2 -> v i = Q2Qc (inject_Z (m i))) -> lattice_vector 2 eye v.
Proof. intros H. exists m. intros i Hi. rewrite H by exact Hi. small; cbn [fsum qC T r0 radd eye Nat.eqb]; ring. Qed.
Lemma ex_closed i j : i < 2 -> j < 2 -> exists k, k < 2 /\
  equal_mod ex_group (e_matrix (el ex_group k)) (e_translation (el ex_group k)) (prod_W ex_group (el ex_group i) (el ex_group j)) (prod_w ex_group (el ex_group i) (el ex_group j)).
Proof.
  intros Hi Hj. exists (if Nat.eqb i j then 0 else 1). split; [destruct (Nat.eqb i j); lia|]. split.
  - intros a b Ha Hb. cbn [ex_group g_ndim] in *. small; qcv.
  - cbn [ex_group g_cell g_ndim]. apply (ex_lattice _ (fun a => if (Nat.eqb i 1 && Nat.eqb j 1 && Nat.eqb a 0)%bool then (-1)%Z else 0%Z)).
    intros a Ha. small; qcv.
Qed.
Lemma ex_inverse i : i < 2 -> exists k, k < 2 /\
  equal_mod ex_group (e_matrix (el ex_group k)) (e_translation (el ex_group k)) (inv_W ex_minv ex_group (el ex_group i)) (inv_w ex_minv ex_group (el ex_group i)).
Proof.
  intros Hi. exists i. split; [exact Hi|]. split.
  - intros a b Ha Hb. cbn [ex_group g_ndim] in *. small; qcv.
  - cbn [ex_group g_cell g_ndim]. apply (ex_lattice _ (fun a => if (Nat.eqb i 1 && Nat.eqb a 0)%bool then 1%Z else 0%Z)).
    intros a Ha. small; qcv.
Qed.
Lemma ex_minv_ok i : i < 2 -> inverse_of 2 (e_matrix (el ex_group i)) (ex_minv 2 (e_matrix (el ex_group i))).
Proof. intros Hi. split; intros a b Ha Hb; small; qcv. Qed.
Lemma ex_tables : pg_inverse ex_minv ex_group = Ok [0; 1] /\ pg_product_table ex_minv ex_group = Ok [[0; 1]; [1; 0]].
Proof. split; vm_compute; reflexivity. Qed.
(** without its unit cell the set is not closed *)
Lemma ex_open : pg_product_table ex_minv (PG [EId; ESym ex_glide] 2 None) = Err RuntimeError.
Proof. vm_compute. reflexivity. Qed.

(** quarter turn *)
Definition ex_R : mat := fun i j => if (Nat.eqb i 0 && Nat.eqb j 1)%bool then (- (1))%Qc else if (Nat.eqb i 1 && Nat.eqb j 0)%bool then 1%Qc else 0%Qc.
Definition ex_turn : pgs := PGS 2 ex_R (fun _ => 0%Qc).
Lemma ex_turn_ok : proper_map ex_turn.
Proof. intros i j Hi Hj. cbn [ex_turn p_n] in *. small; qcv. Qed.
Definition ex_mixed : point_group := PG [EId; ESym ex_turn; ESym ex_glide] 2 None.
Lemma ex_mixed_good a : In a (g_elems ex_mixed) -> good (g_ndim ex_mixed) a.
Proof. intros [<-|[<-|[<-|[]]]]; cbn [good]; auto; split; try reflexivity; [apply ex_turn_ok|apply ex_orthogonal]. Qed.
Lemma ex_rotations : g_elems (rotation_group ex_mixed) = [EId; ESym ex_turn].
Proof. unfold rotation_group, ex_mixed. cbn [g_elems filter]. replace (is_proper ex_turn) with true by (vm_compute; reflexivity). replace (is_proper ex_glide) with false by (vm_compute; reflexivity). reflexivity. Qed.

(** duplicates *)
Definition ex_dup : point_group := PG [EId; ESym (PGS 2 eye (fun _ => 0%Qc)); ESym ex_turn] 2 None.
Lemma ex_dedup : pg_remove_duplicates ex_dup = PG [EId; ESym ex_turn] 2 None.
Proof. unfold pg_remove_duplicates. replace (first_index ex_dup) with [0; 2] by (vm_compute; reflexivity). reflexivity. Qed.

(** ** refutations *)
Definition ex_stretch : mat := fun i j => if Nat.eqb i j then Q2Qc (250001 # 250000) else 0%Qc.
Lemma ex_stretch_facts : exists p, pg_symmetry 1 1 ex_stretch None = Ok p /\ pg_product p p = Err ValueError /\
  preimage p (act p (fun _ => 1%Qc)) 0 <> 1%Qc.
Proof.
  exists (PGS 1 ex_stretch (fun _ => 0%Qc)). split; [|split].
  - unfold pg_symmetry. cbn [Nat.eqb negb]. replace (allclose 1 1 (mmul 1 (tr ex_stretch) ex_stretch) eye) with true by (vm_compute; reflexivity). reflexivity.
  - vm_compute. reflexivity.
  - intros H. apply (f_equal this) in H. vm_compute in H. discriminate.
Qed.
Lemma eq_no_cell l n l' n' : pg_group_eq (PG l n None) (PG l' n' None) = Err TypeError.
Proof. reflexivity. Qed.
Lemma eq_not_symmetric : exists G H, valid_cell G /\ valid_cell H /\ pg_group_eq G H = Ok true /\ pg_group_eq H G = Err IndexError.
Proof.
  exists (PG [EId] 2 (Some (eye, eye))), (PG [EId; ESym ex_turn] 2 (Some (eye, eye))).
  split; [exact ex_eye|]. split; [exact ex_eye|]. split; vm_compute; reflexivity.
Qed.
Lemma identity_differs : exists p, pg_symmetry 2 2 eye None = Ok p /\ e_eqb EId (ESym p) = false /\ same_map 2 EId (ESym p).
Proof.
  exists (PGS 2 eye (fun _ => 0%Qc)). split; [|split].
  - unfold pg_symmetry. cbn [Nat.eqb negb]. replace (allclose 2 2 (mmul 2 (tr eye) eye) eye) with true by (vm_compute; reflexivity). reflexivity.
  - reflexivity.
  - intros x i Hi. cbn [e_act]. unfold act. cbn [p_n p_W p_w]. rewrite mvec_eye by exact Hi. ring.
Qed.
