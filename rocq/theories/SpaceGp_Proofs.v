(** Proofs behind C87. *)
From Coq Require Import List Arith Bool ZArith QArith Qcanon Permutation Lia.
From Verif Require Import Base BaseFacts Rings FloatCmp_Model FloatCmp_Proofs Lattice_Model Lattice_Spec LatGen_Model LatGen_Spec LatGen_Proofs LatGen_Look
  PointGp_Model PointGp_Spec PointGp_Lin PointGp_Proofs PointGp_Tables PointGp_Group
  Group_Model Group_Spec Group_Proofs Lattice_Trans SpaceGp_Model SpaceGp_Spec.
Import ListNotations.
Open Scope nat_scope.

Lemma zc_add a b : zc (a + b) = (zc a + zc b)%Qc.
Proof. apply inject_add. Qed.
Lemma zc_opp a : zc (- a) = (- zc a)%Qc.
Proof. apply inject_opp. Qed.
Lemma zc_sub a b : zc (a - b) = (zc a - zc b)%Qc.
Proof. unfold Z.sub. rewrite zc_add, zc_opp. ring. Qed.
Lemma zc_0 : zc 0 = 0%Qc.
Proof. reflexivity. Qed.
Lemma zc_inj a b : zc a = zc b -> a = b.
Proof.
  intros H. assert (E : (this (zc a) == this (zc b))%Q) by (rewrite H; reflexivity). unfold zc in E. rewrite !Qc_of_this in E.
  unfold Qeq, inject_Z in E. cbn in E. lia.
Qed.

(** ** points of the box *)
Section Points.
Variable L : glattice.
Lemma same_refl v : same_point L v v.
Proof. exists (fun _ => 0%Z). split; [reflexivity|]. intros d _. cbn [Z.mul]. rewrite zc_0. ring. Qed.
Lemma same_sym v v' : same_point L v v' -> same_point L v' v.
Proof.
  intros [n [A B]]. exists (fun d => - n d)%Z. split; [intros d H1 H2; rewrite A by assumption; reflexivity|].
  intros d Hd. rewrite B by exact Hd. rewrite Z.mul_opp_l, zc_opp. ring.
Qed.
Lemma same_trans v v' v'' : same_point L v v' -> same_point L v' v'' -> same_point L v v''.
Proof.
  intros [n [A B]] [n' [A' B']]. exists (fun d => n d + n' d)%Z. split; [intros d H1 H2; rewrite A, A' by assumption; reflexivity|].
  intros d Hd. rewrite B, B' by exact Hd. rewrite Z.mul_add_distr_r, zc_add. ring.
Qed.
Lemma same_ext v v' : (forall d, d < dimension L -> v d = v' d) -> same_point L v v'.
Proof. intros H. exists (fun _ => 0%Z). split; [reflexivity|]. intros d Hd. rewrite H by exact Hd. cbn [Z.mul]. rewrite zc_0. ring. Qed.
End Points.

Lemma forall2_from_nth {A B} (R : A -> B -> Prop) l l' da db : length l = length l' -> (forall i, i < length l -> R (nth i l da) (nth i l' db)) -> Forall2 R l l'.
Proof.
  revert l'. induction l as [|x l IH]; intros [|y l'] E H; try discriminate; constructor.
  - apply (H 0). cbn. lia.
  - apply IH; [cbn in E; lia|]. intros i Hi. apply (H (S i)). cbn. lia.
Qed.
Lemma nth_moved g n y d : length n = length (g_extent g) -> length y = length (g_extent g) -> d < length (g_extent g) ->
  nth d (moved g n y) 0%Q = (nth d y 0 + inject_Z (nth d n 0%Z * nth d (g_extent g) 0%Z))%Q.
Proof.
  unfold moved. generalize (g_extent g). intros es. revert n y d. induction es as [|e es IH]; intros [|k n] [|x y] d Ln Ly Hd; cbn in *; try lia.
  destruct d as [|d]; [reflexivity|]. apply IH; lia.
Qed.

Section Sites.
Variable L : glattice.
Hypothesis PL : proper_lattice L.
Let N := n_nodes L.
Let D := dimension L.

Lemma id_at v k : k < N -> same_point L v (place L k) -> id_from_position L (pos_list D v) = Ok k.
Proof.
  destruct PL as (g & V & S & HL & Sep). intros Hk [n [A B]]. destruct (L_facts g L V HL) as (Eg & Nd & Box).
  unfold place, same_point, dimension, N, n_nodes, separated, D in *. rewrite Eg in *. set (es := g_extent g) in *.
  assert (Ln : length (map n (seq 0 (length es))) = length es) by now rewrite map_length, seq_length.
  assert (Lf : length (frac g (nth k (gl_sites L) [])) = length es) by (apply frac_len; [exact S|apply Box, nth_In; exact Hk]).
  apply (id_exact g L V S HL k (map n (seq 0 (length es)))); [exact Sep|exact Hk| |].
  - split; [exact Ln|]. apply Forall_forall. intros [z p] Hz Hp. cbn [fst snd] in *. subst p.
    apply (In_nth _ _ (0%Z, true)) in Hz. destruct Hz as (d & Hd & E). rewrite combine_length in Hd. fold es in Hd.
    rewrite combine_nth in E by (destruct V as [V _]; fold es in V; lia). injection E as E1 E2.
    rewrite (nth_indep _ 0%Z (n 0)) in E1 by lia. rewrite (map_nth n), seq_nth in E1 by lia. subst z. apply A; [lia|].
    rewrite <- E2. apply nth_indep. lia.
  - assert (Dm : dimension L = length es) by (unfold dimension; now rewrite Eg). rewrite Dm.
    apply (forall2_from_nth _ _ _ 0%Q 0%Q).
    + unfold pos_list, moved. rewrite !map_length, seq_length, !combine_length, map_length, seq_length. fold es. lia.
    + unfold pos_list at 1. rewrite map_length, seq_length. intros d Hd. rewrite nth_moved by (fold es; assumption). fold es.
      unfold pos_list. rewrite (nth_indep _ 0%Q (this (v 0))) by (rewrite map_length, seq_length; exact Hd).
      rewrite (map_nth (fun d => this (v d))), seq_nth by exact Hd. cbn [Nat.add]. rewrite B by exact Hd. rewrite Qc_add_this. unfold pos_vec, zc. rewrite !Qc_of_this.
      assert (En : nth d (map n (seq 0 (length es))) 0%Z = n d); [|now rewrite En].
      rewrite (nth_indep _ 0%Z (n 0)) by lia. now rewrite (map_nth n), seq_nth by exact Hd.
Qed.
Lemma same_site j k : j < N -> k < N -> same_point L (place L j) (place L k) -> j = k.
Proof.
  intros Hj Hk H. pose proof (id_at _ _ Hk H) as E. pose proof (id_at _ _ Hj (same_refl L _)) as E'. congruence.
Qed.

Lemma nth_positions i : i < N -> pos_vec (nth i (positions L) []) = place L i.
Proof.
  intros Hi. unfold positions, place. rewrite (nth_indep _ [] (frac (gl_geom L) [])) by (rewrite map_length; exact Hi). now rewrite (map_nth (frac (gl_geom L))).
Qed.
Lemma ids_ok f : (forall i, i < N -> exists k, k < N /\ same_point L (f (place L i)) (place L k)) ->
  exists p, ids_of L f = Ok p /\ length p = N /\ forall i, i < N -> nth i p 0 < N /\ same_point L (f (place L i)) (place L (nth i p 0)).
Proof.
  intros H. destruct (fin_choice 0 N _ H) as [h Hh]. exists (map h (seq 0 N)).
  assert (E : positions L = map (fun i => nth i (positions L) []) (seq 0 N)).
  { assert (Len : length (positions L) = N) by apply map_length. rewrite <- Len. clear. induction (positions L) as [|x l IH]; [reflexivity|].
    cbn [length seq map nth]. f_equal. rewrite <- seq_shift, map_map. exact IH. }
  split; [|split].
  - unfold ids_of. rewrite E, map_map. apply sequence_map_ok. intros i Hi. apply in_seq in Hi.
    rewrite nth_positions by lia. destruct (Hh i) as [A B]; [lia|]. now apply id_at.
  - now rewrite map_length, seq_length.
  - intros i Hi. rewrite (nth_indep _ 0 (h 0)) by (rewrite map_length, seq_length; exact Hi). rewrite (map_nth h), seq_nth by exact Hi. exact (Hh i Hi).
Qed.

Lemma isperm_of_inj p : length p = N -> (forall i, i < N -> nth i p 0 < N) -> (forall i j, i < N -> j < N -> nth i p 0 = nth j p 0 -> i = j) -> isperm N p.
Proof.
  intros Lp R I. apply NoDup_Permutation_bis.
  - apply (NoDup_nth p 0). intros i j Hi Hj. apply I; lia.
  - rewrite seq_length. lia.
  - intros x Hx. apply (In_nth _ _ 0) in Hx. destruct Hx as (i & Hi & <-). apply in_seq. specialize (R i). lia.
Qed.
Lemma permutation_main f : box_symmetry L f -> exists p, ids_of L f = Ok p /\ belongs L f p.
Proof.
  intros [[F1 F2] (h & [H1 H2] & U)]. destruct (ids_ok f F2) as (p & E & Lp & Hp). exists p. split; [exact E|]. split; [|intros i Hi; now apply Hp].
  apply isperm_of_inj; [exact Lp|intros i Hi; now apply Hp|]. intros i j Hi Hj Eq.
  destruct (Hp i Hi) as [_ A], (Hp j Hj) as [_ B]. rewrite <- Eq in B.
  assert (C : same_point L (f (place L i)) (f (place L j))) by (eapply same_trans; [exact A|now apply same_sym]).
  apply H1 in C. apply same_site; auto. eapply same_trans; [apply same_sym, (proj1 (U (place L i)))|]. eapply same_trans; [exact C|apply (U (place L j))].
Qed.

(** ** elements and the maps they belong to *)
Definition acts (e : elem) (f : vec -> vec) : Prop := plain e /\ wf N e /\ belongs L f (perm_of N e).
Lemma belongs_unique f p q : belongs L f p -> belongs L f q -> p = q.
Proof.
  intros [P1 P2] [Q1 Q2]. assert (Lp : length p = N) by exact (isperm_len _ _ P1). assert (Lq : length q = N) by exact (isperm_len _ _ Q1).
  apply (nth_ext _ _ 0 0); [lia|]. intros i Hi. rewrite Lp in Hi. apply same_site.
  - apply (isperm_lt N p); [exact P1|apply nth_In; lia].
  - apply (isperm_lt N q); [exact Q1|apply nth_In; lia].
  - eapply same_trans; [apply same_sym, P2; exact Hi|now apply Q2].
Qed.
Lemma belongs_ext f f' p : (forall i, i < N -> same_point L (f (place L i)) (f' (place L i))) -> belongs L f p -> belongs L f' p.
Proof. intros H [A B]. split; [exact A|]. intros i Hi. eapply same_trans; [apply same_sym, H; exact Hi|now apply B]. Qed.
Lemma belongs_times f h p q : (forall v v', same_point L v v' -> same_point L (h v) (h v')) -> belongs L f p -> belongs L h q -> belongs L (fun v => h (f v)) (times p q).
Proof.
  intros R [P1 P2] [Q1 Q2]. split; [now apply times_perm|]. intros i Hi. assert (Lp : length p = N) by exact (isperm_len _ _ P1).
  unfold times. rewrite nth_permuted by (rewrite Lp; exact Hi). eapply same_trans; [apply R, P2; exact Hi|]. apply Q2.
  apply (isperm_lt N p); [exact P1|apply nth_In; rewrite Lp; exact Hi].
Qed.
Lemma belongs_id : belongs L (fun v => v) (seq 0 N).
Proof. split; [apply Permutation_refl|]. intros i Hi. rewrite seq_nth by exact Hi. apply same_refl. Qed.
Lemma acts_id : acts EId (fun v => v).
Proof. split; [now left|]. split; [exact I|]. exact belongs_id. Qed.
Lemma acts_prod a b f h : (forall v v', same_point L v v' -> same_point L (h v) (h v')) -> acts a f -> acts b h ->
  exists c, prod a b = Ok c /\ acts c (fun v => h (f v)).
Proof.
  intros R (A1 & A2 & A3) (B1 & B2 & B3). destruct (prod_plain N a b A1 B1 A2 B2) as (c & E & C1 & C2). exists c. split; [exact E|]. split; [exact C1|]. split; [exact C2|].
  rewrite (prod_perm N a b c A2 B2 C2 E). now apply belongs_times.
Qed.
Lemma acts_ext e f f' : (forall i, i < N -> same_point L (f (place L i)) (f' (place L i))) -> acts e f -> acts e f'.
Proof. intros H (A & B & C). split; [exact A|]. split; [exact B|]. now apply (belongs_ext f). Qed.
Lemma undo_inverses f h p q : (forall v v', same_point L v v' -> same_point L (f v) (f v')) -> (forall v v', same_point L v v' -> same_point L (h v) (h v')) ->
  undo L f h -> belongs L f p -> belongs L h q -> inverses N p q.
Proof.
  intros Rf Rh U P Q. split.
  - apply (belongs_unique (fun v => v)); [|exact belongs_id]. apply (belongs_ext (fun v => h (f v))); [intros i _; apply (U (place L i))|]. now apply belongs_times.
  - apply (belongs_unique (fun v => v)); [|exact belongs_id]. apply (belongs_ext (fun v => f (h v))); [intros i _; apply U|]. now apply belongs_times.
Qed.

(** ** the point group *)
Definition all_symmetries (l : list psym) : Prop := forall p, In p l -> box_symmetry L (map_of L p).
Lemma sym_elem_ok p : box_symmetry L (map_of L p) -> exists e, sym_elem L p = Ok e /\ acts e (map_of L p).
Proof.
  intros B. destruct p as [|s]; cbn [sym_elem map_of] in *.
  - exists EId. split; [reflexivity|apply acts_id].
  - destruct (permutation_main _ B) as (p & E & H). unfold ids_of in *. fold D in E |- *. rewrite E. cbn [bind]. exists (EPerm p). split; [reflexivity|].
    split; [right; eauto|]. split; [exact (proj1 H)|exact H].
Qed.
Lemma seq_forall2 {A B C} (f : A -> res B) (R : B -> C -> Prop) (h : A -> C) l : (forall x, In x l -> exists y, f x = Ok y /\ R y (h x)) ->
  exists l', sequence (map f l) = Ok l' /\ Forall2 R l' (map h l).
Proof.
  induction l as [|x l IH]; intros H; cbn [map sequence].
  - exists []. split; [reflexivity|constructor].
  - destruct (H x (or_introl eq_refl)) as (y & Y1 & Y2). destruct IH as (l' & E & F); [intros; apply H; now right|].
    rewrite Y1. cbn [bind]. rewrite E. exists (y :: l'). split; [reflexivity|now constructor].
Qed.
Lemma point_group_acts l : all_symmetries l -> exists G, sg_point_group L l = Ok G /\ degree G = N /\ Forall2 acts (elems G) (map (map_of L) l).
Proof.
  intros H. destruct (seq_forall2 (sym_elem L) acts (map_of L) l) as (es & E & F); [intros p Hp; now apply sym_elem_ok, H|].
  unfold sg_point_group. rewrite E. cbn [bind]. eexists. split; [reflexivity|]. split; [reflexivity|exact F].
Qed.
End Sites.
