(** Witnesses for C85. *)
From Coq Require Import List Arith Bool ZArith QArith Qabs Sorted Lia Lqa.
From Verif Require Import Base BaseFacts Lattice_Model Lattice_Spec FloatCmp_Model FloatCmp_Spec LatGen_Model LatGen_Spec
  LatGen_Proofs LatGen_Look.
Import ListNotations.
Open Scope Z_scope.

Lemma no_neighbours g : valid g -> (forall c d, ~ adjacent g c d) -> gen_lattice g = Err ValueError.
Proof. intros V N. destruct (gen_main g V) as [_ [(c & d & H)|H]]; [now destruct (N c d)|exact H]. Qed.

Ltac geo := repeat split; try (repeat constructor; lia); try discriminate; try reflexivity.

Definition dropping := Geometry [[1%Q]] [3] [true] [[0%Q]; [1 # 10]; [1 # 2]].
Lemma every_site_refuted : exists g L c, valid g /\ shaped g /\ gen_lattice g = Ok L /\ of_box g c /\ ~ In c (gl_sites L).
Proof.
  exists dropping. eexists. exists [0; 2]. split; [geo|]. split; [repeat constructor|].
  split; [vm_compute; reflexivity|]. split; [repeat constructor; cbn; lia|].
  cbn. intuition discriminate.
Qed.

Definition reaching := Geometry [[1%Q]] [3] [true] [[0%Q]; [5 # 2]].
Lemma outside_refuted : exists g L i j n a b, valid g /\ shaped g /\ gen_lattice g = Ok L /\
  (i < j < length (gl_sites L))%nat /\ shift_ok g n /\ In (a, b) (gl_edges L) /\ ~ In (i, j) (gl_edges L) /\
  (quad (g_gram g) (vsub (frac g (nth i (gl_sites L) [])) (moved g n (frac g (nth j (gl_sites L) []))))
   == sqdist g (nth a (gl_sites L) []) (nth b (gl_sites L) []))%Q.
Proof.
  exists reaching. eexists. exists 2%nat, 3%nat, [-1], 1%nat, 4%nat. split; [geo|]. split; [repeat constructor|].
  split; [vm_compute; reflexivity|]. split; [cbn; lia|]. split; [split; [reflexivity|repeat constructor; discriminate]|].
  cbn [gl_edges]. split; [cbn; tauto|]. split; [cbn; intuition discriminate|]. vm_compute. reflexivity.
Qed.

Lemma offset_order_refuted : exists offs a b, offs = [a; b; b] /\ ~ same_offset a b /\
  o_offsets (clean_site_offsets 1 (Some offs)) = [b; a].
Proof.
  exists [[1 # 2]; [0%Q]; [0%Q]], [1 # 2], [0%Q]. split; [reflexivity|]. split; [|vm_compute; reflexivity].
  intros H. inversion H as [|? ? ? ? (n & _ & C) _]; subst. apply Qabs_Qle_condition in C. destruct C as [C D].
  unfold width, Qle, Qminus, Qplus, Qopp, Qdiv, Qmult, Qinv, inject_Z in C, D. cbn -[Z.add Z.mul Z.opp] in C, D. lia.
Qed.

Definition merging := Geometry [[1%Q]] [16] [true] [[0%Q]; [2 # 3326400]].
Lemma lookup_refuted : exists g L, valid g /\ shaped g /\
  o_offsets (clean_site_offsets 1 (Some (g_offsets g))) = g_offsets g /\ gen_lattice g = Ok L /\
  exists i j, (i < length (gl_sites L))%nat /\ i <> j /\ id_from_position L (frac g (nth i (gl_sites L) [])) = Ok j.
Proof.
  exists merging. eexists. split; [geo|]. split; [repeat constructor|]. split; [vm_compute; reflexivity|].
  split; [vm_compute; reflexivity|]. exists 0%nat, 1%nat. split; [cbn; lia|]. split; [lia|]. vm_compute. reflexivity.
Qed.

Definition honeycomb := Geometry [[1%Q; 1 # 2]; [1 # 2; 1%Q]] [3; 3] [true; true] [[1 # 3; 1 # 3]; [2 # 3; 2 # 3]].
Lemma ex_honeycomb : valid honeycomb /\ shaped honeycomb /\
  match gen_lattice honeycomb with Ok L => length (gl_sites L) = 18%nat /\ length (gl_edges L) = 27%nat | _ => False end.
Proof. split; [geo|]. split; [repeat constructor|]. vm_compute. auto. Qed.

Definition pair_chain := Geometry [[1%Q]] [3] [true] [[0%Q]; [1 # 3]].
Lemma around_1 g e q c : g_extent g = [e] -> g_pbc g = [true] -> around g c -> length (g_offsets g) = q ->
  exists x l, c = [x; l] /\ -1 <= x <= e /\ 0 <= l < Z.of_nat q.
Proof.
  unfold around, ext, per. intros -> -> H <-. cbn [app combine] in H. inversion H as [|x ? ? ? A H']; subst.
  inversion H' as [|l0 ? ? ? B H'']; subst. inversion H''; subst. exists x, l0. cbn in A, B. auto.
Qed.
Lemma ex_nearest : nearest_pair pair_chain ([0] ++ [0]) (plus_cell [0] [0] ++ [1]).
Proof.
  assert (A : forall l, 0 <= l < 2 -> around pair_chain [0; l]).
  { intros l H. unfold around. cbn [ext per pair_chain g_extent g_pbc g_offsets app combine length]. constructor; [cbn; lia|]. constructor; [cbn; lia|constructor]. }
  split; [apply (A 0); lia|]. split; [apply (A 1); lia|]. split; [vm_compute; reflexivity|]. split; [exists 0%nat; split; [cbn; lia|vm_compute; discriminate]|].
  intros u v Hu Hv. destruct (around_1 pair_chain 3 2 _ eq_refl eq_refl Hu eq_refl) as (x & l & -> & X & Lx).
  destruct (around_1 pair_chain 3 2 _ eq_refl eq_refl Hv eq_refl) as (y & k & -> & Y & Ky). cbn [length g_offsets pair_chain Z.of_nat Pos.of_succ_nat] in Lx, Ky.
  assert (x = -1 \/ x = 0 \/ x = 1 \/ x = 2 \/ x = 3) by lia. assert (y = -1 \/ y = 0 \/ y = 1 \/ y = 2 \/ y = 3) by lia.
  assert (l = 0 \/ l = 1) by (change (Z.of_nat 2) with 2 in Lx; lia). assert (k = 0 \/ k = 1) by lia.
  intuition subst; vm_compute in *; congruence.
Qed.
Lemma ex_adjacent : exists c d, adjacent pair_chain c d.
Proof.
  exists ([0] ++ [0]), (folded pair_chain (plus_cell [0] [0] ++ [1])).
  apply (neighbours_everywhere pair_chain [0] [0] 0 1); try reflexivity; try (repeat constructor; lia); [geo|exact ex_nearest].
Qed.
Ltac num C D := match type of C with (_ <= ?a - _)%Q => let a' := eval vm_compute in a in change a with a' in C; change a with a' in D end.
Lemma ex_separate : match gen_lattice pair_chain with
  | Ok L => length (gl_sites L) = 6%nat /\
    forall j k, (j < length (gl_sites L))%nat -> (k < length (gl_sites L))%nat -> j <> k ->
     ~ same_position pair_chain (frac pair_chain (nth j (gl_sites L) [])) (frac pair_chain (nth k (gl_sites L) []))
  | _ => False end.
Proof.
  destruct (gen_lattice pair_chain) as [L|] eqn:E; vm_compute in E; [|discriminate]. injection E as <-. cbn [gl_sites length]. split; [reflexivity|].
  intros j k Hj Hk Ne H. specialize (H 0%nat ltac:(cbn; lia)). destruct H as (n & _ & C).
  apply Qabs_Qle_condition in C. destruct C as [C D].
  do 6 (destruct j as [|j]; [do 6 (destruct k as [|k]; [
    try (now destruct Ne); num C D; unfold width, Qle, Qminus, Qplus, Qopp, Qdiv, Qmult, Qinv, inject_Z in C, D; cbn -[Z.add Z.mul Z.opp] in C, D; lia|]); lia|]). lia.
Qed.

Definition lonely := Geometry [[1%Q]] [1] [false] [[0%Q]].
Lemma ex_lonely : valid lonely /\ forall c d, ~ adjacent lonely c d.
Proof.
  split; [geo|]. intros c d (u & v & ((A & B & C & _) & _) & _).
  assert (G : forall u, around lonely u -> u = [0; 0]).
  { intros w H. unfold around in H. cbn [ext per lonely g_extent g_pbc g_offsets app combine length Z.of_nat Pos.of_succ_nat] in H.
    inversion H as [|x ? ? ? P H']; subst. inversion H' as [|y ? ? ? P' H'']; subst. inversion H''; subst. cbn in P, P'. f_equal; [lia|]. f_equal. lia. }
  rewrite (G u A), (G v B) in C. vm_compute in C. discriminate.
Qed.
