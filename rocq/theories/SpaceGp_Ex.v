(** Concrete lattices for the examples and refutations of C87. *)
From Coq Require Import List Arith Bool ZArith QArith Qcanon Qabs Permutation Lia Lqa.
From Verif Require Import Base BaseFacts Rings FloatCmp_Model FloatCmp_Spec FloatCmp_Proofs Lattice_Model Lattice_Spec LatGen_Model LatGen_Spec LatGen_Proofs LatGen_Look
  PointGp_Model PointGp_Spec PointGp_Lin PointGp_Proofs PointGp_Tables PointGp_Group PointGp_Ex
  Group_Model Group_Spec Group_Proofs Lattice_Trans SpaceGp_Model SpaceGp_Spec SpaceGp_Proofs SpaceGp_Group SpaceGp_Space.
Import ListNotations.
Open Scope nat_scope.

Ltac gval := repeat split; try (repeat constructor; lia); try discriminate; try reflexivity.
Ltac num C D := match type of C with (_ <= ?a - _)%Q => let a' := eval vm_compute in a in change a with a' in C; change a with a' in D end.
Ltac ints C D := num C D; unfold width, Qle, Qminus, Qplus, Qopp, Qdiv, Qmult, Qinv, inject_Z in C, D; cbn -[Z.add Z.mul Z.opp] in C, D.

(** a rectangular lattice with two sites in the cell, related by a glide *)
Definition glide_g := Geometry [[1%Q; 0%Q]; [0%Q; 1%Q]] [2; 2]%Z [true; true] [[0%Q; 0%Q]; [1 # 2; 1 # 3]].
Definition glide_L := GLat glide_g
  [[0; 0; 0]; [0; 0; 1]; [0; 1; 0]; [0; 1; 1]; [1; 0; 0]; [1; 0; 1]; [1; 1; 0]; [1; 1; 1]]%Z
  [(0, 5); (2, 7); (0, 1); (1, 4); (2, 3); (3, 6); (4, 5); (6, 7)].
Lemma glide_proper : proper_lattice glide_L.
Proof.
  exists glide_g. split; [gval|]. split; [repeat constructor|]. split; [vm_compute; reflexivity|].
  intros j k Hj Hk Ne H. pose proof (H 0 ltac:(cbn; lia)) as (n & _ & C). pose proof (H 1 ltac:(cbn; lia)) as (n' & _ & C'). clear H.
  apply Qabs_Qle_condition in C, C'. destruct C as [C D], C' as [C' D'].
  cbn [n_nodes gl_sites glide_L length] in Hj, Hk.
  do 8 (destruct j as [|j]; [do 8 (destruct k as [|k]; [try (now destruct Ne); ints C D; ints C' D'; lia|]); lia|]). lia.
Qed.
Lemma glide_full : full_lattice glide_L.
Proof.
  intros c H. unfold of_box, in_box, ext in H. cbn [gl_geom glide_L glide_g g_extent g_offsets app length] in H.
  inversion H as [|x ? ? ? X H1]; subst. inversion H1 as [|y ? ? ? Y H2]; subst. inversion H2 as [|z ? ? ? Z H3]; subst. inversion H3; subst.
  assert (x = 0 \/ x = 1)%Z as [-> | ->] by lia; assert (y = 0 \/ y = 1)%Z as [-> | ->] by lia; assert (z = 0 \/ z = 1)%Z as [-> | ->] by lia; cbn; tauto.
Qed.
Definition gA : mat := fun i j => if Nat.eqb i j then (if Nat.eqb i 0 then 1 else - (1))%Qc else 0%Qc.
Definition gb (c : Q) : vec := fun i => if Nat.eqb i 0 then Q2Qc c else Q2Qc (1 # 3).
Definition glide_s (c : Q) : fsym := FS gA (gb c).
Definition glides := [PId; PSym (glide_s (-1 # 2))].
Lemma glide_at c v : fpre 2 (glide_s c) v 0%nat = (v 0%nat + Q2Qc c)%Qc /\ fpre 2 (glide_s c) v 1%nat = (- v 1%nat + Q2Qc (1 # 3))%Qc.
Proof.
  unfold fpre, mvec, glide_s, f_A, f_b, gA, gb. split; cbn [qs fsum qC T r0 radd Nat.eqb]; unfold qs; cbn [fsum qC T r0 radd Nat.eqb]; ring.
Qed.
Lemma glide_maps c tab shift : (forall i, i < 8 -> nth i tab 0 < 8 /\ forall d, d < 2 ->
   fpre 2 (glide_s c) (place glide_L i) d = (place glide_L (nth i tab 0%nat) d + zc (nth d (nth i shift []) 0%Z * 2)%Z)%Qc) -> maps_sites glide_L (fpre 2 (glide_s c)).
Proof.
  intros H. split.
  - intros v v' [n [A B]]. exists (fun d => if Nat.eqb d 0 then n 0 else (- n 1%nat)%Z). split; [intros d Hd Pd; cbn in Hd; small; discriminate Pd|].
    intros d Hd. pose proof (B 0 ltac:(cbn; lia)) as B0. pose proof (B 1 ltac:(cbn; lia)) as B1. cbn in B0, B1. cbn in Hd.
    destruct (glide_at c v) as [E0 E1], (glide_at c v') as [E0' E1']. small; cbn [Nat.eqb].
    + rewrite E0, E0', B0. cbn [gl_geom glide_L glide_g g_extent nth]. ring.
    + rewrite E1, E1', B1. cbn [gl_geom glide_L glide_g g_extent nth]. rewrite Z.mul_opp_l, zc_opp. ring.
  - intros i Hi. destruct (H i Hi) as [H1 H2]. exists (nth i tab 0). split; [exact H1|].
    exists (fun d => nth d (nth i shift []) 0%Z). split; [intros d Hd Pd; cbn in Hd; small; discriminate Pd|].
    intros d Hd. cbn in Hd. rewrite H2 by exact Hd. small; reflexivity.
Qed.
Lemma glide_maps_there : maps_sites glide_L (fpre 2 (glide_s (-1 # 2))).
Proof.
  apply (glide_maps _ [5; 0; 7; 2; 1; 4; 3; 6] [[-1; 0]; [0; 0]; [-1; -1]; [0; -1]; [0; 0]; [0; 0]; [0; -1]; [0; -1]]%Z).
  intros i Hi. small; (split; [cbn; lia|]); intros d Hd; small; qcv.
Qed.
Lemma glide_maps_back : maps_sites glide_L (fpre 2 (glide_s (1 # 2))).
Proof.
  apply (glide_maps _ [1; 4; 3; 6; 5; 0; 7; 2] [[0; 0]; [0; 0]; [0; -1]; [0; -1]; [0; 0]; [1; 0]; [0; -1]; [1; -1]]%Z).
  intros i Hi. small; (split; [cbn; lia|]); intros d Hd; small; qcv.
Qed.
Lemma halves : (Q2Qc (-1 # 2) + Q2Qc (1 # 2) = 0)%Qc.
Proof. qcv. Qed.
Lemma glide_symmetry p : In p glides -> box_symmetry glide_L (map_of glide_L p).
Proof.
  intros [<-|[<-|[]]]; cbn [map_of].
  - split; [split; [auto|intros i Hi; exists i; split; [exact Hi|apply same_refl]]|].
    exists (fun v => v). split; [split; [auto|intros i Hi; exists i; split; [exact Hi|apply same_refl]]|]. intros v. split; apply same_refl.
  - change (dimension glide_L) with 2. split; [exact glide_maps_there|]. exists (fpre 2 (glide_s (1 # 2))). split; [exact glide_maps_back|].
    intros v. split; apply same_ext; intros d Hd; cbn in Hd.
    + destruct (glide_at (1 # 2) (fpre 2 (glide_s (-1 # 2)) v)) as [A B]. destruct (glide_at (-1 # 2) v) as [A' B']. small.
      * rewrite A, A'. rewrite <- Qcplus_assoc, halves. ring.
      * rewrite B, B'. ring.
    + destruct (glide_at (-1 # 2) (fpre 2 (glide_s (1 # 2)) v)) as [A B]. destruct (glide_at (1 # 2) v) as [A' B']. small.
      * rewrite A, A'. rewrite <- Qcplus_assoc, (Qcplus_comm (Q2Qc (1 # 2))), halves. ring.
      * rewrite B, B'. ring.
Qed.
Lemma zc_m1 : (zc (-1) = Q2Qc (-1 # 2) + Q2Qc (-1 # 2))%Qc.
Proof. qcv. Qed.
Lemma glide_mod_cells : group_mod_cells glide_L glides.
Proof.
  assert (DZ : forall m, displacement glide_L m) by (intros m d Hd Pd; cbn in Hd; small; discriminate Pd).
  assert (TW : forall v d, d < dimension glide_L -> map_of glide_L (PSym (glide_s (-1 # 2))) (map_of glide_L (PSym (glide_s (-1 # 2))) v) d = vplus v (fun d => if Nat.eqb d 0 then (-1)%Z else 0%Z) d).
  { intros v d Hd. cbn [map_of]. change (dimension glide_L) with 2 in *. destruct (glide_at (-1 # 2) (fpre 2 (glide_s (-1 # 2)) v)) as [A B]. destruct (glide_at (-1 # 2) v) as [A' B']. small; unfold vplus; cbn [Nat.eqb].
    - rewrite A, A', zc_m1. ring.
    - rewrite B, B', zc_0. ring. }
  assert (PZ : forall (v : vec) d, v d = vplus v (fun _ => 0%Z) d) by (intros v d; unfold vplus; rewrite zc_0; ring).
  split; [discriminate|]. split; [|split].
  - intros p [<-|[<-|[]]] m Hm; cbn [map_of].
    + exists m. split; [exact Hm|]. reflexivity.
    + exists (fun d => if Nat.eqb d 0 then m 0 else (- m 1%nat)%Z). split; [apply DZ|]. intros v d Hd. change (dimension glide_L) with 2 in *.
      destruct (glide_at (-1 # 2) (vplus v m)) as [A B]. destruct (glide_at (-1 # 2) v) as [A' B']. small; unfold vplus in *; cbn [Nat.eqb].
      * rewrite A, A'. ring.
      * rewrite B, B', zc_opp. ring.
  - intros p q [<-|[<-|[]]] [<-|[<-|[]]].
    + exists PId, (fun _ => 0%Z). split; [now left|]. split; [apply DZ|]. intros v d _. apply PZ.
    + exists (PSym (glide_s (-1 # 2))), (fun _ => 0%Z). split; [right; now left|]. split; [apply DZ|]. intros v d _. apply PZ.
    + exists (PSym (glide_s (-1 # 2))), (fun _ => 0%Z). split; [right; now left|]. split; [apply DZ|]. intros v d _. apply PZ.
    + exists PId, (fun d => if Nat.eqb d 0 then (-1)%Z else 0%Z). split; [now left|]. split; [apply DZ|]. exact TW.
  - intros p [<-|[<-|[]]].
    + exists PId, (fun _ => 0%Z). split; [now left|]. split; [apply DZ|]. intros v d _. apply PZ.
    + exists (PSym (glide_s (-1 # 2))), (fun d => if Nat.eqb d 0 then (-1)%Z else 0%Z). split; [right; now left|]. split; [apply DZ|]. exact TW.
Qed.
Lemma glide_point : sg_point_group glide_L glides = Ok (PG [EId; EPerm [5; 0; 7; 2; 1; 4; 3; 6]] 8).
Proof. vm_compute. reflexivity. Qed.
Lemma point_group_refuted : exists L l G, proper_lattice L /\ full_lattice L /\ group_mod_cells L l /\ (forall p, In p l -> box_symmetry L (map_of L p)) /\
  sg_point_group L l = Ok G /\ ~ is_group (n_nodes L) (perms G) /\ product_table G = Err RuntimeError.
Proof.
  exists glide_L, glides. eexists. split; [exact glide_proper|]. split; [exact glide_full|]. split; [exact glide_mod_cells|]. split; [exact glide_symmetry|].
  split; [exact glide_point|]. split; [|vm_compute; reflexivity]. intros (_ & H & _).
  destruct (H [5; 0; 7; 2; 1; 4; 3; 6]) as (q & Hq & I1 & I2); [cbn; tauto|]. cbn in Hq. destruct Hq as [<-|[<-|[]]]; vm_compute in I1; discriminate.
Qed.

(** a two-leg ladder and a quarter turn *)
Definition ladder_g := Geometry [[1%Q; 0%Q]; [0%Q; 1%Q]] [2; 4]%Z [true; true] [[0%Q; 0%Q]].
Definition ladder_L := GLat ladder_g
  [[0; 0; 0]; [0; 1; 0]; [0; 2; 0]; [0; 3; 0]; [1; 0; 0]; [1; 1; 0]; [1; 2; 0]; [1; 3; 0]]%Z
  [(0, 4); (1, 5); (2, 6); (3, 7); (0, 3); (0, 1); (1, 2); (2, 3); (4, 7); (4, 5); (5, 6); (6, 7)].
Lemma ladder_proper : proper_lattice ladder_L.
Proof.
  exists ladder_g. split; [gval|]. split; [repeat constructor|]. split; [vm_compute; reflexivity|].
  intros j k Hj Hk Ne H. pose proof (H 0 ltac:(cbn; lia)) as (n & _ & C). pose proof (H 1 ltac:(cbn; lia)) as (n' & _ & C'). clear H.
  apply Qabs_Qle_condition in C, C'. destruct C as [C D], C' as [C' D'].
  cbn [n_nodes gl_sites ladder_L length] in Hj, Hk.
  do 8 (destruct j as [|j]; [do 8 (destruct k as [|k]; [try (now destruct Ne); ints C D; ints C' D'; lia|]); lia|]). lia.
Qed.
Definition turn : fsym := FS (fun i j => if Nat.eqb i j then 0%Qc else if Nat.eqb i 0 then 1%Qc else (- (1))%Qc) (fun _ => 0%Qc).
Definition back_turn : fsym := FS (fun i j => if Nat.eqb i j then 0%Qc else if Nat.eqb i 0 then (- (1))%Qc else 1%Qc) (fun _ => 0%Qc).
Lemma turn_at v : fpre 2 turn v 0%nat = v 1%nat /\ fpre 2 turn v 1%nat = (- v 0%nat)%Qc.
Proof. unfold fpre, mvec, turn, f_A, f_b. split; unfold qs; cbn [fsum qC T r0 radd Nat.eqb]; ring. Qed.
(** All quarter turns map the infinite lattice to itself and keep distances. *)
Lemma permutation_refuted : exists L s G, proper_lattice L /\ integral L (map_of L (PSym s)) /\ isometry L (map_of L (PSym s)) /\
  (forall v, (forall d, d < dimension L -> exists z, v d = zc z) -> forall d, d < dimension L -> exists z, map_of L (PSym s) v d = zc z) /\
  sg_point_group L [PId; PSym s] = Ok G /\ exists g, In g (elems G) /\ ~ isperm (n_nodes L) (perm_of (n_nodes L) g).
Proof.
  exists ladder_L, turn. eexists. split; [exact ladder_proper|]. cbn [map_of]. change (dimension ladder_L) with 2.
  split; [|split; [|split]].
  - intros m Hm. exists (fun d => if Nat.eqb d 0 then m 1 else (- m 0%nat)%Z). split; [intros d Hd Pd; cbn in Hd; small; discriminate Pd|].
    intros v d Hd. cbn in Hd. destruct (turn_at (vplus v m)) as [A B], (turn_at v) as [A' B']. small; unfold vplus in *; cbn [Nat.eqb].
    + rewrite A, A'. reflexivity.
    + rewrite B, B', zc_opp. ring.
  - intros u v. unfold qform. change (dimension ladder_L) with 2. unfold qs. cbn [fsum qC T r0 radd]. unfold vdiff.
    destruct (turn_at u) as [A B], (turn_at v) as [A' B']. rewrite A, B, A', B'.
    replace (Q2Qc (nth 0 (nth 0 (g_gram (gl_geom ladder_L)) []) 0%Q)) with 1%Qc by qcv.
    replace (Q2Qc (nth 1 (nth 0 (g_gram (gl_geom ladder_L)) []) 0%Q)) with 0%Qc by qcv.
    replace (Q2Qc (nth 0 (nth 1 (g_gram (gl_geom ladder_L)) []) 0%Q)) with 0%Qc by qcv.
    replace (Q2Qc (nth 1 (nth 1 (g_gram (gl_geom ladder_L)) []) 0%Q)) with 1%Qc by qcv. ring.
  - intros v H d Hd. destruct (turn_at v) as [A B]. destruct (H 0 ltac:(lia)) as (z & Ez), (H 1 ltac:(lia)) as (z' & Ez'). small.
    + exists z'. now rewrite A.
    + exists (- z)%Z. rewrite B, Ez, zc_opp. reflexivity.
  - split; [vm_compute; reflexivity|]. eexists. split; [right; left; reflexivity|]. intros H. apply isperm_iff in H. destruct H as (_ & H & _).
    cbn [perm_of] in H. inversion H as [|? ? X _]. apply X. cbn. tauto.
Qed.

(** rings of sites *)
Definition ring_g (e : Z) := Geometry [[1%Q]] [e] [true] [[0%Q]].
Definition ring_L := GLat (ring_g 4) [[0; 0]; [1; 0]; [2; 0]; [3; 0]]%Z [(0, 3); (0, 1); (1, 2); (2, 3)].
Definition two_L := GLat (ring_g 2) [[0; 0]; [1; 0]]%Z [(0, 1)].
Lemma ring_proper : proper_lattice ring_L.
Proof.
  exists (ring_g 4). split; [gval|]. split; [repeat constructor|]. split; [vm_compute; reflexivity|].
  intros j k Hj Hk Ne H. pose proof (H 0 ltac:(cbn; lia)) as (n & _ & C). clear H.
  apply Qabs_Qle_condition in C. destruct C as [C D]. cbn [n_nodes gl_sites ring_L length] in Hj, Hk.
  do 4 (destruct j as [|j]; [do 4 (destruct k as [|k]; [try (now destruct Ne); ints C D; lia|]); lia|]). lia.
Qed.
Lemma two_proper : proper_lattice two_L.
Proof.
  exists (ring_g 2). split; [gval|]. split; [repeat constructor|]. split; [vm_compute; reflexivity|].
  intros j k Hj Hk Ne H. pose proof (H 0 ltac:(cbn; lia)) as (n & _ & C). clear H.
  apply Qabs_Qle_condition in C. destruct C as [C D]. cbn [n_nodes gl_sites two_L length] in Hj, Hk.
  do 2 (destruct j as [|j]; [do 2 (destruct k as [|k]; [try (now destruct Ne); ints C D; lia|]); lia|]). lia.
Qed.
Lemma two_full : full_lattice two_L.
Proof.
  intros c H. unfold of_box, in_box, ext in H. cbn [gl_geom two_L ring_g g_extent g_offsets app length] in H.
  inversion H as [|x ? ? ? X H1]; subst. inversion H1 as [|y ? ? ? Y H2]; subst. inversion H2; subst.
  assert (x = 0 \/ x = 1)%Z as [-> | ->] by lia; assert (y = 0)%Z as -> by lia; cbn; tauto.
Qed.
(** the inversion about the point c/2 *)
Definition flip (c : Z) : fsym := FS (fun _ _ => (- (1))%Qc) (fun _ => zc c).
Lemma flip_at c v : fpre 1 (flip c) v 0%nat = (- v 0%nat + zc c)%Qc.
Proof. unfold fpre, mvec, flip, f_A, f_b, qs. cbn [fsum qC T r0 radd]. ring. Qed.
Lemma flip_flip c v : fpre 1 (flip c) (fpre 1 (flip c) v) 0 = v 0%nat.
Proof. rewrite !flip_at. ring. Qed.
Lemma flip_respects L c : dimension L = 1 -> forall v v', same_point L v v' -> same_point L (fpre 1 (flip c) v) (fpre 1 (flip c) v').
Proof.
  intros D1 v v' [n [A B]]. exists (fun d => - n d)%Z. rewrite D1 in *. split; [intros d Hd Pd; now rewrite A|]. intros d Hd. specialize (B d Hd). small.
  rewrite !flip_at, B, Z.mul_opp_l, zc_opp. ring.
Qed.
Lemma ring_maps : maps_sites ring_L (fpre 1 (flip 1)).
Proof.
  split; [now apply flip_respects|]. intros i Hi. cbn in Hi. exists (nth i [1; 0; 3; 2] 0). split; [cbn; small; cbn; lia|].
  exists (fun _ => nth i [0; 0; -1; -1]%Z 0%Z). split; [intros d Hd Pd; cbn in Hd; small; discriminate Pd|]. intros d Hd. cbn in Hd. small; qcv.
Qed.
Lemma two_maps : maps_sites two_L (fpre 1 (flip 0)).
Proof.
  split; [now apply flip_respects|]. intros i Hi. cbn in Hi. exists i. split; [exact Hi|].
  exists (fun _ => nth i [0; -1]%Z 0%Z). split; [intros d Hd Pd; cbn in Hd; small; discriminate Pd|]. intros d Hd. cbn in Hd. small; qcv.
Qed.
Lemma flip_undo L c : dimension L = 1 -> undo L (fpre 1 (flip c)) (fpre 1 (flip c)).
Proof. intros D1 v. split; apply same_ext; intros d Hd; rewrite D1 in Hd; small; apply flip_flip. Qed.
Definition flips := [PId; PSym (flip 0)].
Lemma id_symmetry L : box_symmetry L (map_of L PId).
Proof.
  split; [split; [auto|intros i Hi; exists i; split; [exact Hi|apply same_refl]]|].
  exists (fun v => v). split; [split; [auto|intros i Hi; exists i; split; [exact Hi|apply same_refl]]|]. intros v. split; apply same_refl.
Qed.
Lemma two_symmetry p : In p flips -> box_symmetry two_L (map_of two_L p).
Proof.
  intros [<-|[<-|[]]]; [apply id_symmetry|]. cbn [map_of]. change (dimension two_L) with 1.
  split; [exact two_maps|]. exists (fpre 1 (flip 0)). split; [exact two_maps|]. now apply flip_undo.
Qed.
Lemma two_mod_cells : group_mod_cells two_L flips.
Proof.
  assert (DZ : forall m, displacement two_L m) by (intros m d Hd Pd; cbn in Hd; small; discriminate Pd).
  assert (PZ : forall (v : vec) d, v d = vplus v (fun _ => 0%Z) d) by (intros v d; unfold vplus; rewrite zc_0; ring).
  split; [discriminate|]. split; [|split].
  - intros p [<-|[<-|[]]] m Hm; cbn [map_of].
    + exists m. split; [exact Hm|]. reflexivity.
    + exists (fun d => - m d)%Z. split; [apply DZ|]. intros v d Hd. change (dimension two_L) with 1 in *. small. unfold vplus. rewrite !flip_at, zc_opp. ring.
  - intros p q [<-|[<-|[]]] [<-|[<-|[]]].
    + exists PId, (fun _ => 0%Z). split; [now left|]. split; [apply DZ|]. intros v d _. apply PZ.
    + exists (PSym (flip 0)), (fun _ => 0%Z). split; [right; now left|]. split; [apply DZ|]. intros v d _. apply PZ.
    + exists (PSym (flip 0)), (fun _ => 0%Z). split; [right; now left|]. split; [apply DZ|]. intros v d _. apply PZ.
    + exists PId, (fun _ => 0%Z). split; [now left|]. split; [apply DZ|]. intros v d Hd. change (dimension two_L) with 1 in *. cbn [map_of]. change (dimension two_L) with 1. small. rewrite flip_flip. apply PZ.
  - intros p [<-|[<-|[]]].
    + exists PId, (fun _ => 0%Z). split; [now left|]. split; [apply DZ|]. intros v d _. apply PZ.
    + exists (PSym (flip 0)), (fun _ => 0%Z). split; [right; now left|]. split; [apply DZ|]. intros v d Hd. cbn [map_of]. change (dimension two_L) with 1 in *. small. rewrite flip_flip. apply PZ.
Qed.
Lemma two_in_box : group_in_box two_L flips.
Proof.
  destruct two_mod_cells as (A & _ & C & _). split; [exact A|]. split.
  - intros p q [<-|[<-|[]]] [<-|[<-|[]]].
    + exists PId. split; [now left|]. intros v. apply same_refl.
    + exists (PSym (flip 0)). split; [right; now left|]. intros v. apply same_refl.
    + exists (PSym (flip 0)). split; [right; now left|]. intros v. apply same_refl.
    + exists PId. split; [now left|]. intros v. cbn [map_of]. now apply flip_undo.
  - intros p [<-|[<-|[]]].
    + exists PId. split; [now left|]. intros v. split; apply same_refl.
    + exists (PSym (flip 0)). split; [right; now left|]. cbn [map_of]. now apply flip_undo.
Qed.
Lemma distinct_refuted : exists L l G, proper_lattice L /\ full_lattice L /\ group_mod_cells L l /\ (forall p, In p l -> box_symmetry L (map_of L p)) /\
  (forall p q, In p l -> In q l -> (forall v d, d < dimension L -> map_of L p v d = map_of L q v d) -> p = q) /\
  sg_space_group L l = Ok G /\ ~ NoDup (perms G).
Proof.
  exists two_L, flips. eexists. split; [exact two_proper|]. split; [exact two_full|]. split; [exact two_mod_cells|]. split; [exact two_symmetry|]. split; [|split].
  - assert (X : (forall v d, d < dimension two_L -> map_of two_L PId v d = map_of two_L (PSym (flip 0)) v d) -> False).
    { intros H. specialize (H (fun _ => 1%Qc) 0 ltac:(cbn; lia)). cbn [map_of] in H. change (dimension two_L) with 1 in H. rewrite flip_at in H. vm_compute in H. discriminate. }
    intros p q [<-|[<-|[]]] [<-|[<-|[]]] H; try reflexivity; exfalso; apply X; [exact H|]. intros v d Hd. symmetry. now apply H.
  - vm_compute. reflexivity.
  - intros H. vm_compute in H. inversion H as [|? ? Y _]. apply Y. cbn. tauto.
Qed.

(** edges of a ring of four sites *)
Lemma zc_this z : this (zc z) == inject_Z z.
Proof. unfold zc. apply Qc_of_this. Qed.
Lemma ring_place i : i < 4 -> place ring_L i 0 = zc (Z.of_nat i).
Proof. intros Hi. small; qcv. Qed.
Lemma zc_mul a b : zc (a * b) = (zc a * zc b)%Qc.
Proof. apply Qc_is_canon. unfold zc, Qcmult. cbn [this Q2Qc]. rewrite !Qred_correct. rewrite inject_Z_mult. reflexivity. Qed.
Lemma ring_qform u v : qform ring_L (vdiff u v) = ((u 0%nat - v 0%nat) * (u 0%nat - v 0%nat))%Qc.
Proof.
  unfold qform. change (dimension ring_L) with 1. unfold qs. cbn [fsum qC T r0 radd]. unfold vdiff.
  replace (Q2Qc (nth 0 (nth 0 (g_gram (gl_geom ring_L)) []) 0%Q)) with 1%Qc by qcv. ring.
Qed.
Lemma ring_near i j : i < 4 -> j < 4 -> ((exists v, same_point ring_L v (place ring_L j) /\ qform ring_L (vdiff (place ring_L i) v) = 1%Qc) <->
  exists n, ((Z.of_nat i - Z.of_nat j - n * 4) * (Z.of_nat i - Z.of_nat j - n * 4) = 1)%Z).
Proof.
  intros Hi Hj. split.
  - intros (v & [n [A B]] & Q). specialize (B 0 ltac:(cbn; lia)). exists (n 0). rewrite ring_qform, B in Q. rewrite !ring_place in Q by assumption.
    apply zc_inj. rewrite zc_mul, !zc_sub. change (nth 0 (g_extent (gl_geom ring_L)) 0%Z) with 4%Z in Q. change (zc 1) with 1%Qc. rewrite <- Q. ring.
  - intros (n & E). exists (fun d => (place ring_L j d + zc (n * 4))%Qc). split.
    + exists (fun _ => n). split; [intros d Hd Pd; cbn in Hd; small; discriminate Pd|]. intros d Hd. cbn in Hd. small; reflexivity.
    + rewrite ring_qform, !ring_place by assumption. transitivity (zc 1); [|reflexivity]. rewrite <- E, (zc_mul (_ - _)), !zc_sub. ring.
Qed.
Lemma ring_edges : edges_at ring_L 1%Qc.
Proof.
  intros i j Hi Hj Ne. cbn [n_nodes ring_L gl_sites length] in Hi, Hj. rewrite ring_near by assumption.
  assert (R : (exists n, ((Z.of_nat i - Z.of_nat j - n * 4) * (Z.of_nat i - Z.of_nat j - n * 4) = 1)%Z) <-> (exists n, (Z.of_nat i - Z.of_nat j - n * 4 = 1 \/ Z.of_nat i - Z.of_nat j - n * 4 = -1)%Z)).
  { split; intros (n & E); exists n; [nia|destruct E as [-> | ->]; reflexivity]. }
  rewrite R. clear R. unfold joined, ring_L, gl_edges. split.
  - intros H. small; try (now destruct Ne); cbn in H; try (exfalso; intuition congruence);
      first [exists 0%Z; lia|exists 1%Z; lia|exists (-1)%Z; lia].
  - intros (n & E). small; try (now destruct Ne); try (exfalso; lia); cbn; tauto.
Qed.
Lemma ring_isometry : isometry ring_L (fpre 1 (flip 1)).
Proof. intros u v. rewrite !ring_qform, !flip_at. ring. Qed.
Lemma ring_belongs : belongs ring_L (fpre 1 (flip 1)) [1; 0; 3; 2].
Proof.
  assert (B : box_symmetry ring_L (fpre 1 (flip 1))).
  { split; [exact ring_maps|]. exists (fpre 1 (flip 1)). split; [exact ring_maps|]. now apply flip_undo. }
  destruct (permutation_main ring_L ring_proper _ B) as (p & E & H). vm_compute in E. injection E as <-. exact H.
Qed.
