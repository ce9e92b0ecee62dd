(** Concrete grids for C90. *)
From Coq Require Import List Arith Bool ZArith QArith Qcanon Permutation Lia.
From Verif Require Import Base BaseFacts Rings LatGen_Model PointGp_Model PointGp_Spec PointGp_Lin PointGp_Proofs SpaceGp_Model SpaceGp_Spec
  Grid_Model Grid_Spec Grid_Proofs Group_Model Group_Spec.
Import ListNotations.
Open Scope nat_scope.

Definition space_perms (extent : list Z) (pbc : list bool) : res (list (list nat)) :=
  let? L := grid_lattice extent pbc in
  let? G := grid_point_group extent pbc in
  let? H := sg_space_group L (map as_psym (g_elems G)) in
  Ok (perms H).
Definition grid_edges_of (extent : list Z) (pbc : list bool) : res (list (nat * nat)) :=
  let? L := grid_lattice extent pbc in Ok (gl_edges L).
Definition order_of (extent : list Z) (pbc : list bool) : res nat :=
  let? G := grid_point_group extent pbc in Ok (length (g_elems G)).
Lemma ladder_boxed : boxed [2; 3]%Z [false; true].
Proof. split; [reflexivity|]. repeat constructor; lia. Qed.
Lemma ladder_space : space_perms [2; 3]%Z [false; true] =
  Ok [[0; 1; 2; 3; 4; 5]; [0; 2; 1; 3; 5; 4]; [3; 4; 5; 0; 1; 2]; [3; 5; 4; 0; 2; 1]; [2; 0; 1; 5; 3; 4]; [1; 0; 2; 4; 3; 5]; [5; 3; 4; 2; 0; 1]; [4; 3; 5; 1; 0; 2];
      [1; 2; 0; 4; 5; 3]; [2; 1; 0; 5; 4; 3]; [4; 5; 3; 1; 2; 0]; [5; 4; 3; 2; 1; 0]].
Proof. vm_compute. reflexivity. Qed.
Lemma ladder_edges : grid_edges_of [2; 3]%Z [false; true] = Ok [(0, 2); (0, 1); (0, 3); (1, 2); (1, 4); (2, 5); (3, 5); (3, 4); (4, 5)].
Proof. vm_compute. reflexivity. Qed.
Lemma orders : order_of [2; 3]%Z [false; true] = Ok 4 /\ order_of [3; 3]%Z [true; true] = Ok 8 /\ order_of [3; 3]%Z [true; false] = Ok 4 /\ order_of [2; 2; 2]%Z [false; false; false] = Ok 48.
Proof. repeat split; vm_compute; reflexivity. Qed.
Lemma pair_space : space_perms [2]%Z [true] = Ok [[0; 1]; [0; 1]; [1; 0]; [1; 0]].
Proof. vm_compute. reflexivity. Qed.
Lemma distinct_refuted : exists extent pbc L G H, boxed extent pbc /\ (forall d, d < length extent -> (2 <= nth d extent 0)%Z) /\
  grid_lattice extent pbc = Ok L /\ grid_point_group extent pbc = Ok G /\ sg_space_group L (map as_psym (g_elems G)) = Ok H /\ ~ NoDup (perms H).
Proof.
  pose proof pair_space as E. unfold space_perms in E. destruct (grid_lattice [2%Z] [true]) as [L|] eqn:EL; [|discriminate]. cbn [bind] in E.
  destruct (grid_point_group [2%Z] [true]) as [G|] eqn:EG; [|discriminate]. cbn [bind] in E. destruct (sg_space_group L (map as_psym (g_elems G))) as [H|] eqn:EH; [|discriminate].
  cbn [bind] in E. injection E as E. exists [2%Z], [true], L, G, H. split; [split; [reflexivity|repeat constructor; lia]|]. split; [intros [|d] Hd; cbn in *; lia|].
  split; [exact EL|]. split; [exact EG|]. split; [exact EH|]. rewrite E. intros Nd. inversion Nd as [|? ? Y _]. apply Y. now left.
Qed.

Lemma transpose_inverse (W : PointGp_Model.mat) : orthogonal 2 W -> PointGp_Spec.inverse_of 2 W ((fun _ A => tr A) 2 W).
Proof. intros O. split; [exact (left_right 2 _ _ O)|exact O]. Qed.
(** the inverses, and the row of products of the fifth element *)
Definition tables_of (extent : list Z) (pbc : list bool) : res (list nat * list nat) :=
  let? G := grid_point_group extent pbc in
  let? t := pg_inverse (fun (_ : nat) (A : PointGp_Model.mat) => tr A) G in
  let? P := pg_product_table (fun (_ : nat) (A : PointGp_Model.mat) => tr A) G in
  Ok (t, nth 4 P []).
Lemma square_tables : tables_of [2; 2]%Z [true; true] = Ok ([0; 1; 2; 3; 4; 6; 5; 7], [4; 5; 6; 7; 0; 1; 2; 3]).
Proof. vm_compute. reflexivity. Qed.
