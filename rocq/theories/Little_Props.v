(** * C88: little groups and the irreducible characters of space groups *)
From Coq Require Import List Arith Bool ZArith QArith Qcanon Reals Lia.
From Verif Require Import Base Rings LatGen_Model PointGp_Model ARNN_Model Estim_Model SpaceGp_Model SpaceGp_Spec Little_Model Little_Spec Little_Proofs Little_Phase Little_Char Little_Ex.
Import ListNotations.
Open Scope nat_scope.

(** The little group of a wave vector of the box consists of exactly the symmetries that keep it
    up to reciprocal lattice vectors, if the first symmetry is the identity. *)
Theorem C88_little_group : forall B G y, proper_box B -> G <> [] -> first_is_identity (b_dim B) G -> keeps_waves B G -> wave B y ->
  exists idx, little_index B G y = Ok idx /\ NoDup idx /\ (forall p, In p idx <-> in_little (b_dim B) G y p).
Proof. exact little_group_thm. Qed.
Print Assumptions C88_little_group.
Example C88_little_group_ex : proper_box chain_box /\ first_is_identity 1 chain /\ keeps_waves chain_box chain /\ wave chain_box k4 /\
  little_index chain_box chain k4 = Ok [0] /\ little_index chain_box chain (fun _ => Q2Qc (1 # 2)) = Ok [0; 1].
Proof. exact (conj chain_box_ok (conj chain_first (conj chain_waves (conj k4_wave chain_index)))). Qed.

(** Refuted: the same when the identity is not the first of the symmetries. *)
Theorem C88_little_group_refuted : exists B G y idx, proper_box B /\ keeps_waves B G /\ wave B y /\ little_index B G y = Ok idx /\
  (exists p, p < length G /\ (forall v d, d < b_dim B -> moved_k (b_dim B) G p v d = v d) /\ ~ In p idx) /\ (exists p, In p idx /\ ~ in_little (b_dim B) G y p).
Proof. exact little_refuted. Qed.
Print Assumptions C88_little_group_refuted.

(** It is a subgroup. *)
Theorem C88_subgroup : forall D G mul inv, group_table (length G) mul inv -> acting D G mul -> forall y,
  in_little D G y 0 /\ (forall p q, in_little D G y p -> in_little D G y q -> in_little D G y (mul p q)) /\ (forall p, in_little D G y p -> in_little D G y (inv p)).
Proof. exact subgroup_thm. Qed.
Print Assumptions C88_subgroup.
Example C88_subgroup_ex : group_table (length chain) Nat.lxor (fun p => p) /\ acting 1 chain Nat.lxor.
Proof. exact (conj chain_group chain_acting). Qed.

(** A vector that is not a wave vector of the box, or has a component along an open axis, is rejected. *)
Theorem C88_invalid : forall B G ct CT y p, p < length G -> far_from_waves B (moved_k (b_dim B) G p y) ->
  little_index B G y = Err Exception_ /\ irreps B G ct CT y = Err Exception_.
Proof. exact invalid_thm. Qed.
Print Assumptions C88_invalid.
Example C88_invalid_ex : far_from_waves chain_box (fun _ => Q2Qc (1 # 8)) /\ little_index chain_box chain (fun _ => Q2Qc (1 # 8)) = Err Exception_.
Proof. split; [exact chain_far|vm_compute; reflexivity]. Qed.

(** One row for every row of a real character table of the little group; its entries are the
    induced characters, rounded off, for all translations and, fastest, all symmetries. *)
Theorem C88_irreps : forall B G ct CT y, proper_box B -> G <> [] -> first_is_identity (b_dim B) G -> keeps_waves B G -> wave B y -> real_table CT ->
  exists idx M, little_index B G y = Ok idx /\ irreps B G ct CT y = Ok M /\ length M = length CT /\
  forall r row X, nth_error CT r = Some row -> length row = length idx -> continued idx row X ->
  exists out, nth_error M r = Some out /\
    Forall2 (fun z tg => rounded_off z (induced (b_dim B) G ct (length idx) X y (fst tg) (snd tg))) out
      (list_prod (trans_tuples B (seq 0 (b_dim B))) (seq 0 (length G))).
Proof. exact irreps_main. Qed.
Print Assumptions C88_irreps.
Example C88_irreps_ex : proper_box chain_box /\ first_is_identity 1 chain /\ keeps_waves chain_box chain /\ wave chain_box k4 /\ real_table [[(1, 0)%R]] /\
  little_index chain_box chain k4 = Ok [0] /\ continued [0] [(1, 0)%R] at_one.
Proof.
  exact (conj chain_box_ok (conj chain_first (conj chain_waves (conj k4_wave (conj
    (fun row z (H : In row [[(1, 0)%R]]) (Hz : In z row) => match H with or_introl E => match E in _ = r return In z r -> snd z = 0%R with eq_refl => fun Hz => match Hz with or_introl E => eq_sym (f_equal snd E) | or_intror F => False_ind _ F end end Hz | or_intror F => False_ind _ F end)
    (conj (proj1 chain_index) chain_continued)))))).
Qed.

(** The translations are listed in the order of the elements of the space group (C87). *)
Theorem C88_order : forall L axes, trans_tuples (KB (g_extent (gl_geom L)) (g_pbc (gl_geom L))) axes = tuples L axes.
Proof. exact tuples_same. Qed.
Print Assumptions C88_order.
Example C88_order_ex : trans_tuples (KB [2; 3] [true; true])%Z [0; 1] = [[0; 0]; [0; 1]; [0; 2]; [1; 0]; [1; 1]; [1; 2]]%Z /\
  trans_tuples (KB [2; 3] [false; true])%Z [0; 1] = [[0; 0]; [0; 1]; [0; 2]]%Z.
Proof. split; reflexivity. Qed.

(** Refuted: complex characters of the little group; their imaginary parts are lost. *)
Theorem C88_complex_refuted : exists B G mul inv CT y idx M row X out, proper_box B /\ G <> [] /\ first_is_identity (b_dim B) G /\ keeps_waves B G /\ wave B y /\
  group_table (length G) mul inv /\ little_index B G y = Ok idx /\ irreps B G (conjugated mul inv) CT y = Ok M /\
  nth_error CT 0 = Some row /\ length row = length idx /\ continued idx row X /\ nth_error M 0 = Some out /\
  ~ Forall2 (fun z tg => rounded_off z (induced (b_dim B) G (conjugated mul inv) (length idx) X y (fst tg) (snd tg))) out
      (list_prod (trans_tuples B (seq 0 (b_dim B))) (seq 0 (length G))).
Proof. exact imag_refuted. Qed.
Print Assumptions C88_complex_refuted.

(** The dimension is that of the little group times the number of wave vectors in the star. *)
Theorem C88_dimension : forall B G mul inv y X (idx : list nat), group_table (length G) mul inv -> (forall d, d < b_dim B -> k_w (sym G 0) d = 0%Qc) ->
  induced (b_dim B) G (conjugated mul inv) (length idx) X y (repeat 0%Z (b_dim B)) 0 = rscal (INR (length G) / INR (length idx)) (X 0).
Proof. exact dim_lemma. Qed.
Print Assumptions C88_dimension.
Example C88_dimension_ex : group_table (length chain) Nat.lxor (fun p => p) /\ (forall d, d < 1 -> k_w (sym chain 0) d = 0%Qc).
Proof. exact (conj chain_group (fun d Hd => chain_symmorphic 0 d (le_S 1 1 (le_n 1)) Hd)). Qed.

(** Orthogonal characters of the little group induce orthogonal characters of the space group,
    and the norms are in proportion to the orders of the groups. *)
Theorem C88_orthogonal : forall B G mul inv y X X' idx, proper_box B -> group_table (length G) mul inv -> acting (b_dim B) G mul -> keeps_waves B G -> wave B y ->
  NoDup idx -> (forall p, In p idx <-> in_little (b_dim B) G y p) -> class_function (b_dim B) G mul inv y X -> class_function (b_dim B) G mul inv y X' ->
  phases_fit (b_dim B) G y ->
  overlap B G (conjugated mul inv) (length idx) X y (length idx) X' y = rscal (INR (n_trans B) * INR (length G) / INR (length idx)) (inner (length G) X X').
Proof. exact ortho_thm. Qed.
Print Assumptions C88_orthogonal.
(** The condition on the phases holds for symmetries without translations. *)
Theorem C88_symmorphic : forall D G y, symmorphic D G -> phases_fit D G y.
Proof. exact symmorphic_fit. Qed.
Print Assumptions C88_symmorphic.
Example C88_orthogonal_ex : proper_box chain_box /\ group_table (length chain) Nat.lxor (fun p => p) /\ acting 1 chain Nat.lxor /\ keeps_waves chain_box chain /\ wave chain_box k4 /\
  (forall p, In p [0] <-> in_little 1 chain k4 p) /\ class_function 1 chain Nat.lxor (fun p => p) k4 at_one /\ symmorphic 1 chain.
Proof.
  exact (conj chain_box_ok (conj chain_group (conj chain_acting (conj chain_waves (conj k4_wave (conj
   (fun p => iff_trans (conj (fun H : In p [0] => match H with or_introl E => eq_sym E | or_intror F => False_ind _ F end) (fun E : p = 0 => or_introl (eq_sym E))) (iff_sym (chain_little p)))
   (conj chain_class chain_symmorphic))))))).
Qed.

(** Characters of different stars are orthogonal. *)
Theorem C88_stars : forall B G mul inv cj y y' X X' l l', proper_box B -> group_table (length G) mul inv -> acting (b_dim B) G mul -> keeps_waves B G -> wave B y -> wave B y' ->
  (forall p, p < length G -> ~ equal_waves (b_dim B) (moved_k (b_dim B) G p y) y') -> overlap B G cj l X y l' X' y' = r0 cC.
Proof. exact stars_thm. Qed.
Print Assumptions C88_stars.
Example C88_stars_ex : wave chain_box k0 /\ (forall p, p < length chain -> ~ equal_waves 1 (moved_k 1 chain p k4) k0).
Proof. exact chain_stars. Qed.

(** Refuted: the norms are right for all space groups with translations in their symmetries. *)
Theorem C88_nonsymmorphic_refuted : exists B G mul inv y X idx, proper_box B /\ group_table (length G) mul inv /\ acting (b_dim B) G mul /\ composes (b_dim B) G mul /\ keeps_waves B G /\ wave B y /\
  little_index B G y = Ok idx /\ NoDup idx /\ (forall p, In p idx <-> in_little (b_dim B) G y p) /\ class_function (b_dim B) G mul inv y X /\
  inner (length G) X X = rscal (INR (length idx)) (r1 cC) /\
  overlap B G (conjugated mul inv) (length idx) X y (length idx) X y <> rscal (INR (n_trans B) * INR (length G)) (r1 cC).
Proof. exact pgg_thm. Qed.
Print Assumptions C88_nonsymmorphic_refuted.

(** The numbers k . a_d / 2 pi of a rotated wave vector are given by the matrix used above. *)
Theorem C88_basis : forall n U V W k d, (forall i j, i < n -> j < n -> qs n (fun c => V i c * U c j)%Qc = (if Nat.eqb i j then 1 else 0)%Qc) -> d < n ->
  k_components n U (mvec n W k) d = mvec n (k_form n U V W) (k_components n U k) d.
Proof. exact basis_lemma. Qed.
Print Assumptions C88_basis.
Example C88_basis_ex : forall i j, i < 2 -> j < 2 -> qs 2 (fun c => (if Nat.ltb i c then - (1) else if Nat.eqb i c then 1 else 0) * (if Nat.ltb c j then 1 else if Nat.eqb c j then 1 else 0))%Qc = (if Nat.eqb i j then 1 else 0)%Qc.
Proof. intros i j Hi Hj. destruct i as [|[|i]]; destruct j as [|[|j]]; try (apply Qc_is_canon; vm_compute; reflexivity); exfalso; lia. Qed.
