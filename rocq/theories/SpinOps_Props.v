(** * C71, C72: spin and boson operators *)
From Coq Require Import List ZArith Reals Lra Lia.
From Verif Require Import Base Scalar LocalOp_Model LocalOp_Spec SpinOps_Model SpinOps_Spec
  SpinOps_Proofs SpinRows_Proofs SpinAlg_Proofs.
Import ListNotations.
Open Scope R_scope.

(** ** C71: spin operators.  In every local dimension the matrices satisfy the angular
    momentum algebra; the local state -(N-1) is the one of eigenvalue +(N-1). *)
Theorem C71_algebra : forall N, (0 < N)%nat ->
  let X := of_rows (sigmax_mat N) in let Y := of_rows (sigmay_mat N) in
  let Z := of_rows (sigmaz_mat N) in
  same N (ocomm N X Y) (oscale (0, 2) Z) /\
  same N (ocomm N Y Z) (oscale (0, 2) X) /\
  same N (ocomm N Z X) (oscale (0, 2) Y).
Proof. exact algebra_main. Qed.
Print Assumptions C71_algebra.

(** sigma.sigma = 4 j (j + 1) = N^2 - 1 *)
Theorem C71_casimir : forall N, (0 < N)%nat ->
  let X := of_rows (sigmax_mat N) in let Y := of_rows (sigmay_mat N) in
  let Z := of_rows (sigmaz_mat N) in
  same N (oadd (oadd (omul N X X) (omul N Y Y)) (omul N Z Z))
         (oscale (real (INR N * INR N - 1)) oid).
Proof. exact casimir_main. Qed.
Print Assumptions C71_casimir.

Theorem C71_ladder : forall N, (0 < N)%nat ->
  let X := of_rows (sigmax_mat N) in let Y := of_rows (sigmay_mat N) in
  let Z := of_rows (sigmaz_mat N) in
  let U := of_rows (sigmap_mat N) in let D := of_rows (sigmam_mat N) in
  same N (ocomm N U D) Z /\
  same N (ocomm N Z U) (oscale (2, 0) U) /\ same N (ocomm N Z D) (oscale (-2, 0) D) /\
  same N D (odagger U) /\
  same N X (oadd U D) /\ same N (oscale (2, 0) U) (oadd X (oscale ci Y)) /\
  same N (oscale (2, 0) D) (osub X (oscale ci Y)).
Proof. exact ladder_main. Qed.
Print Assumptions C71_ladder.

Theorem C71_hermitian : forall N, (0 < N)%nat ->
  (let X := of_rows (sigmax_mat N) in same N (odagger X) X) /\
  (let Y := of_rows (sigmay_mat N) in same N (odagger Y) Y) /\
  (let Z := of_rows (sigmaz_mat N) in same N (odagger Z) Z).
Proof. exact hermitian_main. Qed.
Print Assumptions C71_hermitian.

(** The documentation of sigmap says sigma^+ = sigma^x + i sigma^y: that is twice the
    operator. *)
Theorem C71_documented_ladder_refuted :
  ~ same 2 (of_rows (sigmap_mat 2))
           (oadd (of_rows (sigmax_mat 2)) (oscale ci (of_rows (sigmay_mat 2)))).
Proof. exact documented_ladder_false. Qed.
Print Assumptions C71_documented_ladder_refuted.

Example C71_ex : of_rows (sigmaz_mat 2) 0%nat 0%nat = (1, 0) /\
  of_rows (sigmaz_mat 2) 1%nat 1%nat = (-1, 0) /\ of_rows (sigmax_mat 2) 0%nat 1%nat = (1, 0).
Proof.
  rewrite (rz 2 0%nat 0%nat), (rz 2 1%nat 1%nat), (rx 2 (Nat.lt_0_succ 1) 0%nat 1%nat) by lia.
  unfold Zd, diagonal, Xo, oadd, P, M, up, down, cadd. cbn [Nat.eqb fst snd INR]. rewrite amp_2_1.
  repeat split; f_equal; ring.
Qed.

(** *** As operators: the rows that get_conn returns.  [eps] is the cutoff. *)
Theorem C71_sigmaz_row :
  forall eps, 0 <= eps < 1 -> forall depth hs, sorted_space hs ->
  forall s, (s < length hs)%nat -> forall x, configuration hs x ->
  forall junk junkx n, nth s hs [] = spin_states n ->
  exists o, sigmaz eps (S depth) hs s = Ok o /\
    row_or_fault (cscal eps) hs (fun y => when_eq x y (real (- IZR (nth s x 0%Z))))
      (get_conn (cscal eps) hs o junk junkx x).
Proof. exact sigmaz_row. Qed.
Print Assumptions C71_sigmaz_row.

Theorem C71_sigmap_row :
  forall eps, 0 <= eps < 1 -> forall depth hs, sorted_space hs ->
  forall s, (s < length hs)%nat -> forall x, configuration hs x ->
  forall junk junkx n, nth s hs [] = spin_states n ->
  exists o, sigmap eps (S depth) hs s = Ok o /\
    row_or_fault (cscal eps) hs
      (fun y => when_eq (moved x s 2) y (real (ladder_up n (nth s x 0%Z))))
      (get_conn (cscal eps) hs o junk junkx x).
Proof. exact sigmap_row. Qed.
Print Assumptions C71_sigmap_row.

Theorem C71_sigmam_row :
  forall eps, 0 <= eps < 1 -> forall depth hs, sorted_space hs ->
  forall s, (s < length hs)%nat -> forall x, configuration hs x ->
  forall junk junkx n, nth s hs [] = spin_states n ->
  exists o, sigmam eps (S depth) hs s = Ok o /\
    row_or_fault (cscal eps) hs
      (fun y => when_eq (moved x s (-2)) y (real (ladder_down n (nth s x 0%Z))))
      (get_conn (cscal eps) hs o junk junkx x).
Proof. exact sigmam_row. Qed.
Print Assumptions C71_sigmam_row.

Theorem C71_sigmax_row :
  forall eps, 0 <= eps < 1 -> forall depth hs, sorted_space hs ->
  forall s, (s < length hs)%nat -> forall x, configuration hs x ->
  forall junk junkx n, nth s hs [] = spin_states n ->
  exists o, sigmax eps (S depth) hs s = Ok o /\
    row_or_fault (cscal eps) hs
      (fun y => cadd (when_eq (moved x s 2) y (real (ladder_up n (nth s x 0%Z))))
                     (when_eq (moved x s (-2)) y (real (ladder_down n (nth s x 0%Z)))))
      (get_conn (cscal eps) hs o junk junkx x).
Proof. exact sigmax_row. Qed.
Print Assumptions C71_sigmax_row.

Theorem C71_sigmay_row :
  forall eps, 0 <= eps < 1 -> forall depth hs, sorted_space hs ->
  forall s, (s < length hs)%nat -> forall x, configuration hs x ->
  forall junk junkx n, nth s hs [] = spin_states n ->
  exists o, sigmay eps (S depth) hs s = Ok o /\
    row_or_fault (cscal eps) hs
      (fun y => cmul ci (csub (when_eq (moved x s (-2)) y (real (ladder_down n (nth s x 0%Z))))
                              (when_eq (moved x s 2) y (real (ladder_up n (nth s x 0%Z))))))
      (get_conn (cscal eps) hs o junk junkx x).
Proof. exact sigmay_row. Qed.
Print Assumptions C71_sigmay_row.

(** *** Commutators formed with the operators themselves (idealised cutoff) *)
Theorem C71_operator_commutator :
  forall depth hs d s matA matB A B C,
  sorted_space hs -> uniform_space hs d -> (Z.of_nat d ^ Z.of_nat (length hs) <= 2 ^ 31 - 1)%Z ->
  (s < length hs)%nat -> is_matrix d (matA d) A -> is_matrix d (matB d) B ->
  same d (ocomm d A B) C ->
  exists o, build S0 (S depth) hs (commutator (site_expr hs matA s) (site_expr hs matB s)) = Ok o /\
    forall x junk junkx, configuration hs x ->
      row_or_fault S0 hs (site_element hs s C x) (get_conn S0 hs o junk junkx x).
Proof. exact commutator_row. Qed.
Print Assumptions C71_operator_commutator.

Theorem C71_sites_commute :
  forall depth hs d s t matA matB A B,
  sorted_space hs -> uniform_space hs d -> (Z.of_nat d ^ Z.of_nat (length hs) <= 2 ^ 31 - 1)%Z ->
  (s < length hs)%nat -> (t < length hs)%nat -> s <> t ->
  is_matrix d (matA d) A -> is_matrix d (matB d) B ->
  exists o, build S0 (S depth) hs (commutator (site_expr hs matA s) (site_expr hs matB t)) = Ok o /\
    forall x junk junkx, configuration hs x ->
      row_or_fault S0 hs (fun _ => (0, 0)) (get_conn S0 hs o junk junkx x).
Proof. exact commutator_elsewhere. Qed.
Print Assumptions C71_sites_commute.

Example C71_commutator_ex : sorted_space [spin_states 3; spin_states 3] /\
  uniform_space [spin_states 3; spin_states 3] 3 /\
  is_matrix 3 (sigmax_mat 3) (Xo 3) /\ is_matrix 3 (sigmaz_mat 3) (Zd 3) /\
  configuration [spin_states 3; spin_states 3] [-2; 2]%Z.
Proof.
  split; [repeat constructor|]. split.
  { split; [lia|]. intros [|[|k]] L; cbn in *; try reflexivity; lia. }
  split; [apply sigmax_entries; lia|]. split; [apply sigmaz_entries|].
  repeat (constructor; [cbn; auto|]); constructor.
Qed.

(** The sum of all sigmaz is minus the sum of the stored values, so in
    Spin(s, N, total_sz=M) the observable "total sigmaz" is -2 M. *)
Theorem C71_total_magnetisation :
  forall depth hs, sorted_space hs ->
  (forall s, (s < length hs)%nat -> exists n, nth s hs [] = spin_states n) ->
  exists o, build S0 (S depth) hs (sum_sites hs sigmaz_mat (length hs)) = Ok o /\
    forall x junk junkx, configuration hs x ->
      row_or_fault S0 hs (fun y => when_eq x y (real (- IZR (magnetisation x))))
        (get_conn S0 hs o junk junkx x).
Proof. exact total_sz_row. Qed.
Print Assumptions C71_total_magnetisation.

Theorem C71_sigmaz_value_refuted :
  forall eps depth junk junkx, 0 <= eps < 1 ->
  exists o l, sigmaz eps (S depth) [spin_states 2] 0 = Ok o /\
    get_conn (cscal eps) [spin_states 2] o junk junkx [1%Z] = Ok l /\
    weight (cscal eps) l [1%Z] = real (-1).
Proof. exact sigmaz_sign. Qed.
Print Assumptions C71_sigmaz_value_refuted.

Theorem C71_total_sz_refuted :
  forall depth junk junkx,
  exists o l, build S0 (S depth) [spin_states 2; spin_states 2]
                (sum_sites [spin_states 2; spin_states 2] sigmaz_mat 2) = Ok o /\
    get_conn S0 [spin_states 2; spin_states 2] o junk junkx [1%Z; 1%Z] = Ok l /\
    magnetisation [1%Z; 1%Z] = 2%Z /\ weight S0 l [1%Z; 1%Z] = real (-2).
Proof. exact total_sz_sign. Qed.
Print Assumptions C71_total_sz_refuted.

(** ** C72: boson operators.  The commutator is 1 except on the highest occupation. *)
Theorem C72_algebra : forall N, (0 < N)%nat ->
  let A := of_rows (destroy_mat N) in let C := of_rows (create_mat N) in
  let n := of_rows (number_mat N) in
  same N C (odagger A) /\ same N (omul N C A) n /\
  same N (ocomm N A C)
    (fun i j => if Nat.eqb i j then (if Nat.eqb i (N - 1) then real (1 - INR N) else real 1) else (0, 0)) /\
  same N (ocomm N n C) C /\ same N (ocomm N n A) (oscale (-1, 0) A).
Proof. exact boson_main. Qed.
Print Assumptions C72_algebra.

Theorem C72_destroy_row :
  forall eps, 0 <= eps < 1 -> forall depth hs, sorted_space hs ->
  forall s, (s < length hs)%nat -> forall x, configuration hs x ->
  forall junk junkx n, nth s hs [] = fock_states n ->
  exists o, destroy eps (S depth) hs s = Ok o /\
    row_or_fault (cscal eps) hs
      (fun y => when_eq (moved x s 1) y (real (sqrt (IZR (nth s y 0%Z)))))
      (get_conn (cscal eps) hs o junk junkx x).
Proof. exact destroy_row. Qed.
Print Assumptions C72_destroy_row.

Theorem C72_create_row :
  forall eps, 0 <= eps < 1 -> forall depth hs, sorted_space hs ->
  forall s, (s < length hs)%nat -> forall x, configuration hs x ->
  forall junk junkx n, nth s hs [] = fock_states n ->
  exists o, create eps (S depth) hs s = Ok o /\
    row_or_fault (cscal eps) hs
      (fun y => when_eq (moved x s (-1)) y (real (sqrt (IZR (nth s x 0%Z)))))
      (get_conn (cscal eps) hs o junk junkx x).
Proof. exact create_row. Qed.
Print Assumptions C72_create_row.

Theorem C72_number_row :
  forall eps, 0 <= eps < 1 -> forall depth hs, sorted_space hs ->
  forall s, (s < length hs)%nat -> forall x, configuration hs x ->
  forall junk junkx n, nth s hs [] = fock_states n ->
  exists o, number eps (S depth) hs s = Ok o /\
    row_or_fault (cscal eps) hs (fun y => when_eq x y (real (IZR (nth s x 0%Z))))
      (get_conn (cscal eps) hs o junk junkx x).
Proof. exact number_row. Qed.
Print Assumptions C72_number_row.

(** proj(hilbert, site, n): refused above the cutoff; a negative [n] counts from the top. *)
Theorem C72_proj_row :
  forall eps depth hs s x junk junkx N (n : Z),
  0 <= eps < 1 -> sorted_space hs -> (s < length hs)%nat -> configuration hs x ->
  nth s hs [] = fock_states N ->
  ((Z.of_nat N <= n)%Z -> proj eps (S depth) hs s n = Err ValueError) /\
  ((n < - Z.of_nat N)%Z -> proj eps (S depth) hs s n = Err IndexError) /\
  ((- Z.of_nat N <= n < Z.of_nat N)%Z ->
   exists o, proj eps (S depth) hs s n = Ok o /\
     row_or_fault (cscal eps) hs
       (fun y => when_eq x y
          (if (nth s x 0 =? (if n <? 0 then n + Z.of_nat N else n))%Z then real 1 else (0, 0)))
       (get_conn (cscal eps) hs o junk junkx x)).
Proof. exact proj_row. Qed.
Print Assumptions C72_proj_row.

(** No state has -1 bosons, yet the projector on it is not zero. *)
Theorem C72_proj_negative_refuted :
  forall eps depth junk junkx, 0 <= eps < 1 ->
  exists o l, proj eps (S depth) [fock_states 3] 0 (-1) = Ok o /\
    get_conn (cscal eps) [fock_states 3] o junk junkx [2%Z] = Ok l /\
    weight (cscal eps) l [2%Z] = real 1.
Proof. exact proj_last. Qed.
Print Assumptions C72_proj_negative_refuted.

Example C72_ex : sorted_space [fock_states 3; fock_states 2] /\
  configuration [fock_states 3; fock_states 2] [2; 0]%Z /\ 0 <= 1 / 1000000 < 1.
Proof. split; [repeat constructor|]. split; [repeat (constructor; [cbn; auto|]); constructor|lra]. Qed.
