(** * Property C33: detailed balance *)
From Coq Require Import List ZArith Reals Lra.
From Verif Require Import Balance_Model Balance_Spec Balance_Proofs.
Import ListNotations.
Open Scope R_scope.

(** The accept test has a well defined probability, which is
    min(1, pi(y) T(y,x) / (pi(x) T(x,y))). *)
Theorem C33_acceptance_probability :
  forall (X : Type) (space : list X) (psi : X -> R) (mp : Z) corr T x y,
    proposal space T -> corrected space T corr -> In x space -> In y space -> 0 < T x y ->
    probability_of (accepts psi mp corr x y)
      (Rmin 1 (target psi mp y * T y x / (target psi mp x * T x y))).
Proof.
  exact (fun X space psi mp corr T x y HT Hc Hx Hy Hp =>
    match accepts_prob psi mp corr x y with
    | ex_intro _ a Ha =>
        eq_ind a (probability_of (accepts psi mp corr x y)) Ha _
          (accept_ratio_at space psi mp corr T HT Hc x y a Hx Hy Hp Ha)
    end).
Qed.
Print Assumptions C33_acceptance_probability.

(** The test of the numpy sampler is the same test. *)
Theorem C33_numpy_same_test :
  forall (X : Type) (psi : X -> R) mp corr (x y : X) u,
    accepts psi mp corr x y u <-> np_accepts psi mp corr x y u.
Proof. exact (fun X psi mp corr x y u => accepts_iff_np psi mp corr x y u). Qed.
Print Assumptions C33_numpy_same_test.

(** Detailed balance of the transition probabilities of one accept/reject step. *)
Theorem C33_detailed_balance :
  forall (X : Type) (eqd : forall x y : X, {x = y} + {x <> y}) space (psi : X -> R) (mp : Z) corr T a,
    NoDup space -> proposal space T -> corrected space T corr ->
    (forall x y, In x space -> In y space -> probability_of (accepts psi mp corr x y) (a x y)) ->
    forall x z, In x space -> In z space ->
      target psi mp x * kernel eqd space T a x z = target psi mp z * kernel eqd space T a z x.
Proof.
  exact (fun X eqd space psi mp corr T a Hnd HT Hc Ha x z =>
           balance eqd space Hnd psi mp corr T a HT Hc Ha x z).
Qed.
Print Assumptions C33_detailed_balance.

(** The step is a probability kernel ... *)
Theorem C33_kernel :
  forall (X : Type) (eqd : forall x y : X, {x = y} + {x <> y}) space (psi : X -> R) (mp : Z) corr T a,
    NoDup space -> proposal space T ->
    (forall x y, In x space -> In y space -> probability_of (accepts psi mp corr x y) (a x y)) ->
    forall x, In x space ->
      rsum (kernel eqd space T a x) space = 1 /\ forall z, 0 <= kernel eqd space T a x z.
Proof.
  exact (fun X eqd space psi mp corr T a Hnd HT Ha x Hx =>
    conj (kernel_row eqd space Hnd T a HT x Hx)
         (fun z => kernel_nonneg eqd space psi mp corr T a HT Ha x z Hx)).
Qed.
Print Assumptions C33_kernel.

(** ... and any number of steps leaves the target distribution invariant. *)
Theorem C33_target_invariant :
  forall (X : Type) (eqd : forall x y : X, {x = y} + {x <> y}) space (psi : X -> R) (mp : Z) corr T a,
    NoDup space -> proposal space T -> corrected space T corr ->
    (forall x y, In x space -> In y space -> probability_of (accepts psi mp corr x y) (a x y)) ->
    forall n z, In z space ->
      pushes space (kernel eqd space T a) n (target psi mp) z = target psi mp z.
Proof.
  exact (fun X eqd space psi mp corr T a Hnd HT Hc Ha n z =>
           pushes_target eqd space Hnd psi mp corr T a HT Hc Ha n z).
Qed.
Print Assumptions C33_target_invariant.

(** A concrete case: two configurations, an asymmetric rule and its correction. *)
Definition ex_T (x y : bool) : R :=
  if x then (if y then 0 else 1) else 1 / 2.
Definition ex_corr (x y : bool) : option ext :=
  if x then Some (Fin (ln (1 / 2))) else if y then Some (Fin (ln 2)) else None.

Example C33_ex : proposal [true; false] ex_T /\ corrected [true; false] ex_T ex_corr.
Proof.
  split.
  - split; [intros [] [] _ _; cbn; lra|]. intros [] _; cbn; lra.
  - intros [] [] _ _ H; cbn in *; try lra; split; try lra; f_equal; lra.
Qed.
