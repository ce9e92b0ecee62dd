(** * Property C59: a replica at inverse temperature beta samples the target to the power beta *)
From Coq Require Import List ZArith Reals Lra.
From Verif Require Import Balance_Model Balance_Spec Balance_Proofs PTBal_Model PTBal_Spec PTBal_Proofs.
Import ListNotations.
Open Scope R_scope.

(** Symmetric rules: detailed balance and invariance, at every inverse temperature. *)
Theorem C59_symmetric_rule :
  forall (X : Type) (eqd : forall x y : X, {x = y} + {x <> y}) space (psi : X -> R) (mp : Z) beta T a,
    NoDup space -> proposal space T -> (forall x y, In x space -> In y space -> T x y = T y x) ->
    (forall x y, In x space -> In y space ->
       probability_of (pt_accepts psi mp (fun _ _ => None) beta x y) (a x y)) ->
    forall n z, In z space ->
      (forall x, In x space -> tempered psi mp beta x * kernel eqd space T a x z
                             = tempered psi mp beta z * kernel eqd space T a z x) /\
      pushes space (kernel eqd space T a) n (tempered psi mp beta) z = tempered psi mp beta z.
Proof. exact (fun X => @replica_balance X). Qed.
Print Assumptions C59_symmetric_rule.

(** At inverse temperature 1 the step is the one of the ordinary sampler, for every rule. *)
Theorem C59_beta_one :
  forall (X : Type) (psi : X -> R) mp corr (x y : X) u,
    pt_accepts psi mp corr 1 x y u <-> accepts psi mp corr x y u.
Proof. exact (fun X => @pt_accepts_one X). Qed.
Print Assumptions C59_beta_one.

(** A rule with a correction: the correction is multiplied by beta as well, and detailed
    balance fails.  Two configurations of equal amplitude, beta = 1/2. *)
Definition asym_T (x y : bool) : R := if x then (if y then 0 else 1) else 1 / 2.
Definition asym_corr (x y : bool) : option ext :=
  if x then Some (Fin (ln (1 / 2))) else if y then Some (Fin (ln 2)) else None.
Definition asym_a (x y : bool) : R :=
  if x then exp (1 / 2 * ln (1 / 2)) else 1.

Theorem C59_corrected_rule_refuted :
  exists (T : bool -> bool -> R) corr a x z,
    proposal [true; false] T /\ corrected [true; false] T corr /\
    (forall x y, 0 < T x y -> probability_of (pt_accepts (fun _ => 0) 2 corr (1 / 2) x y) (a x y)) /\
    tempered (fun _ : bool => 0) 2 (1 / 2) x * kernel Bool.bool_dec [true; false] T a x z
    <> tempered (fun _ : bool => 0) 2 (1 / 2) z * kernel Bool.bool_dec [true; false] T a z x.
Proof.
  exists asym_T, asym_corr, asym_a, true, false.
  split; [split; [intros [] [] _ _; cbn; lra|intros [] _; cbn; lra]|].
  split; [intros [] [] _ _ H; cbn in *; try lra; split; try lra; f_equal; lra|].
  assert (Hh : 0 < exp (1 / 2 * ln (1 / 2)) < 1).
  { split; [apply exp_pos|]. apply Rlt_le_trans with (exp 0); [apply exp_increasing|rewrite exp_0; lra].
    assert (ln (1 / 2) < 0) by (rewrite <- ln_1; apply ln_increasing; lra). lra. }
  assert (H2 : 1 < exp (1 / 2 * ln 2)).
  { apply Rle_lt_trans with (exp 0); [rewrite exp_0; lra|apply exp_increasing].
    assert (0 < ln 2) by (rewrite <- ln_1; apply ln_increasing; lra). lra. }
  split.
  - intros [] [] Hp; cbn in Hp; try lra; unfold pt_accepts, asym_corr, asym_a, log_prob;
      rewrite ?Rmult_0_r, ?Rminus_0_r, ?Rplus_0_l; split; try lra; intros u Hu.
    + tauto.
    + split; lra.
    + rewrite ?Rmult_0_r, exp_0. tauto.
  - assert (Et : forall x, tempered (fun _ : bool => 0) 2 (1 / 2) x = 1).
    { intros x. unfold tempered, target, Rpower. rewrite exp_0. cbn [powerRZ].
      rewrite pow1, ln_1, Rmult_0_r. apply exp_0. }
    rewrite !Et. unfold kernel, asym_T, asym_a. cbn. pose proof sqrt_half_ne. lra.
Qed.
Print Assumptions C59_corrected_rule_refuted.

(** The hypotheses of the first theorem are satisfiable. *)
Example C59_ex :
  proposal [true; false] (fun _ _ => 1 / 2) /\
  forall beta, exists a, forall x y, probability_of
     (pt_accepts (fun b : bool => if b then 1 else 0) 2 (fun _ _ => None) beta x y) (a x y).
Proof.
  split; [split; [intros; lra|intros [] _; cbn; lra]|].
  intros beta. exists (fun x y => Rmin 1 (exp (beta * (log_prob (fun b : bool => if b then 1 else 0) 2 y
      - log_prob (fun b : bool => if b then 1 else 0) 2 x)))).
  intros x y. apply prob_exists. apply Rlt_le, exp_pos.
Qed.
