(** * Proofs: detailed balance of a replica *)
From Coq Require Import List ZArith Reals Lra.
From Verif Require Import Balance_Model Balance_Spec Balance_Proofs PTBal_Model PTBal_Spec.
Import ListNotations.
Open Scope R_scope.

Lemma pt_accepts_scaled {X} (psi : X -> R) mp beta (x y : X) u :
  pt_accepts psi mp (fun _ _ => None) beta x y u <->
  accepts (fun z => beta * psi z) mp (fun _ _ => None) x y u.
Proof.
  unfold pt_accepts, accepts, log_prob.
  replace (beta * (IZR mp * psi y - IZR mp * psi x))
    with (IZR mp * (beta * psi y) - IZR mp * (beta * psi x)) by ring. reflexivity.
Qed.

Lemma tempered_target {X} (psi : X -> R) mp beta (x : X) :
  tempered psi mp beta x = target (fun z => beta * psi z) mp x.
Proof.
  unfold tempered, target. unfold Rpower. rewrite <- !exp_pow, ln_exp. f_equal. ring.
Qed.

Lemma replica_balance {X} (eqd : forall x y : X, {x = y} + {x <> y}) space (psi : X -> R) mp beta T a :
  NoDup space -> proposal space T -> (forall x y, In x space -> In y space -> T x y = T y x) ->
  (forall x y, In x space -> In y space ->
     probability_of (pt_accepts psi mp (fun _ _ => None) beta x y) (a x y)) ->
  forall n z, In z space ->
    (forall x, In x space -> tempered psi mp beta x * kernel eqd space T a x z
                           = tempered psi mp beta z * kernel eqd space T a z x) /\
    pushes space (kernel eqd space T a) n (tempered psi mp beta) z = tempered psi mp beta z.
Proof.
  intros Hnd HT Hs Ha n z Hz.
  assert (Ha' : forall x y, In x space -> In y space ->
     probability_of (accepts (fun z => beta * psi z) mp (fun _ _ => None) x y) (a x y)).
  { intros x y Hx Hy. destruct (Ha x y Hx Hy) as [H1 H2]. split; [exact H1|].
    intros u Hu. rewrite <- pt_accepts_scaled. apply H2, Hu. }
  assert (Hc : corrected space T (fun _ _ => None)).
  { intros x y Hx Hy _. apply Hs; assumption. }
  split.
  - intros x Hx. rewrite !tempered_target.
    apply (balance eqd space Hnd (fun z => beta * psi z) mp (fun _ _ => None) T a); assumption.
  - rewrite tempered_target. rewrite (pushes_ext eqd space T a n _ (target (fun z => beta * psi z) mp)); [|intros; apply tempered_target|exact Hz].
    apply (pushes_target eqd space Hnd (fun z => beta * psi z) mp (fun _ _ => None) T a HT Hc Ha' n z Hz).
Qed.

(** beta = 1 is the ordinary step *)
Lemma pt_accepts_one {X} (psi : X -> R) mp corr (x y : X) u :
  pt_accepts psi mp corr 1 x y u <-> accepts psi mp corr x y u.
Proof.
  unfold pt_accepts, accepts. destruct (corr x y) as [[c|]|]; cbn [exp_ext]; rewrite ?Rmult_1_l; reflexivity.
Qed.

Lemma sqrt_half_ne : exp (1 / 2 * ln (1 / 2)) <> 1 / 2.
Proof.
  intros E. assert (E2 : exp (1 / 2 * ln (1 / 2)) * exp (1 / 2 * ln (1 / 2)) = 1 / 2).
  { rewrite <- exp_plus. replace (1 / 2 * ln (1 / 2) + 1 / 2 * ln (1 / 2)) with (ln (1 / 2)) by field.
    apply exp_ln. lra. }
  rewrite E in E2. lra.
Qed.
