(** * Property C40: distributed mean and variance *)
From Coq Require Import List ZArith QArith Qcanon Lia.
From Verif Require Import MpiStats_Model MpiStats_Spec MpiStats_Proofs.
Import ListNotations.
Open Scope Qc_scope.

Theorem C40_mean :
  forall k ranks, equal_split k ranks -> mean ranks = gmean (concat ranks).
Proof. exact mean_main. Qed.
Print Assumptions C40_mean.

(** On every rank, for every ddof. *)
Theorem C40_var :
  forall k ranks ddof a, equal_split k ranks -> In a ranks ->
    var ddof ranks a = gvar ddof (concat ranks).
Proof. exact var_main. Qed.
Print Assumptions C40_var.

Theorem C40_var_nonneg :
  forall k ranks ddof a, equal_split k ranks -> In a ranks ->
    (ddof < k * length ranks)%nat -> 0 <= var ddof ranks a.
Proof. exact var_nonneg_main. Qed.
Print Assumptions C40_var_nonneg.

Theorem C40_subtract_mean :
  forall k ranks, equal_split k ranks ->
    concat (subtract_mean ranks) = map (fun x => csub x (gmean (concat ranks))) (concat ranks) /\
    mean (subtract_mean ranks) = c0.
Proof. exact subtract_main. Qed.
Print Assumptions C40_subtract_mean.

(** Splits that are not equal are outside the property: the mean of means differs. *)
Definition re (z : Z) : cplx := (Q2Qc (inject_Z z), 0).
Theorem C40_unequal_split_refuted :
  exists ranks, mean ranks <> gmean (concat ranks).
Proof.
  exists [[re 0]; [re 3; re 3]]. intros E. apply (f_equal (fun z => this (fst z))) in E.
  vm_compute in E. discriminate.
Qed.
Print Assumptions C40_unequal_split_refuted.

Example C40_ex :
  equal_split 2 [[re 1; re 2]; [re 5; re 8]] /\
  this (fst (mean [[re 1; re 2]; [re 5; re 8]])) = 4%Q /\
  this (var 0 [[re 1; re 2]; [re 5; re 8]] [re 1; re 2]) = (15 # 2)%Q.
Proof. split; [repeat split; [lia|discriminate|repeat constructor]|]. split; vm_compute; reflexivity. Qed.
