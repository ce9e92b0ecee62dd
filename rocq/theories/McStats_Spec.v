(** * Statistics of a set of chains, independently of the code *)
From Coq Require Import List ZArith QArith Qcanon Arith Bool.
From Verif Require Import MpiStats_Model MpiStats_Spec McStats_Model.
Import ListNotations.
Open Scope Qc_scope.

(** every rank holds [n] chains of length [L] *)
Definition same_shape (n L : nat) (ranks : list (list (list cplx))) : Prop :=
  (0 < n)%nat /\ (0 < L)%nat /\ ranks <> [] /\
  Forall (fun m => length m = n /\ Forall (fun c => length c = L) m) ranks.

(** consecutive pieces of length [l] of a chain; the rest is dropped *)
Definition pieces (l : nat) (chain : list cplx) : list (list cplx) :=
  map (fun i => firstn l (skipn (i * l) chain)) (seq 0 (length chain / l)).

(** The groups whose means are taken to be independent: the chains, if there are at least
    [bs]; otherwise pieces of the chains of length max 1 (L / bs), if there are enough. *)
Definition groups (bs L : nat) (chains : list (list cplx)) : option (list (list cplx)) :=
  if (bs <=? length chains)%nat then Some chains
  else
    let ps := flat_map (pieces (Nat.max 1 (L / bs))) chains in
    if (bs <=? length ps)%nat then Some ps else None.

Definition variance (chains : list (list cplx)) : Qc := gvar 0 (concat chains).
Definition means_variance (gs : list (list cplx)) : Qc := gvar 0 (map gmean gs).

(** autocorrelation time for the groups [gs]: the variance of the mean of [gs] is
    (1 + 2 tau) times that of as many independent samples *)
Definition tau_of (chains gs : list (list cplx)) : Qc :=
  ((nQc (length (concat chains)) / nQc (length gs)) * means_variance gs / variance chains - 1) / nQc 2.

Definition stats_of (bs L : nat) (chains : list (list cplx)) : stats :=
  let V := variance chains in
  let constant := if Qc_eq_dec V 0 then true else false in
  mkStats (gmean (concat chains))
    (match groups bs L chains with
     | Some gs => if constant then NaN else Fin (means_variance gs / nQc (length gs))
     | None => NaN
     end)
    V
    (match groups bs L chains with
     | Some gs => if constant then NaN
                  else Fin (if qc_lt (tau_of chains gs) 0 then 0 else tau_of chains gs)
     | None => NaN
     end)
    (if (1 <? length chains)%nat && negb constant
     then Fin ((nQc L - 1) / nQc L + means_variance chains / V)
     else NaN).

Definition cmulc (a b : cplx) : cplx :=
  (fst a * fst b - snd a * snd b, fst a * snd b + snd a * fst b).
Definition affine (a c x : cplx) : cplx := cadd (cmulc a x) c.
Definition scale2 (q : Qc) (x : fl) : fl := match x with Fin p => Fin (q * p) | y => y end.

(** Gelman and Rubin's within-chain variance: the mean of the variances of the chains *)
Definition within (chains : list (list cplx)) : Qc := qsum (map (gvar 0) chains) / nQc (length chains).
