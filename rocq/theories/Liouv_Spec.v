(** * The Lindblad master equation *)
From Coq Require Import ZArith List Bool.
From Verif Require Import Base Scalar LocalOp_Spec Lazy_Spec.
Import ListNotations.

Section Spec.
Variable S : scalars.
Variables im half : K S.
Variable hs : list (list Z).
Notation mat := (matrix S).

Definition dag (f : mat) : mat := apply_move S MH f.
Definition mul (f g : mat) : mat := product S hs f g.

(** H - i/2 sum_k L_k^dagger L_k *)
Definition hnh (H : mat) (Ls : list mat) : mat :=
  fun x y => ksub S (H x y) (kmul S (kmul S half im) (sum S (map (fun l => mul (dag l) l x y) Ls))).

(** -i H_nh rho + i rho H_nh^dagger + sum_k L_k rho L_k^dagger *)
Definition master (Hn : mat) (Ls : list mat) (rho : mat) : mat :=
  fun x y =>
    kadd S (kadd S (kmul S (kopp S im) (mul Hn rho x y)) (kmul S im (mul rho (dag Hn) x y)))
           (sum S (map (fun l => mul (mul l rho) (dag l) x y) Ls)).

(** what a list of elements of the doubled space gives on a density matrix *)
Definition contract (l : list (list Z * K S)) (rho : mat) : K S :=
  sum S (map (fun p => kmul S (snd p) (rho (firstn (length hs) (fst p)) (skipn (length hs) (fst p)))) l).

Definition trace (f : mat) : K S := sum S (map (fun x => f x x) (all_configs hs)).
End Spec.
