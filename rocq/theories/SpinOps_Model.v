(** * Spin and boson operators on one site (netket/operator/spin.py, boson.py)

    Complex numbers over the real numbers of the standard library; the argument [dtype]
    is not modelled.  [hs] lists the local states of every site. *)
From Coq Require Import List ZArith QArith Qround Qreals Reals.
From Verif Require Import Base Rings ARNN_Model ToArray_Model Scalar LocalOp_Model
  LocalOp_Spec.
Import ListNotations.
Open Scope R_scope.

Notation cpx := (R * R)%type.

(** Coefficients of a LocalOperator with cutoff [eps] (1e-6 in
    netket/operator/_local_operator.py:257; 0 is the idealised operator that drops
    nothing), and np.allclose (lines 46-47). *)
Definition Rltb (a b : R) : bool := if Rlt_dec a b then true else false.
Definition Rleb (a b : R) : bool := if Rle_dec a b then true else false.
Definition cscal (eps : R) : scalars := {|
  K := cpx; k0 := (0, 0); k1 := (1, 0);
  kadd := radd cC; kmul := rmul cC; ksub := rsub cC; kopp := ropp cC;
  kconj := fun z => (fst z, - snd z);
  kbig := fun z => Rltb (eps * eps) (cnorm2 z);
  kbige := fun z => Rltb 0 (cnorm2 z) && Rleb (eps * eps) (cnorm2 z);
  kclose := fun a b => Rleb (sqrt (cnorm2 (rsub cC a b)))
                            (1 / 100000000 + 1 / 100000 * sqrt (cnorm2 b)) |}.

Definition cmat := list (list cpx).

(** np.diag(d, k) *)
Definition np_diag (d : list cpx) (k : Z) : cmat :=
  let n := (length d + Z.to_nat (Z.abs k))%nat in
  map (fun i => map (fun j =>
         if (Z.of_nat j - Z.of_nat i =? k)%Z
         then nth (if (0 <=? k)%Z then i else j) d (0, 0) else (0, 0))
       (seq 0 n)) (seq 0 n).

(** a + b of two matrices of the same shape *)
Definition np_add (a b : cmat) : cmat :=
  map (fun r => map (fun p => radd cC (fst p) (snd p)) (combine (fst r) (snd r)))
      (combine a b).

(** np.arange(start, stop, step) *)
Definition np_arange (start stop step : Q) : list Q :=
  map (fun k => (start + inject_Z (Z.of_nat k) * step)%Q)
      (seq 0 (Z.to_nat (Qceiling ((stop - start) / step)))).

(** a real number *)
Definition re (x : R) : cpx := (x, 0).
(** 1j * x *)
Definition im (x : R) : cpx := (0, x).
Definition np_sqrt (q : Q) : R := sqrt (Q2R q).

(** spin.py 35-36: S = (N - 1) / 2 *)
Definition spin_S (N : nat) : Q := ((inject_Z (Z.of_nat N) - 1) / 2)%Q.

(** spin.py 38 and 62 *)
Definition spin_D (N : nat) : list R :=
  map (fun a => np_sqrt ((spin_S N + 1) * 2 * a - a * (a + 1))%Q)
      (np_arange 1 (inject_Z (Z.of_nat N)) 1).

(** spin.py 38-39 *)
Definition sigmax_mat (N : nat) : cmat :=
  let D := map re (spin_D N) in np_add (np_diag D 1) (np_diag D (-1)).
(** spin.py 62-63 *)
Definition sigmay_mat (N : nat) : cmat :=
  let D := map im (spin_D N) in
  np_add (np_diag D (-1)) (np_diag (map (fun z => ropp cC z) D) 1).
(** spin.py 84-85 *)
Definition sigmaz_mat (N : nat) : cmat :=
  let S := spin_S N in
  np_diag (map (fun m => re (Q2R (2 * m))) (np_arange S (- (S + 1)) (- 1))) 0.
(** spin.py 106-108 *)
Definition sigmam_mat (N : nat) : cmat :=
  let S := spin_S N in
  let S2 := ((S + 1) * S)%Q in
  np_diag (map (fun m => re (np_sqrt (S2 - m * (m - 1))%Q)) (np_arange S (- S) (- 1))) (-1).
(** spin.py 129-131 *)
Definition sigmap_mat (N : nat) : cmat :=
  let S := spin_S N in
  let S2 := ((S + 1) * S)%Q in
  np_diag (map (fun m => re (np_sqrt (S2 - m * (m + 1))%Q))
               (np_arange (S - 1) (- (S + 1)) (- 1))) 1.

(** boson.py 41-43, 65-67, 89-91 *)
Definition boson_D (N : nat) : list cpx :=
  map (fun m => re (np_sqrt m)) (np_arange 1 (inject_Z (Z.of_nat N)) 1).
Definition destroy_mat (N : nat) : cmat := np_diag (boson_D N) 1.
Definition create_mat (N : nat) : cmat := np_diag (boson_D N) (-1).
Definition number_mat (N : nat) : cmat :=
  np_diag (map (fun m => re (Q2R m)) (np_arange 0 (inject_Z (Z.of_nat N)) 1)) 0.

(** boson.py 115-120; [n] is any integer: a negative one counts from the end of [D]. *)
Definition proj_mat (N : nat) (n : Z) : res cmat :=
  if (Z.of_nat N <=? n)%Z then Err ValueError
  else
    let D := repeat (0, 0) N in
    let i := (if (n <? 0)%Z then n + Z.of_nat N else n)%Z in
    if (i <? 0)%Z then Err IndexError
    else Ok (np_diag (upd D (Z.to_nat i) (1, 0)) 0).

Section Operators.
Variable eps : R.
Variable depth : nat.
Variable hs : list (list Z).

(** spin.py 40, 64, 86, 109, 132 and boson.py 42, 66, 90, 121: the local dimension is that of the
    site; a site that does not exist is an IndexError for a product of spaces
    (tensor_hilbert.py) and rejected by LocalOperator for a homogeneous one: both are an
    error here. *)
Definition on_site (mat : nat -> cmat) (site : nat) : res (lop (cscal eps)) :=
  if (length hs <=? site)%nat then Err ValueError
  else mk_lop (cscal eps) depth hs (0, 0) [(mat (length (nth site hs [])), [site])].

Definition sigmax := on_site sigmax_mat.
Definition sigmay := on_site sigmay_mat.
Definition sigmaz := on_site sigmaz_mat.
Definition sigmam := on_site sigmam_mat.
Definition sigmap := on_site sigmap_mat.
Definition destroy := on_site destroy_mat.
Definition create := on_site create_mat.
Definition number := on_site number_mat.
Definition proj (site : nat) (n : Z) : res (lop (cscal eps)) :=
  if (length hs <=? site)%nat then Err ValueError
  else
    let? m := proj_mat (length (nth site hs [])) n in
    mk_lop (cscal eps) depth hs (0, 0) [(m, [site])].
End Operators.

(** ** Expressions that users form with these operators, with the cutoff idealised *)
Notation S0 := (cscal 0).
(** the LocalOperator built by the functions of spin.py and boson.py *)
Definition site_expr (hs : list (list Z)) (mat : nat -> cmat) (s : nat) : expr S0 :=
  New S0 (0, 0) [(mat (length (nth s hs [])), [s])].

(** a @ b - b @ a *)
Definition commutator (a b : expr S0) : expr S0 := Minus S0 (Matmul S0 a b) (Matmul S0 b a).

(** sum([sigmaz(hi, i) for i in range(n)]) *)
Fixpoint sum_sites (hs : list (list Z)) (mat : nat -> cmat) (n : nat) : expr S0 :=
  match n with
  | O => New S0 (0, 0) []
  | S n => Plus S0 (sum_sites hs mat n) (site_expr hs mat n)
  end.
