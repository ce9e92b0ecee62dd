(** * What a Hilbert space of configurations is (independent of the indexing code) *)
From Coq Require Import ZArith QArith List Bool.
From Verif Require Import Base Hilbert_Model.
Import ListNotations.
Open Scope Z_scope.

(** [config h σ]: σ is a basis configuration of [h], read off the documentation:
    occupation numbers 0..n_max, spin values -2s, -2s+2, ..., 2s, qubits 0/1, the listed
    values; the constraint is the total number of particles / total magnetisation / the
    user's predicate; a tensor product concatenates configurations of the factors and a
    doubled space concatenates a row and a column configuration. *)
Inductive config : hilbert -> list Z -> Prop :=
| config_Fock m N np σ :
    length σ = N -> (forall x, In x σ -> 0 <= x <= m) ->
    (forall p id, np = Some (p, id) -> zsum σ = p) ->
    config (Fock m true N np) σ
| config_Spin s2 N tsz σ :
    length σ = N ->
    (forall x, In x σ -> exists k, 0 <= k <= Z.of_nat s2 /\ x = - Z.of_nat s2 + 2 * k) ->
    (forall sz id, tsz = Some (sz, id) -> (inject_Z (zsum σ) == 2 * sz)%Q) ->
    config (Spin s2 N tsz) σ
| config_Qubit N σ :
    length σ = N -> (forall x, In x σ -> x = 0 \/ x = 1) -> config (Qubit N) σ
| config_Custom ls N c σ :
    length σ = N -> (forall x, In x σ -> In x ls) ->
    (forall f id, c = Some (f, id) -> f σ = true) ->
    config (Custom (Some ls) N c) σ
| config_Tensor_nil : config (Tensor []) []
| config_Tensor_cons h l a b :
    config h a -> config (Tensor l) b -> config (Tensor (h :: l)) (a ++ b)
| config_Doubled h a b : config h a -> config h b -> config (Doubled h) (a ++ b).

(** Lexicographic order, first site most significant. *)
Inductive lex_lt : list Z -> list Z -> Prop :=
| lex_head x y a b : x < y -> length a = length b -> lex_lt (x :: a) (y :: b)
| lex_tail x a b : lex_lt a b -> lex_lt (x :: a) (x :: b).

(** Number of combinations of local values over all sites, ignoring constraints. *)
Fixpoint local_dims (h : hilbert) : Z :=
  match h with
  | Fock m _ N _ => (m + 1) ^ Z.of_nat N
  | Spin s2 N _ => (Z.of_nat s2 + 1) ^ Z.of_nat N
  | Qubit N => 2 ^ Z.of_nat N
  | Custom (Some ls) N _ => Z.of_nat (length ls) ^ Z.of_nat N
  | Custom None _ _ => 0
  | Tensor l => zprod (map local_dims l)
  | Doubled p => local_dims p * local_dims p
  end.

(** Spaces a user can sensibly build and index: finitely many, distinct local values;
    a magnetisation that is a multiple of 1/2; every homogeneous factor is within the
    documented limit of 2^31-1 states and every composite space within int64. *)
Inductive sane : hilbert -> Prop :=
| sane_Fock m N np : 0 <= m -> (m + 1) ^ Z.of_nat N <= 2 ^ 31 - 1 ->
    sane (Fock m true N np)
| sane_Spin s2 N tsz :
    (Z.of_nat s2 + 1) ^ Z.of_nat N <= 2 ^ 31 - 1 ->
    (forall sz id, tsz = Some (sz, id) -> exists m, (2 * sz == inject_Z m)%Q) ->
    sane (Spin s2 N tsz)
| sane_Qubit N : 2 ^ Z.of_nat N <= 2 ^ 31 - 1 -> sane (Qubit N)
| sane_Custom ls N c :
    NoDup ls -> ls <> [] -> Z.of_nat (length ls) ^ Z.of_nat N <= 2 ^ 31 - 1 ->
    sane (Custom (Some ls) N c)
| sane_Tensor l :
    Forall sane l -> zprod (map local_dims l) < 2 ^ 63 -> sane (Tensor l)
| sane_Doubled h : sane h -> local_dims h * local_dims h < 2 ^ 63 -> sane (Doubled h).
