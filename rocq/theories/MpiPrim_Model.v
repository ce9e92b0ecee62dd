(** * Reductions of numpy arrays over MPI ranks (netket/utils/mpi/primitives.py,
      netket/legacy/stats/_sum_inplace.py) and the version check of utils/mpi/mpi.py

    Every rank has a memory of array elements.  An ndarray is a window on it: an offset and,
    for every axis, a size and a stride (in elements).  numpy's reshape(-1) gives a window if
    the elements are equally spaced, and else copies; MPI reduces a contiguous writable
    buffer in place, and refuses any other.  A collective call is a function of what all
    ranks pass; if one rank raises, the others wait forever, so that no rank returns. *)
From Coq Require Import Decimal DecimalString.
From Coq Require Import String Ascii List ZArith NArith Bool.
From Verif Require Import Base.
Import ListNotations.
Open Scope nat_scope.

Section Arrays.
  Variable A : Type.
  Variable junk : A.            (* only read outside of a memory *)

  Record view := View { offset : Z; axes : list (nat * Z); writable : bool }.
  Definition size (v : view) : nat := fold_right Nat.mul 1 (map fst (axes v)).
  (** positions of the elements, in the (C) order of numpy *)
  Fixpoint positions (axes : list (nat * Z)) (o : Z) : list Z :=
    match axes with
    | [] => [o]
    | (n, s) :: axes => flat_map (fun i => positions axes (o + Z.of_nat i * s)%Z) (seq 0 n)
    end.
  Definition read (mem : list A) (o : Z) : A := nth (Z.to_nat o) mem junk.
  Definition values (mem : list A) (v : view) : list A := map (read mem) (positions (axes v) (offset v)).

  (** What is passed: an array, or something np.asarray makes one of (number, list). *)
  Inductive arg := Array (v : view) | Other (shape : list nat) (vals : list A).
  Fixpoint c_strides (shape : list nat) : list (nat * Z) :=
    match shape with
    | [] => []
    | n :: shape => (n, Z.of_nat (fold_right Nat.mul 1 shape)) :: c_strides shape
    end.
  (** np.asarray: an array is not copied *)
  Definition asarray (mem : list A) (x : arg) : list A * view :=
    match x with
    | Array v => (mem, v)
    | Other shape vals => (mem ++ vals, View (Z.of_nat (length mem)) (c_strides shape) true)
    end.

  (** ar.reshape(-1): numpy drops axes of size one and asks whether the others are nested *)
  Fixpoint nested (axes : list (nat * Z)) : option Z :=
    match axes with
    | [] => Some 1%Z
    | [(_, s)] => Some s
    | (_, s) :: (((n', s') :: _) as axes) => if (s =? Z.of_nat n' * s')%Z then nested axes else None
    end.
  Inductive flat := Window (o stride : Z) (n : nat) | Copy (n : nat).
  Definition flatten (v : view) : flat :=
    if size v =? 0 then Window (offset v) 1 0
    else match nested (filter (fun a => negb (fst a =? 1)) (axes v)) with
         | Some s => Window (offset v) s (size v)
         | None => Copy (size v)
         end.
  (** the buffer given to Allreduce: in the memory, or a temporary *)
  Inductive buffer := InPlace (o : Z) (n : nat) | Temporary.
  Definition the_buffer (v : view) : res buffer :=
    match flatten v with
    | Copy _ => Ok Temporary
    | Window o s n => if (2 <=? n) && negb (s =? 1)%Z then Err ValueError
                      else if writable v then Ok (InPlace o n) else Err ValueError
    end.
  Definition store (mem : list A) (o : Z) (vals : list A) : list A :=
    firstn (Z.to_nat o) mem ++ vals ++ skipn (Z.to_nat o + length vals) mem.
  Definition set_buffer (mem : list A) (b : buffer) (vals : list A) : list A :=
    match b with InPlace o n => store mem o vals | Temporary => mem end.

  (** element by element over the ranks *)
  Fixpoint reduce (op : A -> A -> A) (rows : list (list A)) : list A :=
    match rows with
    | [] => []
    | [r] => r
    | r :: rows => map (fun xy => op (fst xy) (snd xy)) (combine r (reduce op rows))
    end.
  (** primitives.py 20-37 (mpi_sum), 59-76 (mpi_prod), 134-150 (mpi_any), 173-189 (mpi_max);
      _sum_inplace.py 27-60.  Buffers of different lengths are not MPI. *)
  Definition all_reduce (op : A -> A -> A) (ranks : list (list A * arg)) : res (list (list A * view)) :=
    let ars := map (fun r => asarray (fst r) (snd r)) ranks in
    if length ranks <=? 1 then Ok ars
    else
      let? bufs := sequence (map (fun a => the_buffer (snd a)) ars) in
      let n := match ars with a :: _ => size (snd a) | [] => 0 end in
      if negb (forallb (fun a => size (snd a) =? n) ars) then Err Fault
      else
        let out := reduce op (map (fun a => values (fst a) (snd a)) ars) in
        Ok (map (fun ab => (set_buffer (fst (fst ab)) (snd ab) out, snd (fst ab))) (combine ars bufs)).
  (** what the caller reads from the array returned, and the memory *)
  Definition reduced (op : A -> A -> A) (ranks : list (list A * arg)) : res (list (list A * list A)) :=
    let? l := all_reduce op ranks in Ok (map (fun mv => (values (fst mv) (snd mv), fst mv)) l).
  (** 100-112: mpi_mean; the quotient is a new array *)
  Definition mpi_mean (op : A -> A -> A) (over : A -> nat -> A) (ranks : list (list A * arg)) : res (list (list A * list A)) :=
    let? l := reduced op ranks in Ok (map (fun vm => (map (fun a => over a (length ranks)) (fst vm), snd vm)) l).
End Arrays.
Arguments Array {A}.
Arguments Other {A}.
Arguments values {A}.
Arguments reduced {A}.
Arguments mpi_mean {A}.
Arguments all_reduce {A}.
Arguments asarray {A}.

(** 212-226; a root that is not a rank is an MPI error *)
Definition mpi_bcast {X} (root : Z) (xs : list X) : res (list X) :=
  if length xs <=? 1 then Ok xs
  else if (root <? 0)%Z then Err Exception_
  else match nth_error xs (Z.to_nat root) with
       | Some x => Ok (map (fun _ => x) xs)
       | None => Err Exception_
       end.
Definition mpi_bcast_jax {X} (root : Z) (xs : list X) : res (list X) :=
  if length xs <=? 1 then (if (root =? 0)%Z then Ok xs else Err AssertionError)
  else if (root <? 0)%Z then Err Exception_
  else match nth_error xs (Z.to_nat root) with
       | Some x => Ok (map (fun _ => x) xs)
       | None => Err Exception_
       end.
(** 229-241: on one rank the value itself is returned *)
Inductive gathered (X : Type) := Itself (x : X) | Listed (xs : list X).
Arguments Itself {X}.
Arguments Listed {X}.
Definition mpi_allgather {X} (xs : list X) : list (gathered X) :=
  if length xs <=? 1 then map Itself xs else map (fun _ => Listed xs) xs.

(** ** the version check, mpi.py 100-124 *)
Local Open Scope string_scope.
Definition allowed (c : ascii) : bool :=
  existsb (Ascii.eqb c) ["0"; "1"; "2"; "3"; "4"; "5"; "6"; "7"; "8"; "9"; "."]%char.
Fixpoint take_allowed (s : string) : string :=
  match s with
  | EmptyString => ""
  | String c s => if allowed c then String c (take_allowed s) else ""
  end.
(** str.rstrip(".") *)
Fixpoint rstrip_dots (s : string) : string :=
  match s with
  | EmptyString => ""
  | String c s => match rstrip_dots s with
                  | EmptyString => if Ascii.eqb c "." then "" else String c ""
                  | t => String c t
                  end
  end.
(** str.split(".") *)
Fixpoint split_dots (s : string) : list string :=
  match s with
  | EmptyString => [""]
  | String c s => if Ascii.eqb c "." then "" :: split_dots s
                  else match split_dots s with
                       | [] => [String c ""]
                       | t :: ts => String c t :: ts
                       end
  end.
(** int(s), of digits *)
Definition int_of (s : string) : res N :=
  match NilEmpty.uint_of_string s with
  | Some Nil => Err ValueError
  | Some u => Ok (N.of_uint u)
  | None => Err ValueError
  end.
Definition version_tuple (s : string) : res (list N) :=
  let? l := sequence (map int_of (split_dots (rstrip_dots (take_allowed s)))) in Ok (firstn 3 l).
(** comparison of tuples *)
Fixpoint tuple_lt (a b : list N) : bool :=
  match a, b with
  | _, [] => false
  | [], _ :: _ => true
  | x :: a, y :: b => (x <? y)%N || ((x =? y)%N && tuple_lt a b)
  end.
Definition check_version (installed required : string) : res unit :=
  let? a := version_tuple installed in
  let? b := version_tuple required in
  if tuple_lt a b then Err Exception_ else Ok tt.
