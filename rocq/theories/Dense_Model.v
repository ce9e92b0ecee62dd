(** * Linear layers (netket/nn/linear.py)

    Arrays as a shape and a function of the index; entries in any type with addition and
    multiplication.  External (trusted): lax.dot_general, jnp.expand_dims, broadcasting
    and flax's check of the shape of a stored parameter, by their documented behaviour.
    Left out: dtypes of the computation, precision. *)
From Coq Require Import ZArith List Bool.
From Verif Require Import Base.
Import ListNotations.
Open Scope nat_scope.

Record tensor (A : Type) := mkT { shape : list nat; at_ : list nat -> A }.
Arguments mkT {A} shape at_. Arguments shape {A} t. Arguments at_ {A} t idx.

Definition mem (d : nat) (l : list nat) : bool := existsb (Nat.eqb d) l.
(** The indices of an array in order. *)
Fixpoint box (s : list nat) : list (list nat) :=
  match s with
  | [] => [[]]
  | n :: s => flat_map (fun i => map (cons i) (box s)) (seq 0 n)
  end.
(** Dimensions not in [used], increasing. *)
Definition free (nd : nat) (used : list nat) : list nat := filter (fun d => negb (mem d used)) (seq 0 nd).
Fixpoint assoc (d : nat) (kv : list (nat * nat)) : nat :=
  match kv with
  | [] => 0
  | (k, v) :: kv => if d =? k then v else assoc d kv
  end.
(** The index whose entry at dimension [d] is the value given to [d]. *)
Definition place (nd : nat) (kv : list (nat * nat)) : list nat := map (fun d => assoc d kv) (seq 0 nd).
Fixpoint distinct (l : list nat) : bool :=
  match l with [] => true | d :: l => negb (mem d l) && distinct l end.
Fixpoint list_eqb (a b : list nat) : bool :=
  match a, b with
  | [], [] => true
  | x :: a, y :: b => (x =? y) && list_eqb a b
  | _, _ => false
  end.
Definition dims {A} (t : tensor A) (ds : list nat) : list nat := map (fun d => nth d (shape t) 0) ds.

(** jnp.expand_dims(t, ax), 0 <= ax *)
Definition expand {A} (t : tensor A) (ax : nat) : res (tensor A) :=
  if ax <=? length (shape t) then
    Ok (mkT (firstn ax (shape t) ++ 1 :: skipn ax (shape t)) (fun i => at_ t (firstn ax i ++ skipn (S ax) i)))
  else Err ValueError.
Fixpoint expand_all {A} (t : tensor A) (l : list nat) : res (tensor A) :=
  match l with
  | [] => Ok t
  | ax :: l => let? t' := expand t ax in expand_all t' l
  end.

(** Broadcasting of shapes, read from the last dimension. *)
Fixpoint bshape (a b : list nat) : res (list nat) :=
  match a, b with
  | [], b => Ok b
  | a, [] => Ok a
  | x :: a, y :: b =>
      let? s := bshape a b in
      if x =? y then Ok (x :: s) else if x =? 1 then Ok (y :: s) else if y =? 1 then Ok (x :: s) else Err TypeError
  end.
Fixpoint fit (s i : list nat) : list nat :=
  match s, i with
  | n :: s, j :: i => (if n =? 1 then 0 else j) :: fit s i
  | _, _ => []
  end.
Definition bat {A} (t : tensor A) (i : list nat) : A :=
  at_ t (fit (shape t) (skipn (length i - length (shape t)) i)).

Section Layers.
Context {A : Type} (zero : A) (add mul : A -> A -> A).

Definition total (l : list A) : A := fold_right add zero l.

Definition add_t (t u : tensor A) : res (tensor A) :=
  let? s := bshape (rev (shape t)) (rev (shape u)) in
  Ok (mkT (rev s) (fun i => add (bat t i) (bat u i))).

(** lax.dot_general(lhs, rhs, ((lc, rc), (lb, rb))): first the batch dimensions, then the
    remaining dimensions of [lhs], then those of [rhs]. *)
Definition dot_general (x k : tensor A) (lc rc lb rb : list nat) : res (tensor A) :=
  let lf := free (length (shape x)) (lb ++ lc) in
  let rf := free (length (shape k)) (rb ++ rc) in
  if (length lc =? length rc) && (length lb =? length rb) && distinct (lb ++ lc) && distinct (rb ++ rc)
     && forallb (fun d => d <? length (shape x)) (lb ++ lc) && forallb (fun d => d <? length (shape k)) (rb ++ rc)
     && list_eqb (dims x lc) (dims k rc) && list_eqb (dims x lb) (dims k rb)
  then Ok (mkT (dims x lb ++ dims x lf ++ dims k rf)
     (fun i =>
        let b := firstn (length lb) i in
        let l := firstn (length lf) (skipn (length lb) i) in
        let r := skipn (length lb + length lf) i in
        total (map (fun c =>
          mul (at_ x (place (length (shape x)) (combine lb b ++ combine lc c ++ combine lf l)))
              (at_ k (place (length (shape k)) (combine rb b ++ combine rc c ++ combine rf r))))
          (box (dims x lc)))))
  else Err TypeError.

(** 37-39; the results are used as indices into a shape (107-108), which raises IndexError
    out of range; a number which is still negative would count from the end there and is
    then refused by lax.dot_general. *)
Definition normalize_axes (axes : list Z) (nd : nat) : list Z :=
  map (fun ax => if (0 <=? ax)%Z then ax else (Z.of_nat nd + ax)%Z) axes.
Definition as_dims (axes : list Z) (nd : nat) : res (list nat) :=
  if forallb (fun ax => (- Z.of_nat nd <=? ax)%Z && (ax <? Z.of_nat nd)%Z) axes then
    if forallb (fun ax => (0 <=? ax)%Z) axes then Ok (map Z.to_nat axes) else Err TypeError
  else Err IndexError.

(** 80-86 *)
Definition batch_check (batch_dims : list Z) : bool :=
  match batch_dims with
  | [] => true
  | _ => let m := fold_right Z.max (nth 0 batch_dims 0%Z) batch_dims in
         forallb (fun d => existsb (Z.eqb d) (map Z.of_nat (seq 0 (Z.to_nat (m + 1))))) batch_dims &&
         forallb (fun d => existsb (Z.eqb d) batch_dims) (map Z.of_nat (seq 0 (Z.to_nat (m + 1))))
  end.

(** 71-151 on stored parameters; [bias = None] is [use_bias=False]. *)
Definition dense_general (features : list nat) (axis batch_dims : list Z) (kernel : tensor A)
  (bias : option (tensor A)) (x : tensor A) : res (tensor A) :=
  if negb (batch_check batch_dims) then Err ValueError else
  let nd := length (shape x) in
  let? axis := as_dims (normalize_axes axis nd) nd in
  let? batch := as_dims (normalize_axes batch_dims nd) nd in
  let nb := length batch in
  if negb (list_eqb (shape kernel) (dims x batch ++ dims x axis ++ features)) then Err ValueError else
  let? out := dot_general x kernel axis (seq nb (length axis)) batch (seq 0 nb) in
  match bias with
  | None => Ok out
  | Some bias =>
      if negb (list_eqb (shape bias) (dims x batch ++ features)) then Err ValueError else
      let? bias := expand_all bias (free nd (axis ++ batch)) in
      add_t out bias
  end.

(** 176-205 *)
Definition dense (features : nat) (kernel : tensor A) (bias : option (tensor A)) (x : tensor A)
  : res (tensor A) :=
  let nd := length (shape x) in
  if nd =? 0 then Err IndexError else
  if negb (list_eqb (shape kernel) [nth (nd - 1) (shape x) 0; features]) then Err ValueError else
  let? y := dot_general x kernel [nd - 1] [0] [] [] in
  match bias with
  | None => Ok y
  | Some bias => if negb (list_eqb (shape bias) [features]) then Err ValueError else add_t y bias
  end.

(** 99-113: the initial kernel, [batch] the sizes of the batch dimensions, [init] the
    initialiser applied to the key (the same key for every block). *)
Definition kernel_init (init : nat * nat -> list A) (batch axes features : list nat) : list A :=
  let size := fold_right Nat.mul 1 in
  concat (repeat (init (size axes, size features)) (size batch)).
End Layers.

(** The type of the parameters: Dense passes its dtype to the initialiser (188-190,
    202), DenseGeneral does not, so the default of the wrappers (99, 130) is used. *)
Inductive ptype := Float32 | Float64 | Complex128.
Definition dense_param_dtype (dtype : ptype) : ptype := dtype.
Definition dense_general_param_dtype (dtype : ptype) : ptype := Float64.
