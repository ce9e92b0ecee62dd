(** * Alignment of the series of a history (C56) *)
From Coq Require Import String List ZArith QArith.
From Verif Require Import History_Model.
Import ListNotations.

(** The series are those of the keys, and the iteration axis; all have as many entries as
    the history says it has. *)
Definition aligned (h : history) : Prop :=
  NoDup (keys h) /\ ~ In "iters"%string (keys h) /\
  (forall k, get k (vd h) <> None <-> k = "iters"%string \/ In k (keys h)) /\
  (forall k s, get k (vd h) = Some s -> slen s = hlen h).

(** One more entry at the end, the earlier ones unchanged. *)
Definition extended (s s' : series) : Prop :=
  match s, s' with
  | SArr dt sh rows, SArr dt' sh' rows' => dt' = dt /\ sh' = sh /\ exists row, rows' = rows ++ [row]
  | SLst l, SLst l' => exists v, l' = l ++ [v]
  | _, _ => False
  end.

(** A value that is not a list or an object: the constructor looks at its length. *)
Definition numeric (v : val) : Prop := match v with VNum _ | VArr _ _ _ => True | _ => False end.
Definition is_array (s : series) : Prop := match s with SArr _ _ _ => True | SLst _ => False end.

(** The log of a run: at each step the same quantities [ks], all floats, as a dictionary or
    as a compound object. *)
Definition float_items (ks : list string) (vs : list Q) : list (string * val) :=
  combine ks (map (fun q => VNum (NFlt q)) vs).
Definition same_as (items : list (string * val)) (a : arg) : Prop :=
  a = ADict items \/ exists m, a = ACompound m items.
