(** * What flags are *)
From Coq Require Import String Ascii List ZArith Bool.
From Verif Require Import Base Flags_Model.
Import ListNotations.
Open Scope string_scope.
Open Scope list_scope.

(** Two letters are equal up to case. *)
Definition upper (c : ascii) : option ascii :=
  let n := nat_of_ascii c in if ((97 <=? n) && (n <=? 122))%nat then Some (ascii_of_nat (n - 32)) else None.
(** [spells s w]: [s] is the lower-case word [w], some of its letters capitals. *)
Fixpoint spells (s w : string) : Prop :=
  match s, w with
  | EmptyString, EmptyString => True
  | String a s, String b w => (a = b \/ upper b = Some a) /\ spells s w
  | _, _ => False
  end.
Definition says (b : bool) (s : string) : Prop :=
  exists w, In w (if b then ["y"; "yes"; "t"; "true"; "on"; "1"] else ["n"; "no"; "f"; "false"; "off"; "0"]) /\ spells s w.

(** What one call writes. *)
Definition written env parse_int (c : config) (o : op) : option (string * value) :=
  match fst (step env parse_int c o), o with
  | None, Define n t d _ => match get_env env parse_int n t d with Ok v => Some (n, v) | Err _ => None end
  | None, Update n v => match get (types c) n with
      | Some t => match convert parse_int t v with Ok w => Some (n, w) | Err _ => None end
      | None => None end
  | Some _, _ => None
  end.
(** The last value written to [name] by a history of calls, starting from [c]. *)
Fixpoint last_written env parse_int (c : config) (ops : list op) (name : string) (before : option value) : option value :=
  match ops with
  | [] => before
  | o :: ops => last_written env parse_int (snd (step env parse_int c o)) ops name
      (match written env parse_int c o with Some (n, v) => if (n =? name)%string then Some v else before | None => before end)
  end.

(** A flag holds a value of its declared type. *)
Definition of_type (t : ftype) (v : value) : Prop :=
  match t, v with TBool, VBool _ => True | TInt, VInt _ => True | _, _ => False end.
Definition well_typed (c : config) : Prop :=
  forall n v, get (values c) n = Some v -> exists t, get (types c) n = Some t /\ of_type t v.
