(** * Model of accum_in_tree (netket/utils/history.py) and RuntimeLog
    (netket/logging/runtime_log.py)

    The history of a leaf is the list of its steps and values, see C56 for the class History
    itself.  Objects with [to_compound] are leaves, objects with [to_dict] are dictionaries.
    The dictionary of a logger is updated in place by the code; here it is returned, so that
    what is left behind by an exception is not modelled. *)
From Coq Require Import String List Bool Arith.
From Verif Require Import Base.
Import ListNotations.
Open Scope nat_scope.

Section Log.
Context {N V : Type}.

(** logged data: None, a leaf, a list or tuple, a dictionary *)
Inductive tree :=
| TNone
| TLeaf (v : V)
| TSeq (tuple : bool) (l : list tree)
| TDict (l : list (string * tree)).

(** accumulated data *)
Inductive acc :=
| ANone
| AHist (h : list (N * V))
| ASeq (tuple : bool) (l : list acc)
| ADict (l : list (string * acc)).

(** tree_accum.get(key, None) and tree_accum[key] = value *)
Fixpoint get (k : string) (d : list (string * acc)) : acc :=
  match d with [] => ANone | (k', a) :: d' => if String.eqb k' k then a else get k d' end.
Fixpoint put (k : string) (a : acc) (d : list (string * acc)) : list (string * acc) :=
  match d with
  | [] => [(k, a)]
  | (k', a') :: d' => if String.eqb k' k then (k', a) :: d' else (k', a') :: put k a d'
  end.

(** accum_histories (history.py lines 387-392): a list has an append method that takes no
    keywords, tuples and dictionaries have none *)
Definition accum_leaf (s : N) (a : acc) (v : V) : res acc :=
  match a with
  | ANone => Ok (AHist [(s, v)])
  | AHist h => Ok (AHist (h ++ [(s, v)]))
  | ASeq false _ => Err TypeError
  | ASeq true _ | ADict _ => Err AttributeError
  end.

(** accum_in_tree (history.py lines 332-384).  Iterating over the keys of a dictionary or
    over a history in [zip] is not modelled: [Err Fault].  The method get of a history takes
    no arguments. *)
Fixpoint accum (s : N) (a : acc) (t : tree) {struct t} : res acc :=
  match t with
  | TNone => Ok a
  | TLeaf v => accum_leaf s a v
  | TSeq tuple ts =>
      let? old := match a with
                  | ANone => Ok (repeat ANone (length ts))
                  | ASeq _ l => Ok l
                  | _ => Err Fault
                  end in
      let? l := (fix zip (os : list acc) (ts : list tree) {struct ts} : res (list acc) :=
                   match os, ts with
                   | o :: os', t' :: ts' =>
                       let? x := accum s o t' in let? r := zip os' ts' in Ok (x :: r)
                   | _, _ => Ok []
                   end) old ts in
      Ok (ASeq tuple l)
  | TDict kts =>
      let loop := fix loop (d : list (string * acc)) (kts : list (string * tree)) {struct kts} : res acc :=
                    match kts with
                    | [] => Ok (ADict d)
                    | (k, t') :: r => let? x := accum s (get k d) t' in loop (put k x d) r
                    end in
      match a with
      | ANone => loop [] kts
      | ADict d => loop d kts
      | AHist _ => match kts with [] => Ok a | _ => Err TypeError end
      | ASeq _ _ => match kts with [] => Ok a | _ => Err AttributeError end
      end
  end.

(** RuntimeLog: __init__, then __call__ at every step (runtime_log.py lines 26-35) *)
Fixpoint run_from (a : acc) (log : list (N * tree)) : res acc :=
  match log with
  | [] => Ok a
  | (s, t) :: log' => let? a' := accum s a t in run_from a' log'
  end.
Definition run (log : list (N * tree)) : res acc := run_from ANone log.

(** __getitem__ with a string (runtime_log.py lines 44-45) *)
Definition item (a : acc) (k : string) : res acc :=
  match a with
  | ADict d => match find (fun p => String.eqb (fst p) k) d with Some p => Ok (snd p) | None => Err KeyError end
  | _ => Err TypeError
  end.
End Log.
Arguments tree : clear implicits.
Arguments acc : clear implicits.
