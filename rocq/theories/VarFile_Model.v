(** * Loading variables (netket/vqs/experimental.py)

    [files path]: the bytes of the file at [path]; [archives path]: the members of the tar
    archive at [path].  [from_bytes], [to_bytes]: flax.serialization. *)
From Coq Require Import String Ascii List ZArith Bool DecimalString Decimal.
From Verif Require Import Base StateLog_Model.
Import ListNotations.
Open Scope string_scope.
Open Scope list_scope.

(** s[-n:] *)
Definition last_chars (n : nat) (s : string) : string := substring (String.length s - n) n s.
(** str(i) *)
Definition str_int (z : Z) : string := NilEmpty.string_of_int (Z.to_int z).

Section Load.
  Variables T B : Type.
  Variable from_bytes : T -> B -> res T.

  (** 48-53; opening a file that does not exist raises FileNotFoundError *)
  Definition variables_from_file (files : string -> option B) (filename : string) (variables : T) : res T :=
    let isfile := match files filename with Some _ => true | None => false end in
    let filename := if negb isfile then
                      if negb (last_chars 6 filename =? ".mpack") then (filename ++ ".mpack")%string else filename
                    else filename in
    match files filename with
    | None => Err Exception_
    | Some b => from_bytes variables b
    end.

  (** TarFile.getmember: of members of the same name the last one *)
  Fixpoint getmember (l : list (string * B)) (name : string) : option B :=
    match l with
    | [] => None
    | (n, b) :: l => match getmember l name with
                     | Some c => Some c
                     | None => if (n =? name)%string then Some b else None
                     end
    end.
  (** 68-75 *)
  Definition variables_from_tar (archives : string -> option (list (string * B))) (filename : string) (variables : T) (i : Z) : res T :=
    let isfile := match archives filename with Some _ => true | None => false end in
    let filename := if negb isfile then
                      if negb (last_chars 4 filename =? ".tar") then (filename ++ ".tar")%string else filename
                    else filename in
    match archives filename with
    | None => Err Exception_
    | Some l => match getmember l (str_int i ++ ".mpack")%string with
                | None => Err KeyError
                | Some b => from_bytes variables b
                end
    end.

  (** The folder [prefix] (which ends in a slash) with the entries [l] of StateLog_Model,
      spelled by [spell]; a file that is being written holds [garbage]. *)
  Variable to_bytes : T -> B.
  Variable spell : fname -> string.
  Variable garbage : B.
  Definition content (c : option T) : B := match c with Some v => to_bytes v | None => garbage end.
  Fixpoint folder_files (prefix : string) (l : list (fname * option T)) (path : string) : option B :=
    match l with
    | [] => None
    | (n, c) :: l => if ((prefix ++ spell n)%string =? path)%string then Some (content c) else folder_files prefix l path
    end.
  (** The archive at [path] with the members [l]. *)
  Definition tar_archives (path : string) (l : list (fname * option T)) (path' : string) : option (list (string * B)) :=
    if (path =? path')%string then Some (map (fun e => (spell (fst e), content (snd e))) l) else None.
End Load.
