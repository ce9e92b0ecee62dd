(** * StateLog (netket/logging/state_log.py)

    What the logger writes to is a folder or a tar archive: a list of named entries, [None]
    when nothing exists at the path.  The content of an entry is [None] while it is being
    written.  File names are classified by what [int(name[:-6])] makes of them. *)
From Coq Require Import List ZArith Bool String.
From Verif Require Import Base.
Import ListNotations.
Open Scope Z_scope.

(** [FNum z]: the name [str(z) + ".mpack"]; [FAlias z k]: another spelling, such as
    [007.mpack]; [FBad k]: matches [*.mpack] but is no number; [FOther k p]: does not match
    [*.mpack], [p] is the number left after dropping its last six characters, if any. *)
Inductive fname :=
| FNum (z : Z) | FAlias (z : Z) (k : nat) | FBad (k : nat) | FOther (k : nat) (p : option Z).
Definition optz_eqb (a b : option Z) : bool :=
  match a, b with Some x, Some y => x =? y | None, None => true | _, _ => false end.
Definition fname_eqb (a b : fname) : bool :=
  match a, b with
  | FNum x, FNum y => x =? y
  | FAlias x k, FAlias y l => (x =? y) && Nat.eqb k l
  | FBad k, FBad l => Nat.eqb k l
  | FOther k p, FOther l q => Nat.eqb k l && optz_eqb p q
  | _, _ => false
  end.
(** [glob("*.mpack")] *)
Definition is_mpack (n : fname) : bool := match n with FOther _ _ => false | _ => true end.
(** [int(name[:-6])] *)
Definition stem_int (n : fname) : res Z :=
  match n with
  | FNum z => Ok z | FAlias z _ => Ok z | FBad _ => Err ValueError
  | FOther _ (Some z) => Ok z | FOther _ None => Err ValueError
  end.

(** 132-135 and 144-147: one more than the largest number; [file_numbers[-1]] of an empty
    list raises IndexError. *)
Definition next_number (names : list fname) : res Z :=
  let? zs := sequence (map stem_int names) in
  match rev (np_sort zs) with [] => Err IndexError | z :: _ => Ok (z + 1) end.

Section Log.
  Variable V : Type.
  Notation entry := (fname * option V)%type.
  Definition store := option (list entry).
  Inductive smode := MWrite | MAppend | MFail.

  Record slog := SLog {
    mode : smode; tar : bool; save_every : Z; old_step : Z; steps_notsaved : Z;
    init : bool; tar_file : bool; closed : bool; file_step : Z }.

  (** 74-86 *)
  Definition parse_mode (m : string) : res smode :=
    let m := if String.eqb m "w" then "write"%string else if String.eqb m "a" then "append"%string
             else if String.eqb m "x" then "fail"%string else m in
    if String.eqb m "write" then Ok MWrite else if String.eqb m "append" then Ok MAppend
    else if String.eqb m "fail" then Ok MFail else Err ValueError.

  (** 74-118.  The folder is created at once; the folder that holds a tar archive is taken
      to exist. *)
  Definition snew (m : string) (tr : bool) (se : Z) (d : store) : res (slog * store) :=
    let? m := parse_mode m in
    match m, d with
    | MFail, Some _ => Err ValueError
    | _, _ => Ok (SLog m tr se 0 0 false false false 0,
                  if tr then d else match d with None => Some [] | Some l => Some l end)
    end.

  Definition set_step (s : slog) (ini tf : bool) (fs : Z) : slog :=
    SLog (mode s) (tar s) (save_every s) (old_step s) (steps_notsaved s) ini tf (closed s) fs.

  Definition entries (d : store) : list entry := match d with Some l => l | None => [] end.
  Definition names (l : list entry) : list fname := map fst l.

  (** 120-147.  [tarfile.TarFile(name, "f")] raises ValueError.  Deleting the old files is
      one step. *)
  Definition init_output (s : slog) (d : store) : option exn * slog * store :=
    if tar s then
      if tar_file s then (None, set_step s true true (file_step s), d)
      else match mode s with
           | MFail => (Some ValueError, s, d)
           | MWrite => (None, set_step s true true 0, Some [])
           | MAppend =>
               let d := Some (entries d) in
               match next_number (names (entries d)) with
               | Err e => (Some e, set_step s false true 0, d)
               | Ok n => (None, set_step s true true n, d)
               end
           end
    else match mode s with
         | MFail => (None, set_step s true (tar_file s) 0, d)
         | MWrite => (None, set_step s true (tar_file s) 0, Some (filter (fun e => negb (is_mpack (fst e))) (entries d)))
         | MAppend =>
             match next_number (filter is_mpack (names (entries d))) with
             | Err e => (Some e, set_step s false (tar_file s) 0, d)
             | Ok n => (None, set_step s true (tar_file s) n, d)
             end
         end.

  (** Opening a file for writing replaces the entry of that name. *)
  Fixpoint write_file (n : fname) (c : option V) (l : list entry) : list entry :=
    match l with
    | [] => [(n, c)]
    | (m, x) :: l => if fname_eqb m n then (m, c) :: l else (m, x) :: write_file n c l
    end.

  (** 163-178, after the first lines.  The archive gets a new member, also when there is one
      of the same name; after [close()] that raises OSError.  Its content is what it will be
      once it is closed. *)
  Definition write_vars (s : slog) (d : store) (v : V) : option exn * slog * store * list store :=
    let n := FNum (file_step s) in
    let s' := set_step s (init s) (tar_file s) (file_step s + 1) in
    if tar s then
      if closed s then (Some Exception_, s, d, [d])
      else let d' := Some (entries d ++ [(n, Some v)]) in (None, s', d', [d; d'])
    else
      match d with
      | None => (Some Exception_, s, d, [d])
      | Some l => let d1 := Some (write_file n None l) in let d2 := Some (write_file n (Some v) l) in
                  (None, s', d2, [d; d1; d2])
      end.
  Definition save_variables (s : slog) (d : store) (v : V) : option exn * slog * store * list store :=
    if init s then write_vars s d v
    else match init_output s d with
         | (Some e, s, d') => (Some e, s, d', [d; d'])
         | (None, s, d') => match write_vars s d' v with (e, s, d'', l) => (e, s, d'', d :: l) end
         end.

  (** 154-161 *)
  Definition scall (s : slog) (d : store) (step : Z) (v : V) : option exn * slog * store * list store :=
    let advance (s : slog) :=
      SLog (mode s) (tar s) (save_every s) step (steps_notsaved s + 1) (init s) (tar_file s) (closed s) (file_step s) in
    if save_every s =? 0 then (Some ZeroDivisionError, s, d, [d])
    else if (steps_notsaved s mod save_every s =? 0) || (step =? old_step s - 1) then
      match save_variables s d v with
      | (Some e, s, d, l) => (Some e, s, d, l)
      | (None, s, d, l) => (None, advance s, d, l)
      end
    else (None, advance s, d, [d]).

  (** 149-152 *)
  Definition sclose (s : slog) : slog :=
    if negb (closed s) && tar_file s
    then SLog (mode s) (tar s) (save_every s) (old_step s) (steps_notsaved s) (init s) (tar_file s) true (file_step s)
    else s.

  (** A run: calls up to the first exception.  Snapshots carry the number of calls that
      have returned. *)
  Fixpoint srun (n : nat) (s : slog) (d : store) (calls : list (Z * V))
    : option exn * slog * store * list (nat * store) :=
    match calls with
    | [] => (None, s, d, [(n, d)])
    | (step, v) :: calls =>
        match scall s d step v with
        | (Some e, s, d, l) => (Some e, s, d, map (pair n) l)
        | (None, s, d, l) =>
            match srun (S n) s d calls with (e, s', d', l') => (e, s', d', map (pair n) l ++ l') end
        end
    end.
End Log.
