From Coq Require Import String Ascii List ZArith Bool.
From Verif Require Import Base Flags_Model Flags_Spec Flags_Proofs.
Import ListNotations.
Open Scope string_scope.
Open Scope list_scope.

(** C94.  A boolean flag is read from the environment variable of its name, or from the
    default: y, yes, t, true, on, 1 and n, no, f, false, off, 0 in whatever case, anything
    else raises ValueError. *)
Theorem C94_environment : forall env name default,
  let text := match env name with Some s => s | None => str_of default end in
  (forall b, bool_env env name default = Ok b <-> says b text) /\
  ((~ says true text /\ ~ says false text) -> bool_env env name default = Err ValueError).
Proof. exact bool_env_main. Qed.
Print Assumptions C94_environment.

Example C94_environment_case : bool_env (fun _ => Some "oFF") "X" (VBool true) = Ok false /\
  bool_env no_env "X" (VBool true) = Ok true /\ bool_env (fun _ => Some "maybe") "X" (VBool true) = Err ValueError.
Proof. repeat split. Qed.

(** After any history of definitions and updates, failing ones included, FLAGS[name] is
    the value written last, or raises KeyError. *)
Theorem C94_last_value : forall env parse_int ops name,
  flags (run env parse_int empty ops) name =
  match last_written env parse_int empty ops name None with Some v => Ok v | None => Err KeyError end.
Proof. exact flags_main. Qed.
Print Assumptions C94_last_value.

(** It is of the declared type. *)
Theorem C94_typed : forall env parse_int ops, well_typed (run env parse_int empty ops).
Proof. exact typed_main. Qed.
Print Assumptions C94_typed.

(** Defining a flag twice raises and changes nothing; a first definition sets the flag; a
    failing one sets no flag. *)
Theorem C94_define : forall env parse_int c name t default runtime,
  (get (values c) name <> None -> define env parse_int c name t default runtime = (Some KeyError, c)) /\
  (get (values c) name = None -> forall v, get_env env parse_int name t default = Ok v ->
     fst (define env parse_int c name t default runtime) = None /\
     flags (snd (define env parse_int c name t default runtime)) name = Ok v) /\
  (forall e c', define env parse_int c name t default runtime = (Some e, c') -> values c' = values c).
Proof. exact define_main. Qed.
Print Assumptions C94_define.

(** A failing update changes nothing; KeyError means the flag is not defined. *)
Theorem C94_update : forall parse_int c name v e c', update parse_int c name v = (Some e, c') -> c' = c /\
  (get (types c) name = None <-> e = KeyError).
Proof. exact update_main. Qed.
Print Assumptions C94_update.

Example C94_history_case :
  let c := run no_env no_int empty (netket_flags ++ [Update "NETKET_DEBUG" (VInt 1); Update "NO_SUCH" (VInt 1)]) in
  flags c "NETKET_DEBUG" = Ok (VBool true) /\ flags c "NETKET_MPI_WARNING" = Ok (VBool true) /\ flags c "NO_SUCH" = Err KeyError.
Proof. repeat split. Qed.

(** Updating a boolean flag takes any value for which python's truth value is true. *)
Theorem C94_bool_update : forall parse_int c name v, get (types c) name = Some TBool ->
  fst (update parse_int c name v) = None /\ flags (snd (update parse_int c name v)) name = Ok (VBool (truth v)).
Proof. exact bool_update. Qed.
Print Assumptions C94_bool_update.

(** Full statement: update(name, text) means what the environment variable set to the text
    means.  "0" in the environment is false; update(name, "0") makes the flag true. *)
Theorem C94_text_refuted : exists env parse_int name text c,
  get (types c) name = Some TBool /\ bool_env env name (VBool false) = Ok false /\ env name = Some text /\
  update parse_int c name (VStr text) = (None, snd (update parse_int c name (VStr text))) /\
  flags (snd (update parse_int c name (VStr text))) name = Ok (VBool true).
Proof. exact text_refuted. Qed.
Print Assumptions C94_text_refuted.

(** Full statement: a flag defined with runtime=False cannot be changed afterwards. *)
Theorem C94_runtime_refuted : exists c name, get (editable c) name = Some false /\ flags c name = Ok (VBool false) /\
  exists c', update no_int c name (VBool true) = (None, c') /\ flags c' name = Ok (VBool true).
Proof. exact runtime_refuted. Qed.
Print Assumptions C94_runtime_refuted.
