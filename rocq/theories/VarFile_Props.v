(** * C96: checkpoints are loaded as they were saved *)
From Coq Require Import String List ZArith Bool.
From Verif Require Import Base StateLog_Model StateLog_Spec VarFile_Model VarFile_Spec VarFile_Proofs.
Import ListNotations.
Open Scope string_scope.
Open Scope list_scope.

(** After a run that logs to a folder, variables_from_file of the path prefix/k.mpack, and of
    prefix/k, gives back the variables saved as number k.  At every crash point this holds
    for the calls that had returned. *)
Theorem C96_folder : forall T B (from_bytes : T -> B -> res T) (to_bytes : T -> B) spell garbage, spelling spell ->
  forall m se (d0 : store T) s d calls b prefix variables, (0 < se)%Z ->
  snew T m false se d0 = Ok (s, d) -> first_number (mode s) checkpoint d0 b ->
  (forall v, In v (to_save se calls) -> reads_back from_bytes to_bytes variables v) ->
  exists s' l snaps, srun T 0 s d calls = (None, s', Some l, snaps) /\
    (forall i v, nth_error (to_save se calls) i = Some v ->
       variables_from_file T B from_bytes (folder_files T B to_bytes spell garbage prefix l) (prefix ++ (str_int (b + Z.of_nat i) ++ ".mpack")) variables = Ok v /\
       (no_bare spell l (b + Z.of_nat i) ->
        variables_from_file T B from_bytes (folder_files T B to_bytes spell garbage prefix l) (prefix ++ str_int (b + Z.of_nat i)) variables = Ok v)) /\
    (forall k y, In (k, y) snaps -> exists ly, y = Some ly /\
       forall i v, nth_error (to_save se (firstn k calls)) i = Some v ->
       from_bytes variables (to_bytes v) = Ok v ->
       variables_from_file T B from_bytes (folder_files T B to_bytes spell garbage prefix ly) (prefix ++ (str_int (b + Z.of_nat i) ++ ".mpack")) variables = Ok v).
Proof. exact folder_load. Qed.
Print Assumptions C96_folder.

(** A number that was never saved raises. *)
Theorem C96_absent : forall T B (from_bytes : T -> B -> res T) (to_bytes : T -> B) spell garbage, spelling spell ->
  forall prefix l z variables, lookup (FNum z) l = None ->
  variables_from_file T B from_bytes (folder_files T B to_bytes spell garbage prefix l) (prefix ++ (str_int z ++ ".mpack")) variables = Err Exception_.
Proof. exact absent. Qed.
Print Assumptions C96_absent.

(** The same for an archive, opened with or without the extension; other numbers are read as
    before the run in append mode, and raise KeyError in write mode. *)
Theorem C96_tar : forall T B (from_bytes : T -> B -> res T) (to_bytes : T -> B) spell garbage, spelling spell ->
  forall m se (d0 : store T) s d calls b path name variables, (0 < se)%Z ->
  snew T m true se d0 = Ok (s, d) -> mode s <> MFail -> first_number (mode s) (fun _ => true) d0 b -> calls <> [] ->
  name = (path ++ ".tar")%string \/ (name = path /\ last_chars 4 path <> ".tar") ->
  (forall v, In v (to_save se calls) -> reads_back from_bytes to_bytes variables v) ->
  exists s' l snaps, srun T 0 s d calls = (None, s', Some l, snaps) /\
    let load z := variables_from_tar T B from_bytes (tar_archives T B to_bytes spell garbage (path ++ ".tar") l) name variables z in
    (forall i v, nth_error (to_save se calls) i = Some v -> load (b + Z.of_nat i)%Z = Ok v) /\
    (forall z, (z < b \/ b + Z.of_nat (List.length (to_save se calls)) <= z)%Z ->
       load z = match mode s with
                | MAppend => variables_from_tar T B from_bytes (tar_archives T B to_bytes spell garbage (path ++ ".tar") (entries T d0)) name variables z
                | _ => Err KeyError end).
Proof. exact tar_load. Qed.
Print Assumptions C96_tar.

(** A spelling as required. *)
Example C96_spelling_ex : spelling spell_ex.
Proof. exact spelling_ex. Qed.
Example C96_file_ex :
  let fs := folder_files Z Z (fun v => v + 100)%Z spell_ex (-1)%Z "run/" [(FNum 3, Some 5%Z); (FOther 0 None, Some 6%Z); (FNum 12, Some 7%Z)] in
  let load f := variables_from_file Z Z (fun _ b => Ok (b - 100)%Z) fs f 0%Z in
  load "run/12" = Ok 7%Z /\ load "run/12.mpack" = Ok 7%Z /\ load "run/3" = Ok 5%Z /\ load "run/4" = Err Exception_ /\ load "run/notes.txt" = Ok 6%Z.
Proof. vm_compute. repeat split. Qed.
Example C96_tar_ex :
  let ar := tar_archives Z Z (fun v => v + 100)%Z spell_ex (-1)%Z "run.tar" [(FNum 0, Some 5%Z); (FNum 1, Some 6%Z); (FNum 0, Some 7%Z)] in
  let load f i := variables_from_tar Z Z (fun _ b => Ok (b - 100)%Z) ar f 0%Z i in
  load "run" 1%Z = Ok 6%Z /\ load "run.tar" 0%Z = Ok 7%Z /\ load "run" (-1)%Z = Err KeyError /\ load "walk" 0%Z = Err Exception_.
Proof. vm_compute. repeat split. Qed.
