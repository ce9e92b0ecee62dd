(** * C115: old names that still work *)
From Coq Require Import String List ZArith QArith Bool.
From Verif Require Import Base Lattice_Model LatGen_Model LatGen_Spec LatGen_Ex Compat_Model Compat_Spec.
From Verif Require Compat_Proofs Compat_Cases.
Import ListNotations.
Open Scope nat_scope.

(** A deprecated function does what it did, after one warning which names it *)
Theorem C115_deprecated : forall S V dedent reason cls name (f : @fn S V) args kw log s,
  deprecated recording dedent reason cls name (lifted f) args kw (log, s) =
  ((log ++ [("Call to deprecated " ++ (if cls then "class" else "function") ++ " '" ++ name ++ "'" ++
             match reason with Some r => " (" ++ dedent r ++ ")" | None => "" end)%string], fst (f args kw s)), snd (f args kw s)).
Proof. exact (@Compat_Proofs.deprecated_records). Qed.
Print Assumptions C115_deprecated.
Theorem C115_renamed : forall S V dedent new name (f : @fn S V) args kw log s,
  exists msg, deprecated_new_name recording dedent new name (lifted f) args kw (log, s) =
  ((log ++ [msg], fst (f args kw s)), snd (f args kw s)).
Proof. exact (@Compat_Proofs.renamed_records). Qed.
Print Assumptions C115_renamed.
(** Where warnings are errors it is not called at all *)
Theorem C115_warning_errors : forall S V dedent reason cls name e (f : @fn S V) args kw s,
  deprecated (raising e) dedent reason cls name f args kw s = (s, Err e) /\
  forall new, deprecated_new_name (raising e) dedent new name f args kw s = (s, Err e).
Proof. exact (@Compat_Proofs.deprecated_raises). Qed.
Print Assumptions C115_warning_errors.

(** A name shared with a legacy function: it is the legacy one that is called, with the same
    arguments, if the first parameter is a legacy machine given by position *)
Theorem C115_dispatch_partial : forall W V (legacy f : @fn W V) argname argtype args kw w,
  args <> [] \/ lookup argname kw = None ->
  wraps_legacy legacy argname argtype f args kw w =
  match first_parameter argname args kw with
  | Some v => if argtype v then legacy args kw w else f args kw w
  | None => f args kw w
  end.
Proof. exact (@Compat_Proofs.wraps_main). Qed.
Print Assumptions C115_dispatch_partial.
Example C115_dispatch_case : exists legacy f, wraps_legacy (W := unit) legacy "machine" (fun v => v =? 7) f [7; 1] [] tt = (tt, Ok 1) /\
  wraps_legacy legacy "machine" (fun v => v =? 7) f [8; 1] [] tt = (tt, Ok 2).
Proof. exists (fun _ _ w => (w, Ok 1)), (fun _ _ w => (w, Ok 2)). split; reflexivity. Qed.
(** Given by keyword, as the documentation of the samplers does, the call fails whatever it is *)
Theorem C115_dispatch_refuted : forall W V (legacy f : @fn W V) argname argtype v kw w,
  first_parameter argname [] ((argname, v) :: kw) = Some v /\
  wraps_legacy legacy argname argtype f [] ((argname, v) :: kw) w = (w, Err IndexError).
Proof. exact (@Compat_Cases.keyword_main). Qed.
Print Assumptions C115_dispatch_refuted.

(** netket.optim: the public names of netket.optimizer, with a warning *)
Theorem C115_optim : forall S V own imported new name v log (s : S),
  lookup name own = None -> In name (map fst imported) -> is_private name = false -> lookup name new = Some v ->
  exists msg, optim_getattr (V := V) recording own imported new name (log, s) = ((log ++ [msg], s), Ok v).
Proof. exact (@Compat_Proofs.optim_main). Qed.
Print Assumptions C115_optim.
Theorem C115_optim_other : forall W V warn own imported new name (w : W),
  lookup name own = None -> ~ In name (map fst imported) \/ is_private name = true ->
  optim_getattr (V := V) warn own imported new name w = (w, Err AttributeError).
Proof. exact (@Compat_Proofs.optim_other). Qed.
Print Assumptions C115_optim_other.
Theorem C115_optim_own : forall W V warn own imported new name v (w : W),
  lookup name own = Some v -> optim_getattr (V := V) warn own imported new name w = (w, Ok v).
Proof. exact (@Compat_Proofs.optim_own). Qed.
Print Assumptions C115_optim_own.
Example C115_optim_case : optim_getattr recording [("_new_module"%string, 0)] [("Sgd"%string, 1); ("_x"%string, 2)] [("Sgd"%string, 3)] "Sgd" ([], tt)
  = ((["The `netket.optim` module is deprecated: Sgd"%string], tt), Ok 3).
Proof. reflexivity. Qed.

(** The old argument graph of Hilbert spaces: its number of nodes, refused beside N ... *)
Theorem C115_graph : forall S N graph log (s : S),
  graph_to_N recording N graph (log, s) =
  match graph with
  | None => ((log, s), Ok N)
  | Some n => (((log ++ ["The ``graph`` argument for hilbert spaces has been deprecated in v3.0."%string]), s),
               if (N =? 1)%Z then Ok n else Err ValueError)
  end.
Proof. exact (@Compat_Proofs.graph_main). Qed.
Print Assumptions C115_graph.
(** ... except beside N = 1, which is dropped silently *)
Theorem C115_graph_refuted : exists (N n : Z), N <> n /\ graph_to_N recording N (Some n) ([], tt) =
  graph_to_N recording 1 (Some n) ([], tt) /\ snd (graph_to_N recording N (Some n) ([], tt)) = Ok n.
Proof. exact Compat_Cases.graph_one. Qed.
Print Assumptions C115_graph_refuted.

(** acceptance_ratio is acceptance as a percentage ... *)
Theorem C115_acceptance : forall a n, (0 <= a <= n)%Z -> (0 < n)%Z ->
  exists q r, acceptance a n = Some q /\ acceptance_ratio a n = Ok r /\ (r == 100 * q)%Q /\ (0 <= r <= 100)%Q.
Proof. exact Compat_Proofs.ratio_main. Qed.
Print Assumptions C115_acceptance.
Example C115_acceptance_case : acceptance_ratio 1 4 = Ok (1 / 4 * 100)%Q.
Proof. reflexivity. Qed.
(** ... but before any step it raises TypeError; documented is None *)
Theorem C115_acceptance_refuted : forall a, acceptance a 0 = None /\ acceptance_ratio a 0 = Err TypeError.
Proof. exact Compat_Proofs.ratio_none. Qed.
Print Assumptions C115_acceptance_refuted.

(** The old methods of lattices: vector, label and coordinates of a site belong together;
    vector_to_site gives the site with label 0 in the cell, or InvalidSiteError *)
Theorem C115_lattice : forall g L, valid g -> gen_lattice g = Ok L -> forall i, i < length (gl_sites L) ->
  exists v l y, site_to_vector L (Z.of_nat i) = Ok v /\ atom_label L (Z.of_nat i) = Ok l /\ site_to_coord L (Z.of_nat i) = Ok y /\
    nth i (gl_sites L) [] = v ++ [l] /\ y = frac g (nth i (gl_sites L) []) /\ vector_to_coord L v l = Ok y /\
    (vector_to_site L v = Ok i <-> l = 0%Z) /\
    (forall j, vector_to_site L v = Ok j -> site_to_vector L (Z.of_nat j) = Ok v /\ atom_label L (Z.of_nat j) = Ok 0%Z) /\
    ((forall j, vector_to_site L v <> Ok j) -> vector_to_site L v = Err Exception_ /\ ~ In (v ++ [0%Z]) (gl_sites L)).
Proof. exact Compat_Proofs.lattice_main. Qed.
Print Assumptions C115_lattice.
(** Negative numbers of sites count from the end; others are refused *)
Theorem C115_lattice_negative : forall L i, i < length (gl_sites L) -> let z := (Z.of_nat i - Z.of_nat (length (gl_sites L)))%Z in
  site_to_vector L z = site_to_vector L (Z.of_nat i) /\ atom_label L z = atom_label L (Z.of_nat i) /\ site_to_coord L z = site_to_coord L (Z.of_nat i).
Proof. exact Compat_Proofs.lattice_negative. Qed.
Print Assumptions C115_lattice_negative.
Theorem C115_lattice_outside : forall L z,
  (z < - Z.of_nat (length (gl_sites L)) \/ Z.of_nat (length (gl_sites L)) <= z)%Z ->
  site_to_vector L z = Err IndexError /\ atom_label L z = Err IndexError /\ site_to_coord L z = Err IndexError.
Proof. exact Compat_Proofs.lattice_out. Qed.
Print Assumptions C115_lattice_outside.
(** so vector_to_site does not invert site_to_vector *)
Theorem C115_lattice_refuted : exists g L i v, valid g /\ gen_lattice g = Ok L /\ i < length (gl_sites L) /\
  site_to_vector L (Z.of_nat i) = Ok v /\ vector_to_site L v = Ok (i - 1) /\ 0 < i.
Proof. exact Compat_Cases.no_inverse. Qed.
Print Assumptions C115_lattice_refuted.

(** Submodules which are files are renamed with an underscore, and nothing else changes *)
Theorem C115_hide : forall V ignore (m : list (string * V)) files remove_self x,
  let m' := hide_submodules files remove_self ignore m in
  (remove_self = true /\ x = "_hide_submodules"%string -> lookup x m' = None) /\
  (~ (remove_self = true /\ x = "_hide_submodules"%string) ->
    (hidden files ignore m x -> lookup x m' = None) /\
    (forall n, x = ("_" ++ n)%string -> hidden files ignore m n -> lookup x m' = lookup n m) /\
    (~ hidden files ignore m x -> (forall n, x = ("_" ++ n)%string -> ~ hidden files ignore m n) -> lookup x m' = lookup x m)).
Proof. exact (@Compat_Proofs.hide_main). Qed.
Print Assumptions C115_hide.
Example C115_hide_case : map fst (hide_submodules ["base.py"; "__init__.py"; "keep.py"; "data.txt"]%string true ["keep"%string]
  [("base"%string, 1); ("Base"%string, 2); ("keep"%string, 3); ("_hide_submodules"%string, 4)]) = ["_base"; "Base"; "keep"]%string.
Proof. reflexivity. Qed.

(** dir() of a module lists the exported names, in order *)
Theorem C115_export : forall names,
  dir_of (fold_left (fun a n => export n a) names None) = match names with [] => Err AttributeError | _ => Ok names end.
Proof. exact Compat_Proofs.export_all. Qed.
Print Assumptions C115_export.
