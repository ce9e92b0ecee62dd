(** * Old names that still work (netket/utils/deprecation.py, netket/optim.py,
    netket/hilbert/_deprecations.py, netket/utils/moduletools.py and the old methods of
    lattices and sampler states)

    A Python function takes positional and keyword arguments and the state of the world, and
    returns a value or raises.  Values are an arbitrary type. *)
From Coq Require Import String List ZArith QArith Bool Ascii.
From Verif Require Import Base Lattice_Model LatGen_Model.
Import ListNotations.
Open Scope nat_scope.

Definition has_key {V} (k : string) (kw : list (string * V)) : bool := existsb (fun p => (fst p =? k)%string) kw.
Definition lookup {V} (k : string) (kw : list (string * V)) : option V :=
  match find (fun p => (fst p =? k)%string) kw with Some p => Some (snd p) | None => None end.

Section Calls.
  Context {W V : Type}.
  Definition fn := list V -> list (string * V) -> W -> W * res V.
  (** warnings.warn under the filters of the user: an error if the filter says so *)
  Variable warn : string -> W -> W * option exn.
  Variable dedent : string -> string.

  (** deprecation.py 22-42: deprecated(reason) of a function ([is_class]: of a class) *)
  Definition deprecated (reason : option string) (is_class : bool) (name : string) (f : fn) : fn :=
    let message := ("Call to deprecated " ++ (if is_class then "class" else "function") ++ " '" ++ name ++ "'")%string in
    let message := match reason with Some r => (message ++ " (" ++ dedent r ++ ")")%string | None => message end in
    fun args kw w =>
      match warn message w with
      | (w, Some e) => (w, Err e)
      | (w, None) => f args kw w
      end.
  (** 55-72 *)
  Definition deprecated_new_name (new name : string) (f : fn) : fn :=
    fun args kw w =>
      match warn (name ++ " has been renamed to " ++ dedent new ++ ". The old name is now deprecated and will be removed in the next minor version. Please update your code.")%string w with
      | (w, Some e) => (w, Err e)
      | (w, None) => f args kw w
      end.
  (** 75-97 *)
  Definition wraps_legacy (legacy_fun : fn) (argname : string) (argtype : V -> bool) (fun_ : fn) : fn :=
    fun args kw w =>
      if 0 <? length args then
        match args with
        | a :: _ => if argtype a then legacy_fun args kw w else fun_ args kw w
        | [] => (w, Err IndexError)
        end
      else if has_key argname kw then
        match args with
        | a :: _ => if argtype a then legacy_fun args kw w else fun_ args kw w
        | [] => (w, Err IndexError)
        end
      else fun_ args kw w.

  (** optim.py: attributes of the module itself ([own]); those of netket.optimizer at import
      ([imported]) and now ([new]) *)
  Definition is_private (name : string) : bool :=
    match name with String c _ => Ascii.eqb c "_" | EmptyString => false end.
  Definition optim_getattr (own imported new : list (string * V)) (name : string) (w : W) : W * res V :=
    match lookup name own with
    | Some v => (w, Ok v)
    | None =>
        if existsb (fun n => (n =? name)%string) (filter (fun n => negb (is_private n)) (map fst imported)) then
          match warn ("The `netket.optim` module is deprecated: " ++ name)%string w with
          | (w, Some e) => (w, Err e)
          | (w, None) => (w, match lookup name new with Some v => Ok v | None => Err AttributeError end)
          end
        else (w, Err AttributeError)
    end.

  (** hilbert/_deprecations.py 19-43; a graph is its number of nodes *)
  Definition graph_to_N (N : Z) (graph : option Z) (w : W) : W * res Z :=
    match graph with
    | None => (w, Ok N)
    | Some n_nodes =>
        match warn "The ``graph`` argument for hilbert spaces has been deprecated in v3.0."%string w with
        | (w, Some e) => (w, Err e)
        | (w, None) => (w, if (N =? 1)%Z then Ok n_nodes else Err ValueError)
        end
    end.
End Calls.

(** sampler/metropolis.py 150-179 and metropolis_numpy.py 61-90, the warning left out *)
Definition acceptance (n_accepted n_steps : Z) : option Q :=
  if (n_steps =? 0)%Z then None else Some (inject_Z n_accepted / inject_Z n_steps)%Q.
Definition acceptance_ratio (n_accepted n_steps : Z) : res Q :=
  match acceptance n_accepted n_steps with Some a => Ok (a * 100)%Q | None => Err TypeError end.

(** ** graph/lattice.py 725-765.  A site number indexes an array: negative ones count from the end *)
Definition arr_get {A} (l : list A) (d : A) (i : Z) : res A :=
  let n := Z.of_nat (length l) in
  if (0 <=? i)%Z && (i <? n)%Z then Ok (nth (Z.to_nat i) l d)
  else if (- n <=? i)%Z && (i <? 0)%Z then Ok (nth (Z.to_nat (i + n)) l d)
  else Err IndexError.
Definition atom_label (L : glattice) (i : Z) : res Z := let? c := arr_get (gl_sites L) [] i in Ok (last c 0%Z).
Definition site_to_vector (L : glattice) (i : Z) : res coord := let? c := arr_get (gl_sites L) [] i in Ok (removelast c).
Definition site_to_coord (L : glattice) (i : Z) : res (list Q) := arr_get (map (frac (gl_geom L)) (gl_sites L)) [] i.
Definition vector_to_site (L : glattice) (v : coord) : res nat := id_from_basis_coords L (v ++ [0%Z]).
Definition vector_to_coord (L : glattice) (v : coord) (label : Z) : res (list Q) := position_from_basis_coords L (v ++ [label]).

(** ** utils/moduletools.py: a module is its attributes *)
Section Modules.
  Context {V : Type}.
  Definition set_attr (k : string) (v : V) (m : list (string * V)) : list (string * V) :=
    (k, v) :: filter (fun p => negb (fst p =? k)%string) m.
  Definition del_attr (k : string) (m : list (string * V)) : list (string * V) := filter (fun p => negb (fst p =? k)%string) m.
  (** the name of a file without its suffix .py *)
  Fixpoint stem (file : string) : option string :=
    match file with
    | EmptyString => None
    | String c r => if (file =? ".py")%string then Some EmptyString
                    else match stem r with Some s => Some (String c s) | None => None end
    end.
  (** 26-41; an attribute named "" does not occur (mod_name[0] would fail) *)
  Definition hide_file (ignore : list string) (m : list (string * V)) (file : string) : list (string * V) :=
    match stem file with
    | None => m
    | Some name =>
        if (file =? "__init__.py")%string then m
        else match lookup name m with
             | None => m
             | Some v =>
                 if negb (is_private name) && negb (existsb (fun n => (n =? name)%string) ignore)
                 then del_attr name (set_attr ("_" ++ name)%string v m)
                 else m
             end
    end.
  (** 18-44 *)
  Definition hide_submodules (files : list string) (remove_self : bool) (ignore : list string) (m : list (string * V)) : list (string * V) :=
    let m := fold_left (hide_file ignore) files m in
    if remove_self then del_attr "_hide_submodules" m else m.
End Modules.

(** 60-74: __all__ of a module *)
Definition export (name : string) (all_ : option (list string)) : option (list string) :=
  match all_ with Some l => Some (l ++ [name]) | None => Some [name] end.
(** 77-94: dir(module) after hide_unexported *)
Definition dir_of (all_ : option (list string)) : res (list string) := match all_ with Some l => Ok l | None => Err AttributeError end.
