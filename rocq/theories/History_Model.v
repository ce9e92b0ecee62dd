(** * History (netket/utils/history.py)

    A history is a dictionary of series; the iteration axis is the series "iters".  A series
    is a numpy array (dtype, shape of a row, rows) or a python list.  Values are numbers,
    arrays (flat data), lists, None and other objects.  numpy's broadcasting between different
    shapes is an oracle, and so is concatenation when a list or different row shapes are
    involved.  In-place resizing and reallocation are not distinguished. *)
From Coq Require Import String List ZArith QArith Bool.
From Verif Require Import Base.
Import ListNotations.
Open Scope Z_scope.

Inductive num := NInt (z : Z) | NFlt (q : Q) | NCpx (re im : Q) | NNan.
Inductive dtype := DInt | DFloat | DComplex.
Definition dtype_eqb (a b : dtype) : bool :=
  match a, b with DInt, DInt | DFloat, DFloat | DComplex, DComplex => true | _, _ => false end.
Definition promote (a b : dtype) : dtype :=
  match a, b with
  | DComplex, _ | _, DComplex => DComplex
  | DFloat, _ | _, DFloat => DFloat
  | DInt, DInt => DInt
  end.
Definition dtype_of (n : num) : dtype :=
  match n with NInt _ => DInt | NFlt _ => DFloat | NCpx _ _ => DComplex | NNan => DFloat end.
Definition qtrunc (q : Q) : Z := Z.quot (Qnum q) (Zpos (Qden q)).

(** Assigning a python number to an element of an array. *)
Definition cast (dt : dtype) (n : num) : res num :=
  match dt, n with
  | DInt, NInt z => Ok (NInt z)
  | DInt, NFlt q => Ok (NInt (qtrunc q))
  | DInt, NCpx _ _ => Err TypeError
  | DInt, NNan => Err ValueError
  | DFloat, NInt z => Ok (NFlt (inject_Z z))
  | DFloat, NCpx _ _ => Err TypeError
  | DComplex, NInt z => Ok (NCpx (inject_Z z) 0)
  | DComplex, NFlt q => Ok (NCpx q 0)
  | _, n => Ok n
  end.
(** Assigning from an array: imaginary parts are dropped (with a warning). *)
Definition cast_arr (dt : dtype) (n : num) : num :=
  match dt, n with
  | DInt, NInt z => NInt z
  | DInt, NFlt q => NInt (qtrunc q)
  | DInt, NCpx q _ => NInt (qtrunc q)
  | DInt, NNan => NInt (- 2 ^ 63)
  | DFloat, NInt z => NFlt (inject_Z z)
  | DFloat, NCpx q _ => NFlt q
  | DComplex, NInt z => NCpx (inject_Z z) 0
  | DComplex, NFlt q => NCpx q 0
  | _, n => n
  end.
Definition zero (dt : dtype) : num := match dt with DInt => NInt 0 | DFloat => NFlt 0 | DComplex => NCpx 0 0 end.

Inductive val :=
| VNum (n : num) | VArr (dt : dtype) (sh : list nat) (data : list num)
| VLst (l : list val) | VNone | VObj (k : nat).
Inductive series :=
| SArr (dt : dtype) (sh : list nat) (rows : list (list num))
| SLst (l : list val).
Definition slen (s : series) : nat := match s with SArr _ _ rows => length rows | SLst l => length l end.
Definition nprod (sh : list nat) : nat := fold_right Nat.mul 1%nat sh.
Definition nlist_eqb (a b : list nat) : bool := if list_eq_dec Nat.eq_dec a b then true else false.

Fixpoint chunks (k n : nat) (d : list num) : list (list num) :=
  match n with O => [] | S n => firstn k d :: chunks k n (skipn k d) end.

Definition vdict := list (string * series).
Fixpoint get (k : string) (d : vdict) : option series :=
  match d with [] => None | (k', s) :: d => if String.eqb k' k then Some s else get k d end.
Fixpoint put (k : string) (s : series) (d : vdict) : vdict :=
  match d with [] => [(k, s)] | (k', s') :: d => if String.eqb k' k then (k', s) :: d else (k', s') :: put k s d end.

Record history := Hist { vd : vdict; keys : list string; hlen : nat; single : bool; main : option string }.

Section H.
  (** [bcast from to data]: numpy broadcasting between different shapes; [concat]:
      np.concatenate of two series other than arrays with equal row shapes. *)
  Variable bcast : list nat -> list nat -> list num -> option (list num).
  Variable concat : series -> series -> res series.

  (** The row written by [_vals[-1] = val].  Lists are converted only when they are flat and
      the row is one-dimensional. *)
  Fixpoint numbers (l : list val) : option (list num) :=
    match l with
    | [] => Some []
    | VNum n :: l => match numbers l with Some t => Some (n :: t) | None => None end
    | _ => None
    end.
  Definition assign (dt : dtype) (sh : list nat) (v : val) : res (list num) :=
    match v with
    | VNum n => let? x := cast dt n in Ok (repeat x (nprod sh))
    | VArr _ sh' data =>
        if nlist_eqb sh' sh then Ok (map (cast_arr dt) data)
        else match bcast sh' sh data with Some d => Ok (map (cast_arr dt) d) | None => Err ValueError end
    | VNone => match dt with DInt => Err TypeError | _ => Ok (repeat NNan (nprod sh)) end
    | VLst l =>
        match numbers l, nlist_eqb sh [length l] with
        | Some ns, true => Ok (map (cast_arr dt) ns)
        | _, _ => Err ValueError
        end
    | VObj _ => Err TypeError
    end.

  (** 293-309: one series of the history; the array is longer before the value is written. *)
  Definition push (s : series) (v : val) : option exn * series :=
    match s with
    | SLst l => (None, SLst (l ++ [v]))
    | SArr dt sh rows =>
        match assign dt sh v with
        | Err e => (Some e, SArr dt sh (rows ++ [repeat (zero dt) (nprod sh)]))
        | Ok row => (None, SArr dt sh (rows ++ [row]))
        end
    end.
  Fixpoint push_all (d : vdict) (items : list (string * val)) : option exn * vdict :=
    match items with
    | [] => (None, d)
    | (k, v) :: items =>
        match get k d with
        | None => (Some KeyError, d)
        | Some s => match push s v with
                    | (Some e, s') => (Some e, put k s' d)
                    | (None, s') => push_all (put k s' d) items
                    end
        end
    end.
  (** 290-317 *)
  Definition append_dict (h : history) (items : list (string * val)) (it : val) : option exn * history :=
    match push_all (vd h) items with
    | (Some e, d) => (Some e, Hist d (keys h) (hlen h) (single h) (main h))
    | (None, d) =>
        match get "iters" d with
        | None => (Some KeyError, Hist d (keys h) (hlen h) (single h) (main h))
        | Some s => match push s it with
                    | (Some e, s') => (Some e, Hist (put "iters" s' d) (keys h) (hlen h) (single h) (main h))
                    | (None, s') => (None, Hist (put "iters" s' d) (keys h) (S (hlen h)) (single h) (main h))
                    end
        end
    end.
  (** 320-329; [ACompound]: an object with [to_compound], such as Stats; [ADict]: a
      dictionary or an object with [to_dict]. *)
  Inductive arg := AVal (v : val) | ACompound (main : string) (d : list (string * val)) | ADict (d : list (string * val)).
  Definition append_arg (h : history) (a : arg) (it : val) : option exn * history :=
    match a with
    | AVal v => append_dict h [("value"%string, v)] it
    | ACompound _ d => append_dict h d it
    | ADict d => append_dict h d it
    end.

  (** 274-287 *)
  Definition cat (a b : series) : res series :=
    match a, b with
    | SArr dt sh rows, SArr dt' sh' rows' =>
        if nlist_eqb sh sh' then
          Ok (SArr (promote dt dt') sh (map (map (cast_arr (promote dt dt'))) (rows ++ rows')))
        else concat a b
    | _, _ => concat a b
    end.
  Fixpoint cat_all (ks : list string) (d d2 : vdict) : option exn * vdict :=
    match ks with
    | [] => (None, d)
    | k :: ks =>
        match get k d, get k d2 with
        | Some a, Some b =>
            match cat a b with
            | Err e => (Some e, d)
            | Ok s => cat_all ks (put k s d) d2
            end
        | _, _ => (Some KeyError, d)
        end
    end.
  Definition subset (a b : list string) : bool := forallb (fun k => existsb (String.eqb k) b) a.
  Definition append_history (h h2 : history) (it : val) : option exn * history :=
    if negb (subset (keys h) (keys h2) && subset (keys h2) (keys h)) then (Some ValueError, h)
    else match it with
         | VNone =>
             match cat_all (keys h) (vd h) (vd h2) with
             | (Some e, d) => (Some e, Hist d (keys h) (hlen h) (single h) (main h))
             | (None, d) =>
                 match cat_all ["iters"%string] d (vd h2) with
                 | (Some e, d) => (Some e, Hist d (keys h) (hlen h) (single h) (main h))
                 | (None, d) => (None, Hist d (keys h) (hlen h + hlen h2) (single h) (main h))
                 end
             end
         | _ => (Some ValueError, h)
         end.

  (** 53-155.  [IList]: a list of numbers; [IArr]: an array. *)
  Inductive iarg := INone | IScalar (n : num) | IList (l : list num) | IArr (dt : dtype) (l : list num).
  (** The dtype of [np.array(l)]; an empty list gives floats. *)
  Definition list_dtype (l : list num) : dtype :=
    match l with [] => DFloat | n :: l => fold_left (fun d x => promote d (dtype_of x)) l (dtype_of n) end.
  Definition iaxis (i : iarg) : dtype * list num :=
    match i with
    | INone => (DInt, [NInt 0])
    | IScalar n => (dtype_of n, [n])
    | IList l => (list_dtype l, map (cast_arr (list_dtype l)) l)
    | IArr dt l => (dt, l)
    end.
  Definition new_series (n : nat) (v : val) : res series :=
    match v with
    | VNum x => if Nat.eqb n 1 then Ok (SArr (dtype_of x) [] [[x]]) else Err ValueError
    | VArr dt [] data => if Nat.eqb n 1 then Ok (SArr dt [] [data]) else Err ValueError
    | VArr dt (l :: tail) data =>
        if Nat.eqb n 1 && negb (Nat.eqb l 1) then Ok (SArr dt (l :: tail) [data])
        else if negb (Nat.eqb l n) then Err ValueError
        else Ok (SArr dt tail (chunks (nprod tail) l data))
    | VLst l => Ok (SLst l)
    | VNone | VObj _ => Ok (SLst [v])
    end.
  Fixpoint new_all (n : nat) (items : list (string * val)) : res vdict :=
    match items with
    | [] => Ok []
    | (k, v) :: items =>
        if String.eqb k "iters" then Err ValueError
        else let? s := new_series n v in let? d := new_all n items in Ok ((k, s) :: d)
    end.
  Definition new_history (values : option arg) (i : iarg) : res history :=
    let '(values, i) := match values, i with
                        | None, INone => (AVal (VLst []), IList [])
                        | None, i => (AVal VNone, i)
                        | Some a, i => (a, i)
                        end in
    let '(dt, its) := iaxis i in
    let '(items, mn, sg) :=
      match values with
      | AVal (VNum x) => ([("value"%string, VNum x)], Some "value"%string, true)
      | AVal (VArr d s x) => ([("value"%string, VArr d s x)], Some "value"%string, true)
      | AVal v => ([("value"%string, VLst [v])], Some "value"%string, true)
      | ACompound m d => (d, Some m, false)
      | ADict d => (d, None, false)
      end in
    let? d := new_all (length its) items in
    Ok (Hist (("iters"%string, SArr dt [] (map (fun x => [x]) its)) :: d) (map fst items) (length its) sg mn).

  (** 168-178, 180-194: a range [a : b] of iterations. *)
  Definition slice_series (a b : nat) (s : series) : val :=
    match s with
    | SArr dt sh rows => let r := firstn (b - a) (skipn a rows) in VArr dt (length r :: sh) (List.concat r)
    | SLst l => VLst (firstn (b - a) (skipn a l))
    end.
  Definition get_slice (h : history) (a b : nat) : res history :=
    match get "iters" (vd h) with
    | Some (SArr dt [] rows) =>
        let items := map (fun k => match get k (vd h) with Some s => (k, slice_series a b s) | None => (k, VNone) end) (keys h) in
        let? r := new_history (Some (ADict items)) (IArr dt (List.concat (firstn (b - a) (skipn a rows)))) in
        Ok (Hist (vd r) (keys r) (hlen r) (single h) (main h))
    | _ => Err AttributeError
    end.

  (** 387-392: accum_histories *)
  Definition accum (h : option history) (a : arg) (step : num) : option exn * option history :=
    match h with
    | None => match new_history (Some a) (IScalar step) with Ok h => (None, Some h) | Err e => (Some e, None) end
    | Some h => let '(e, h) := append_arg h a (VNum step) in (e, Some h)
    end.
  (** A leaf of the logged tree over a run. *)
  Fixpoint accum_run (h : option history) (log : list (num * arg)) : option exn * option history :=
    match log with
    | [] => (None, h)
    | (step, a) :: log => match accum h a step with (None, h) => accum_run h log | r => r end
    end.
End H.
