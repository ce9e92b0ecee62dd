(** * The numpy optimizers (netket/legacy/optimizer)

    Arrays are one-dimensional, of integers, real or complex numbers; the numbers are pairs of
    real numbers of the standard library (imaginary part 0 unless the array is complex) and the
    arithmetic is exact.  The numbers given to the constructors are python floats (no NaN).
    [update] changes the array [pars] in place and returns it: its outcome is the optimizer
    afterwards, the caller's array afterwards, and the returned array or the exception, so that
    what was already changed when an exception leaves the function is kept. *)
From Coq Require Import List Arith ZArith Bool Reals.
From Verif Require Import Base.
Import ListNotations.
Open Scope R_scope.
Open Scope nat_scope.

(** ** numpy arrays *)
Definition num := (R * R)%type.
Inductive dtype := DInt | DReal | DCpx.
Record arr := Arr { a_dt : dtype; a_vals : list num }.
Definition rank (d : dtype) : nat := match d with DInt => 0 | DReal => 1 | DCpx => 2 end.
Definition join (a b : dtype) : dtype := if rank a <=? rank b then b else a.
Definition size (a : arr) : nat := length (a_vals a).
(** _np.zeros(n, dtype=d) *)
Definition zeros (n : nat) (d : dtype) : arr := Arr d (repeat (0, 0)%R n).
(** a.fill(0.0): the type of the array stays *)
Definition fill0 (a : arr) : arr := Arr (a_dt a) (repeat (0, 0)%R (size a)).
(** an elementwise operation of two arrays: equal lengths, or one of them has length 1 and is
    repeated; anything else raises ValueError *)
Fixpoint map2 (f : num -> num -> num) (a b : list num) : list num :=
  match a, b with x :: a, y :: b => f x y :: map2 f a b | _, _ => [] end.
Definition bop (f : num -> num -> num) (a b : arr) : res arr :=
  let d := join (a_dt a) (a_dt b) in
  if size a =? size b then Ok (Arr d (map2 f (a_vals a) (a_vals b)))
  else match a_vals a, a_vals b with
  | [x], vb => Ok (Arr d (map (f x) vb))
  | va, [y] => Ok (Arr d (map (fun x => f x y) va))
  | _, _ => Err ValueError
  end.
(** the in-place form a op= b: TypeError if the result does not fit the type of [a], ValueError
    if its length is not that of [a] *)
Definition iop (f : num -> num -> num) (a b : arr) : res arr :=
  if negb (rank (join (a_dt a) (a_dt b)) <=? rank (a_dt a)) then Err TypeError
  else let? r := bop f a b in
       if size r =? size a then Ok r else Err ValueError.
(** an elementwise function whose result is at least of type float *)
Definition floats (f : num -> num) (a : arr) : arr := Arr (join DReal (a_dt a)) (map f (a_vals a)).
Definition reals (f : num -> num) (a : arr) : arr := Arr DReal (map f (a_vals a)).
Definition nadd (x y : num) : num := (fst x + fst y, snd x + snd y)%R.
Definition nsub (x y : num) : num := (fst x - fst y, snd x - snd y)%R.
Definition nscale (r : R) (x : num) : num := (r * fst x, r * snd x)%R.
(** products and quotients of which the right operand is a real array *)
Definition ntimes (x y : num) : num := (fst x * fst y, snd x * fst y)%R.
Definition nover (x y : num) : num := (fst x / fst y, snd x / fst y)%R.
Definition nmax (x y : num) : num := (Rmax (fst x) (fst y), 0)%R.
Definition mag2 (x : num) : R := (fst x * fst x + snd x * snd x)%R.
Definition mag (x : num) : R := sqrt (mag2 x).
(** _np.abs(grad) and _np.abs(grad) ** 2 *)
Definition np_abs : arr -> arr := reals (fun x => (mag x, 0)%R).
Definition np_abs2 : arr -> arr := reals (fun x => (mag2 x, 0)%R).
(** r * a *)
Definition scale (r : R) : arr -> arr := floats (nscale r).
(** _np.sqrt(a + eps) of a real array *)
Definition sqrt_eps (eps : R) : arr -> arr := reals (fun x => (sqrt (fst x + eps), 0)%R).

(** ** The optimizers *)
Inductive opt :=
| Sgd (lr l2 decay eta : R)
| Momentum (l2 beta eta : R) (mt : option arr)
| AdaGrad (eta eps : R) (Gsum : option arr)
| RmsProp (eta beta eps : R) (mt : option arr)
| AdaDelta (rho eps l2 : R) (st : option (arr * arr))
| AmsGrad (eta b1 b2 eps : R) (st : option (arr * arr))
| AdaMax (alpha b1 b2 eps : R) (st : option (arr * arr)) (niter : nat).

Definition ltb (a b : R) : bool := if Rlt_dec a b then true else false.
Definition leb (a b : R) : bool := negb (ltb b a).
(** numpy/sgd.py 5-17 *)
Definition new_sgd (lr l2 decay : R) : res opt :=
  if leb lr 0 then Err ValueError else if ltb l2 0 then Err ValueError
  else if ltb decay 1 then Err ValueError else Ok (Sgd lr l2 decay lr).
(** numpy/momentum.py 19-45 *)
Definition new_momentum (lr beta l2 : R) : res opt :=
  if leb lr 0 then Err ValueError else if ltb l2 0 then Err ValueError
  else if ltb beta 0 || ltb 1 beta then Err ValueError else Ok (Momentum l2 beta lr None).
(** numpy/ada_grad.py 24-47 *)
Definition new_adagrad (lr eps : R) : res opt :=
  if leb eps 0 then Err ValueError else if ltb lr 0 then Err ValueError else Ok (AdaGrad lr eps None).
(** numpy/rms_prop.py 21-48 *)
Definition new_rmsprop (lr beta eps : R) : res opt :=
  if leb eps 0 then Err ValueError else if ltb lr 0 then Err ValueError
  else if ltb beta 0 || ltb 1 beta then Err ValueError else Ok (RmsProp lr beta eps None).
(** numpy/ada_delta.py 21-49 *)
Definition new_adadelta (rho eps l2 : R) : res opt :=
  if leb eps 0 then Err ValueError else if ltb l2 0 then Err ValueError
  else if ltb rho 0 || ltb 1 rho then Err ValueError else Ok (AdaDelta rho eps l2 None).
(** numpy/ams_grad.py 25-58; [_niter] is never read *)
Definition new_amsgrad (lr b1 b2 eps : R) : res opt :=
  if leb eps 0 then Err ValueError else if ltb lr 0 then Err ValueError
  else if ltb b1 0 || ltb 1 b1 then Err ValueError
  else if ltb b2 0 || ltb 1 b2 then Err ValueError else Ok (AmsGrad lr b1 b2 eps None).
(** numpy/ada_max.py 25-58 *)
Definition new_adamax (alpha b1 b2 eps : R) : res opt :=
  if leb eps 0 then Err ValueError else if ltb alpha 0 then Err ValueError
  else if ltb b1 0 || ltb 1 b1 then Err ValueError
  else if ltb b2 0 || ltb 1 b2 then Err ValueError else Ok (AdaMax alpha b1 b2 eps None 0).

(** the optimizer, the caller's array, the returned value *)
Definition outcome := (opt * arr * res arr)%type.
Definition fail (o : opt) (pars : arr) (e : exn) : outcome := (o, pars, Err e).
(** the value of an expression, or the exception with the state reached so far *)
Definition andthen {A} (o : opt) (pars : arr) (r : res A) (k : A -> outcome) : outcome :=
  match r with Ok a => k a | Err e => fail o pars e end.
(** pars -= d; return pars *)
Definition subtract (o : opt) (pars d : arr) : outcome :=
  andthen o pars (iop nsub pars d) (fun p => (o, p, Ok p)).
Definition or_zeros (m : option arr) (n : nat) (d : dtype) : arr :=
  match m with None => zeros n d | Some a => a end.
Definition or_zeros2 (m : option (arr * arr)) (n : nat) : arr * arr :=
  match m with None => (zeros n DReal, zeros n DReal) | Some a => a end.

(** update: numpy/sgd.py 19-22, momentum.py 47-54, ada_grad.py 49-57, rms_prop.py 50-58,
    ada_delta.py 51-65, ams_grad.py 60-73, ada_max.py 60-77 *)
Definition update (o : opt) (grad pars : arr) : outcome :=
  match o with
  | Sgd lr l2 decay eta =>
    let eta := (eta * decay)%R in
    let o := Sgd lr l2 decay eta in
    andthen o pars (bop nadd grad (scale l2 pars)) (fun x => subtract o pars (scale eta x))
  | Momentum l2 beta eta mt =>
    let m := or_zeros mt (size pars) (a_dt pars) in
    let o := Momentum l2 beta eta (Some m) in
    andthen o pars (bop nadd (scale beta m) (scale (1 - beta) grad)) (fun m =>
      let o := Momentum l2 beta eta (Some m) in
      andthen o pars (bop nadd m (scale l2 pars)) (fun x => subtract o pars (scale eta x)))
  | AdaGrad eta eps Gsum =>
    let G := or_zeros Gsum (size pars) DReal in
    let o := AdaGrad eta eps (Some G) in
    andthen o pars (iop nadd G (np_abs2 grad)) (fun G =>
      let o := AdaGrad eta eps (Some G) in
      andthen o pars (bop nover (scale eta grad) (sqrt_eps eps G)) (fun x => subtract o pars x))
  | RmsProp eta beta eps mt =>
    let m := or_zeros mt (size pars) DReal in
    let o := RmsProp eta beta eps (Some m) in
    andthen o pars (bop nadd (scale beta m) (scale (1 - beta) (np_abs2 grad))) (fun m =>
      let o := RmsProp eta beta eps (Some m) in
      andthen o pars (bop nover (scale eta grad) (sqrt_eps eps m)) (fun x => subtract o pars x))
  | AdaDelta rho eps l2 st =>
    let '(E, D) := or_zeros2 st (size pars) in
    let o := AdaDelta rho eps l2 (Some (E, D)) in
    andthen o pars (bop nadd (scale rho E) (scale (1 - rho) (np_abs2 grad))) (fun E =>
      let o := AdaDelta rho eps l2 (Some (E, D)) in
      andthen o pars (bop ntimes grad (sqrt_eps eps D)) (fun Dx =>
      andthen o pars (iop nover Dx (sqrt_eps eps E)) (fun Dx =>
      andthen o pars (iop nsub pars Dx) (fun p =>
      andthen o p (bop nadd (scale rho D) (scale (1 - rho) (np_abs2 Dx))) (fun D =>
        (AdaDelta rho eps l2 (Some (E, D)), p, Ok p))))))
  | AmsGrad eta b1 b2 eps st =>
    let '(m, v) := or_zeros2 st (size pars) in
    let o := AmsGrad eta b1 b2 eps (Some (m, v)) in
    andthen o pars (bop nadd (scale b1 m) (scale (1 - b1) grad)) (fun m =>
      let o := AmsGrad eta b1 b2 eps (Some (m, v)) in
      andthen o pars (bop nadd (scale b2 v) (scale (1 - b2) (np_abs2 grad))) (fun w =>
      andthen o pars (bop nmax v w) (fun v =>
      let o := AmsGrad eta b1 b2 eps (Some (m, v)) in
      andthen o pars (bop nover (scale eta m) (sqrt_eps eps v)) (fun x => subtract o pars x))))
  | AdaMax alpha b1 b2 eps st n =>
    let '(m, u) := or_zeros2 st (size pars) in
    let o := AdaMax alpha b1 b2 eps (Some (m, u)) n in
    andthen o pars (bop nadd (scale b1 m) (scale (1 - b1) grad)) (fun m =>
      let o := AdaMax alpha b1 b2 eps (Some (m, u)) n in
      andthen o pars (bop nmax (np_abs grad) (scale b2 u)) (fun w =>
      let u := reals (fun x => (Rmax (fst x) eps, 0)%R) w in
      let n := S n in
      let o := AdaMax alpha b1 b2 eps (Some (m, u)) n in
      let bias := (1 - b1 ^ n)%R in
      if Req_EM_T bias 0 then fail o pars ZeroDivisionError
      else andthen o pars (bop nover (scale (alpha / bias)%R m) u) (fun x => subtract o pars x)))
  end.

(** reset: numpy/sgd.py 24-25, momentum.py 56-58, ada_grad.py 59-61, rms_prop.py 60-62,
    ada_delta.py 67-70, ams_grad.py 75-78, ada_max.py 79-83.  AdaGrad and AdaDelta look at an
    attribute [_mt] that they do not have. *)
Definition reset (o : opt) : opt * res unit :=
  match o with
  | Sgd lr l2 decay eta => (Sgd lr l2 decay lr, Ok tt)
  | Momentum l2 beta eta mt => (Momentum l2 beta eta (option_map fill0 mt), Ok tt)
  | AdaGrad _ _ _ => (o, Err AttributeError)
  | RmsProp eta beta eps mt => (RmsProp eta beta eps (option_map fill0 mt), Ok tt)
  | AdaDelta _ _ _ _ => (o, Err AttributeError)
  | AmsGrad eta b1 b2 eps st => (AmsGrad eta b1 b2 eps (option_map (fun p => (fill0 (fst p), fill0 (snd p))) st), Ok tt)
  | AdaMax alpha b1 b2 eps st n =>
    (match st with
     | None => o
     | Some (m, u) => AdaMax alpha b1 b2 eps (Some (fill0 m, fill0 u)) 0
     end, Ok tt)
  end.

(** A history of updates of one array, until the first exception. *)
Fixpoint run (o : opt) (pars : arr) (grads : list arr) : opt * arr * res unit :=
  match grads with
  | [] => (o, pars, Ok tt)
  | g :: grads =>
    match update o g pars with
    | (o, p, Ok q) => run o q grads
    | (o, p, Err e) => (o, p, Err e)
    end
  end.

(** ** The functions users call (optimizer/sgd.py 6-34, momentum.py 6-31, ada_grad.py 6-36,
    rms_prop.py 6-34, ada_delta.py 6-33, ams_grad.py 6-40, ada_max.py 6-39, jax/__init__.py 9-41)
    The optimizers of jax.experimental.optimizers are identified by their name and arguments;
    the class Wrap around them is below.  AmsGrad called with keywords for a jax machine raises
    TypeError instead of NotImplementedError. *)
Inductive request :=
| RSgd (lr l2 decay : R) | RMomentum (lr beta l2 : R) | RAdaGrad (lr eps : R)
| RRmsProp (lr beta eps : R) | RAdaDelta (rho eps l2 : R) | RAmsGrad (lr b1 b2 eps : R)
| RAdaMax (alpha b1 b2 eps : R).
(** the constructor of the class with the given arguments *)
Definition fresh_of (r : request) : res opt :=
  match r with
  | RSgd lr l2 decay => new_sgd lr l2 decay
  | RMomentum lr beta l2 => new_momentum lr beta l2
  | RAdaGrad lr eps => new_adagrad lr eps
  | RRmsProp lr beta eps => new_rmsprop lr beta eps
  | RAdaDelta rho eps l2 => new_adadelta rho eps l2
  | RAmsGrad lr b1 b2 eps => new_amsgrad lr b1 b2 eps
  | RAdaMax alpha b1 b2 eps => new_adamax alpha b1 b2 eps
  end.
Inductive jaxopt :=
| JSgd (lr : R) | JMomentum (lr mass : R) | JAdagrad (lr : R) | JRmsprop (lr gamma eps : R)
| JAdamax (lr b1 b2 eps : R).
Inductive made := Numpy (o : opt) | Jax (j : jaxopt).
Definition make (jax_machine : bool) (r : request) : res made :=
  let np o := let? o := o in Ok (Numpy o) in
  if jax_machine then
    match r with
    | RSgd lr l2 decay => Ok (Jax (JSgd lr))
    | RMomentum lr beta l2 => Ok (Jax (JMomentum lr beta))
    | RAdaGrad lr eps => Ok (Jax (JAdagrad lr))
    | RRmsProp lr beta eps => Ok (Jax (JRmsprop lr beta eps))
    | RAdaDelta _ _ _ => Err NotImplementedError
    | RAmsGrad _ _ _ _ => Err NotImplementedError
    | RAdaMax alpha b1 b2 eps => Ok (Jax (JAdamax alpha b1 b2 eps))
    end
  else
    match r with
    | RSgd lr l2 decay => np (new_sgd lr l2 decay)
    | RMomentum lr beta l2 => np (new_momentum lr beta l2)
    | RAdaGrad lr eps => np (new_adagrad lr eps)
    | RRmsProp lr beta eps => np (new_rmsprop lr beta eps)
    | RAdaDelta rho eps l2 => np (new_adadelta rho eps l2)
    | RAmsGrad _ _ _ _ => np (new_amsgrad (/ 1000) (9 / 10) (999 / 1000) (/ 10 ^ 7))
    | RAdaMax alpha b1 b2 eps => np (new_adamax alpha b1 b2 eps)
    end.

(** ** jax/wrap.py 6-46: Wrap
    [S] is the state of the jax optimizer, [P] the type of the parameters; the three functions
    of the jax optimizer are oracles. *)
Section Wrap.
  Variables S P G : Type.
  Variable init_fun : P -> S.
  Variable update_fun : nat -> G -> S -> S.
  Variable params_fun : S -> P.
  Record wrap := { w_step : nat; w_state : S }.
  (** reset, also called by the constructor *)
  Definition wrap_reset (machine_parameters : P) : wrap := {| w_step := 0; w_state := init_fun machine_parameters |}.
  (** update: the parameters that are passed are not looked at *)
  Definition wrap_update (w : wrap) (grad : G) (pars : P) : wrap * P :=
    let st := update_fun (w_step w) grad (w_state w) in
    ({| w_step := Datatypes.S (w_step w); w_state := st |}, params_fun st).
End Wrap.
Arguments w_step {S}. Arguments w_state {S}.
