(** * The legacy samplers of jax machines (netket/legacy/sampler/jax)

    Random numbers are functions of keys, which are trees of splits (Keys_Model).  Of the
    values of the machine only the real parts are kept.  Numbers are reals.  Errors are
    returned together with the attributes as they are then. *)
From Coq Require Import List ZArith Bool Reals.
From Verif Require Import Base Rules_Model LegSamp_Model Keys_Model.
Import ListNotations.
Open Scope nat_scope.

(** jax.random.uniform(key, shape=(n,)) at an index; jax.random.randint(key, (n,), 0, high)
    at an index *)
Record rng := Rng { r_unif : key -> nat -> R; r_int : key -> nat -> nat -> nat }.

(** ** kernels *)
(** local_kernel.py 10-18; the local states are sorted (6).  The integers are below the
    bounds, so no index is out of range. *)
Definition jlocal_move (r : rng) (ls : list Z) (size : nat) (k : key) (x : cfg) : cfg :=
  leg_local_move (leg_local_states ls) (r_int r (sub k 2 0) size 0) (r_int r (sub k 2 1) (length ls - 1) 0) x.
(** 20-27 *)
Definition jlocal_random (r : rng) (ls : list Z) (size : nat) (k : key) : key * cfg :=
  (sub k 2 0, map (fun i => nth (r_int r (sub k 2 1) (length ls) i) (leg_local_states ls) 0%Z) (seq 0 size)).
(** exchange_kernel.py 13-23 *)
Definition jexch_move (r : rng) (clusters : list (nat * nat)) (k : key) (x : cfg) : cfg :=
  leg_exchange_move (nth (r_int r k (length clusters) 0) clusters (0, 0)) x.
(** 25-26: hilbert.random_state() is not a jax function.  The method is compiled
    (metropolis_hastings.py 13), so it is called once, when traced, and its value [traced] is
    a constant from then on (whether jax traces anew at a later reset is up to its caches; here
    it does not). *)
Definition jexch_random (traced : cfg) (k : key) : key * cfg := (k, traced).

Section Sampler.
  Context {Par : Type}.
  Variable size : nat.                       (* machine.input_size *)
  Variable logv : Par -> cfg -> R.           (* real part of machine._forward_fn_nj *)
  Variable unif : key -> nat -> R.
  Variable mv : key -> cfg -> cfg.           (* kernel.transition *)
  Variable rd : key -> key * cfg.            (* kernel.random_state *)

  (** ** metropolis_hastings.py 28-86 *)
  (** A walker: key, and states with their log_prob *)
  Definition walker := (key * list (cfg * R))%type.
  (** 44-66 *)
  Definition step (p : Par) (pow : R) (w : walker) : walker :=
    let '(k, rows) := w in
    let n := length rows in
    (sub k (2 + n) 0,
     map (fun t => let '(i, (x, l)) := t in
            let y := mv (sub k (2 + n) (2 + i)) x in
            let l1 := (pow * logv p y)%R in
            if Rlt_dec (unif (sub k (2 + n) 1) i) (exp (l1 - l)) then (y, l1) else (x, l))
         (combine (seq 0 n) rows)).
  (** 68-74 *)
  Fixpoint steps (p : Par) (pow : R) (n : nat) (w : walker) : walker :=
    match n with O => w | S n => steps p pow n (step p pow w) end.
  (** 68-84 *)
  Fixpoint scan (p : Par) (pow : R) (sweep : Z) (n : nat) (w : walker) : list (list cfg) :=
    match n with
    | O => []
    | S n => let w := steps p pow (Z.to_nat sweep) w in map fst (snd w) :: scan p pow sweep n w
    end.
  (** 75-86 *)
  Definition metropolis_kernel (n : nat) (sweep : Z) (xs : list cfg) (p : Par) (pow : R) (k : key) : key * list (list cfg) :=
    (sub k 2 0, scan p pow sweep n (sub k 2 1, map (fun x => (x, (pow * logv p x)%R)) xs)).

  Record jsmp := JSmp {
    j_par : Par; j_key : key; j_state : list cfg; j_sweep : Z; j_pow : R;
    j_chains : Z;      (* _n_chains *)
    j_shape : Z }.     (* sample_shape[0] *)
  (** 121-123: lax.scan of kernel.random_state *)
  Fixpoint scan_random (n : nat) (k : key) : key * list cfg :=
    match n with
    | O => (k, [])
    | S n => let '(k1, x) := rd k in let '(k2, xs) := scan_random n k1 in (k2, x :: xs)
    end.
  (** 118-128; the counters are not modelled: they are set to 0 and never changed *)
  Definition reset (init_random : bool) (s : jsmp) : jsmp * res unit :=
    if init_random then
      let '(k, xs) := scan_random (Z.to_nat (j_chains s)) (j_key s) in
      (JSmp (j_par s) k xs (j_sweep s) (j_pow s) (j_chains s) (j_shape s),
       if (Z.of_nat (length xs) =? j_shape s)%Z then Ok tt else Err AssertionError)
    else (s, Ok tt).
  (** 92-98 *)
  Definition set_chains (n : Z) (s : jsmp) : jsmp * res unit :=
    if (n <? 0)%Z then (s, Err ValueError)
    else reset true (JSmp (j_par s) (j_key s) (j_state s) (j_sweep s) (j_pow s) n (j_shape s)).
  (** 112-116 *)
  Definition set_sweep (z : option Z) (s : jsmp) : jsmp * res unit :=
    let z := match z with Some z => z | None => Z.of_nat size end in
    (JSmp (j_par s) (j_key s) (j_state s) z (j_pow s) (j_chains s) (j_shape s), if (z <? 0)%Z then Err ValueError else Ok tt).
  (** 9-26, with a key *)
  Definition make (p : Par) (k : key) (n_chains : Z) (sweep : option Z) : res jsmp :=
    match set_chains n_chains (JSmp p k [] 0 2 n_chains n_chains) with
    | (s, Ok _) => match set_sweep sweep s with (s, Ok _) => Ok s | (_, Err e) => Err e end
    | (_, Err e) => Err e
    end.
  (** 130-148; the argument samples is not used *)
  Definition generate (n : nat) (init_random : bool) (s : jsmp) : jsmp * res (option (list (list cfg))) :=
    match n with
    | O => (s, Ok None)
    | S _ =>
        match reset init_random s with
        | (s, Err e) => (s, Err e)
        | (s, Ok _) =>
            let '(k, samples) := metropolis_kernel n (j_sweep s) (j_state s) (j_par s) (j_pow s) (j_key s) in
            (JSmp (j_par s) k (last samples []) (j_sweep s) (j_pow s) (j_chains s) (j_shape s), Ok (Some samples))
        end
    end.
  (** 150-163 *)
  Definition next (s : jsmp) : jsmp * res (option (list (list cfg))) :=
    let '(k, samples) := metropolis_kernel 1 (j_sweep s) (j_state s) (j_par s) (j_pow s) (j_key s) in
    (JSmp (j_par s) k (last samples []) (j_sweep s) (j_pow s) (j_chains s) (j_shape s), Ok (Some samples)).

  (** A history: errors are caught, and the sampler used on *)
  Inductive jop := JReset (init_random : bool) | JGenerate (n : nat) (init_random : bool) | JNext
    | JSetPar (p : Par) | JSetPow (w : R) | JSetSweep (z : option Z) | JSetChains (n : Z).
  Definition quiet (r : jsmp * res unit) : jsmp * res (option (list (list cfg))) :=
    (fst r, match snd r with Ok _ => Ok None | Err e => Err e end).
  Definition apply_op (s : jsmp) (o : jop) : jsmp * res (option (list (list cfg))) :=
    match o with
    | JReset i => quiet (reset i s)
    | JGenerate n i => generate n i s
    | JNext => next s
    | JSetPar p => (JSmp p (j_key s) (j_state s) (j_sweep s) (j_pow s) (j_chains s) (j_shape s), Ok None)
    | JSetPow w => (JSmp (j_par s) (j_key s) (j_state s) (j_sweep s) w (j_chains s) (j_shape s), Ok None)
    | JSetSweep z => quiet (set_sweep z s)
    | JSetChains n => quiet (set_chains n s)
    end.
  Fixpoint history (s : jsmp) (ops : list jop) : jsmp * list (res (option (list (list cfg)))) :=
    match ops with
    | [] => (s, [])
    | o :: ops => let '(s1, r) := apply_op s o in let '(s2, rs) := history s1 ops in (s2, r :: rs)
    end.
End Sampler.
Arguments jsmp : clear implicits.
Arguments jop : clear implicits.

(** ** the keys random numbers are drawn with: [tr] those of a transition, [ru] those of a
    random state *)
Section Used.
  Context {Par : Type}.
  Variable tr : key -> list key.
  Variable ru : key -> key * list key.
  Definition step_used (n : nat) (k : key) : key * list key :=
    (sub k (2 + n) 0, sub k (2 + n) 1 :: concat (map (fun i => tr (sub k (2 + n) (2 + i))) (seq 0 n))).
  Definition kernel_used (n sweep chains : nat) (k : key) : key * list key :=
    (sub k 2 0, snd (times (step_used chains) (n * sweep) (sub k 2 1))).
  (** keys of one operation of a sampler *)
  Definition op_used (s : jsmp Par) (o : jop Par) : key * list key :=
    match o with
    | JReset true => times ru (Z.to_nat (j_chains s)) (j_key s)
    | JGenerate (S n) true =>
        let chains := Z.to_nat (j_chains s) in
        let '(k1, a) := times ru chains (j_key s) in
        if (Z.of_nat chains =? j_shape s)%Z
        then let '(k2, b) := kernel_used (S n) (Z.to_nat (j_sweep s)) chains k1 in (k2, a ++ b)
        else (k1, a)
    | JGenerate (S n) false => kernel_used (S n) (Z.to_nat (j_sweep s)) (length (j_state s)) (j_key s)
    | JNext => kernel_used 1 (Z.to_nat (j_sweep s)) (length (j_state s)) (j_key s)
    | JSetChains n => if (n <? 0)%Z then (j_key s, []) else times ru (Z.to_nat n) (j_key s)
    | _ => (j_key s, [])
    end.
End Used.
(** local_kernel.py 20-27; exchange_kernel.py 25-26 *)
Definition local_random_used (k : key) : key * list key := (sub k 2 0, [sub k 2 1]).
Definition exch_random_used (k : key) : key * list key := (k, []).
