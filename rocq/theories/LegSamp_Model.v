(** * The legacy samplers (netket/legacy/sampler)

    The numpy classes MetropolisHastings and MetropolisHastingsPt, their kernels, the
    exact sampler, and the loops of AbstractSampler.

    The state of numpy's global generator, the kernel used by a sampler, the machine at
    given parameters and the function drawing a uniform number are inputs of the
    definitions; theorems quantify over them.  Of the complex values of the machine only
    the real parts are kept (the imaginary parts are stored but never used in a test).
    Numbers are reals, without rounding or overflow; [assert not isnan(prob)] always holds
    then. *)
From Coq Require Import List ZArith Bool Lia Reals.
From Verif Require Import Base Rules_Model.
Import ListNotations.
Open Scope nat_scope.

(** ** Random numbers *)

(** legacy/random.py 46-65, [randint(low, high, size=())]: the draw [x] of
    [np.random.rand] mapped to floor(x * (high - low)) + low. *)
Definition leg_randint (low high : nat) (x : R) : nat := floor_draw x (high - low) + low.

(** ** Kernels *)

(** sampler/numpy/local_kernel.py 9-12: the local states are sorted. *)
Definition leg_local_states (local_states : list Z) : list Z := np_sort local_states.

(** sampler/numpy/local_kernel.py 14-24, [transition] on one chain: [si] and [rs] are the
    two drawn integers; the correction is 0 (26). *)
Definition leg_local_move (local_states : list Z) (si rs : nat) (x : cfg) : cfg :=
  upd x si (nth (rs + (if (nth si x 0 <=? nth rs local_states 0)%Z then 1 else 0)) local_states 0%Z).

(** sampler/numpy/local_kernel.py 28-33, [random_state] on one chain: one drawn integer
    for every site. *)
Definition leg_local_random (local_states : list Z) (rs : list nat) : cfg :=
  map (fun r => nth r local_states 0%Z) rs.

(** sampler/numpy/exchange_kernel.py 17-27, [_transition] on one chain: [c] is the drawn
    cluster; both right hand sides are read before either site is written. *)
Definition leg_exchange_move (c : nat * nat) (x : cfg) : cfg :=
  let '(si, sj) := c in
  upd (upd x si (nth sj x 0%Z)) sj (nth si x 0%Z).

(** sampler/metropolis_exchange.py 6-20, [_compute_clusters]; [None] is an infinite
    distance. *)
Definition leg_clusters (size : nat) (dist : nat -> nat -> option nat) (d_max : nat) : list (nat * nat) :=
  flat_map (fun i => flat_map (fun j =>
    match dist i j with
    | Some d => if d <=? d_max then [(i, j)] else []
    | None => []
    end) (seq (i + 1) (size - (i + 1)))) (seq 0 size).

(** sampler/numpy/hamiltonian_kernel.py 35-41, [_choose]: proposals, and logarithms of the
    numbers of connected configurations. *)
Fixpoint leg_choose (low_range : nat) (states : list cfg) (sections : list nat) (rnd : list R)
  : res (list cfg * list R) :=
  match sections, rnd with
  | s :: sections, x :: rnd =>
      match nth_error states (leg_randint low_range s x) with
      | None => Err Fault
      | Some y =>
          let? r := leg_choose s states sections rnd in
          Ok (y :: fst r, ln (INR (s - low_range)) :: snd r)
      end
  | _, _ => Ok ([], [])
  end.

(** sampler/numpy/hamiltonian_kernel.py 16-26, [transition]: [conn] are the connected
    configurations of the operator ([get_conn_flattened], [n_conn]). *)
Definition leg_ham_transition (conn : cfg -> list cfg) (xs : list cfg) (rnd : list R)
  : res (list cfg * list R) :=
  let '(vprimes, sections) := conn_flattened conn xs in
  let? r := leg_choose 0 vprimes sections rnd in
  let n_conn := map (fun y => length (conn y)) (fst r) in
  Ok (fst r, map (fun t => (fst t - ln (INR (snd t)))%R) (combine (snd r) n_conn)).

(** ** MetropolisHastings *)

Section Sampler.
  Context {Par Gen : Type}.
  Variable size : nat.                                        (* machine.input_size *)
  Variable logv : Par -> cfg -> R.                            (* machine.log_val(x).real *)
  Variable k_move : Gen -> list cfg -> Gen * list (cfg * R).  (* kernel.transition: proposals, corrections *)
  Variable k_random : Gen -> nat -> Gen * list cfg.           (* kernel.random_state of so many chains *)
  Variable unif : Gen -> Gen * R.                             (* _random.uniform(0, 1) *)

  (** The attributes of the sampler and of the machine it refers to. *)
  Record smp := Smp {
    s_par : Par;             (* parameters of the machine *)
    s_gen : Gen;             (* the global generator *)
    s_state : list cfg;      (* _state *)
    s_lv : list R;           (* _log_values *)
    s_sweep : Z;             (* _sweep_size *)
    s_pow : R;               (* _machine_pow *)
    s_acc : Z;               (* _accepted_samples *)
    s_tot : Z;               (* _total_samples *)
    s_chains : nat;          (* _n_chains *)
    s_shape : nat }.         (* sample_shape[0] *)

  (** sampler/numpy/metropolis_hastings.py 80-82. *)
  Definition acc_prob (pow l1 l c : R) : R := exp (pow * (l1 - l + c)).

  (** sampler/numpy/metropolis_hastings.py 77-90, [acceptance_kernel]: the loop over the
      chains; [rows] holds (state, log_value), [props] (state1, log_value_1,
      log_prob_corr). *)
  Fixpoint acc_loop (pow : R) (g : Gen) (rows : list (cfg * R)) (props : list (cfg * R * R))
    : Gen * list (cfg * R) * Z :=
    match rows, props with
    | (x, l) :: rows, (y, l1, c) :: props =>
        let '(g, u) := unif g in
        let a := if Rlt_dec u (acc_prob pow l1 l c) then true else false in
        let '(g, out, n) := acc_loop pow g rows props in
        (g, (if a then (y, l1) else (x, l)) :: out, ((if a then 1 else 0) + n)%Z)
    | _, _ => (g, [], 0%Z)
    end.

  (** sampler/numpy/metropolis_hastings.py 106-121, one turn of the loop of [__next__]. *)
  Definition one_sweep (s : smp) : smp :=
    let '(g, prop) := k_move (s_gen s) (s_state s) in
    let props := map (fun t => (fst t, logv (s_par s) (fst t), snd t)) prop in
    let '(g, rows, n) := acc_loop (s_pow s) g (combine (s_state s) (s_lv s)) props in
    Smp (s_par s) g (map fst rows) (map snd rows) (s_sweep s) (s_pow s) (s_acc s + n) (s_tot s)
        (s_chains s) (s_shape s).

  Fixpoint sweeps (n : nat) (s : smp) : smp :=
    match n with O => s | S n => sweeps n (one_sweep s) end.

  (** sampler/numpy/metropolis_hastings.py 92-126, [__next__]: [range(sweep_size)] is empty
      for a negative number. *)
  Definition next (s : smp) : smp :=
    let s' := sweeps (Z.to_nat (s_sweep s)) s in
    Smp (s_par s') (s_gen s') (s_state s') (s_lv s') (s_sweep s') (s_pow s') (s_acc s')
        (s_tot s' + s_sweep s * Z.of_nat (s_chains s)) (s_chains s') (s_shape s').

  (** sampler/numpy/metropolis_hastings.py 64-70, [reset]. *)
  Definition reset (init_random : bool) (s : smp) : smp :=
    let '(g, st) := if init_random then k_random (s_gen s) (length (s_state s)) else (s_gen s, s_state s) in
    Smp (s_par s) g st (map (logv (s_par s)) st) (s_sweep s) (s_pow s) 0 0 (s_chains s) (s_shape s).

  (** sampler/numpy/metropolis_hastings.py 30-42, the setter of [n_chains]. *)
  Definition set_chains (n : Z) (s : smp) : smp * res unit :=
    if (n <? 0)%Z then (s, Err ValueError)
    else (Smp (s_par s) (s_gen s) (repeat (repeat 0%Z size) (Z.to_nat n)) (repeat 0%R (Z.to_nat n))
              (s_sweep s) (s_pow s) (s_acc s) (s_tot s) (Z.to_nat n) (s_shape s), Ok tt).

  (** sampler/numpy/metropolis_hastings.py 58-62, the setter of [sweep_size]: assigned
      first, checked afterwards. *)
  Definition set_sweep (n : option Z) (s : smp) : smp * res unit :=
    let v := match n with Some n => n | None => Z.of_nat size end in
    (Smp (s_par s) (s_gen s) (s_state s) (s_lv s) v (s_pow s) (s_acc s) (s_tot s) (s_chains s) (s_shape s),
     if (v <? 0)%Z then Err ValueError else Ok tt).

  Definition set_pow (p : R) (s : smp) : smp :=
    Smp (s_par s) (s_gen s) (s_state s) (s_lv s) (s_sweep s) p (s_acc s) (s_tot s) (s_chains s) (s_shape s).
  (** An optimiser writes the parameters of the machine. *)
  Definition set_par (p : Par) (s : smp) : smp :=
    Smp p (s_gen s) (s_state s) (s_lv s) (s_sweep s) (s_pow s) (s_acc s) (s_tot s) (s_chains s) (s_shape s).

  (** sampler/numpy/metropolis_hastings.py 13-24, [__init__], and abstract_sampler.py 8-10,
      31-36. *)
  Definition init (p : Par) (g : Gen) (n_chains : Z) (sweep_size : option Z) : res smp :=
    let s := Smp p g [] [] 0 2%R 0 0 0 (Z.to_nat n_chains) in
    let '(s, r) := set_chains n_chains s in
    let? _ := r in
    let '(s, r) := set_sweep sweep_size s in
    let? _ := r in
    Ok (reset true (set_pow 2%R s)).

  (** [samples[i] = rows] of an array with [shape] rows: numpy broadcasts one row. *)
  Definition assign_rows (shape : nat) (rows : list cfg) : res (list cfg) :=
    if length rows =? shape then Ok rows
    else match rows with [x] => Ok (repeat x shape) | _ => Err ValueError end.

  (** sampler/abstract_sampler.py 57-58, the loop of [generate_samples]; an exception leaves
      the sampler in the state reached. *)
  Fixpoint gen_loop (n : nat) (s : smp) : smp * res (list (list cfg)) :=
    match n with
    | O => (s, Ok [])
    | S n =>
        let s := next s in
        match assign_rows (s_shape s) (s_state s) with
        | Err e => (s, Err e)
        | Ok rows => let '(s, r) := gen_loop n s in (s, let? out := r in Ok (rows :: out))
        end
    end.

  (** sampler/abstract_sampler.py 51-59, [generate_samples] with [samples=None]. *)
  Definition generate (n : nat) (init_random : bool) (s : smp) : smp * res (list (list cfg)) :=
    gen_loop n (reset init_random s).

  Fixpoint nexts (n : nat) (s : smp) : smp := match n with O => s | S n => nexts n (next s) end.

  (** sampler/abstract_sampler.py 42-49, [list(samples(n))]: every element of the list is the
      array [_state] itself, seen after the last step. *)
  Definition samples_list (n : nat) (init_random : bool) (s : smp) : smp * list (list cfg) :=
    let s' := nexts n (reset init_random s) in (s', repeat (s_state s') n).

  (** sampler/numpy/metropolis_hastings.py 128-131, [acceptance] on one process: 0/0 is
      [None]. *)
  Definition acceptance (s : smp) : option R :=
    if (s_tot s =? 0)%Z then None else Some (IZR (s_acc s) / IZR (s_tot s))%R.

  (** Uses of a sampler; exceptions are caught by the caller. *)
  Inductive op :=
  | Reset (init_random : bool) | Next | Generate (n : nat) (init_random : bool)
  | SetPow (p : R) | SetSweep (n : option Z) | SetChains (n : Z) | SetPar (p : Par).
  Definition apply (o : op) (s : smp) : smp :=
    match o with
    | Reset b => reset b s
    | Next => next s
    | Generate n b => fst (generate n b s)
    | SetPow p => set_pow p s
    | SetSweep n => fst (set_sweep n s)
    | SetChains n => fst (set_chains n s)
    | SetPar p => set_par p s
    end.
  Definition run (ops : list op) (s : smp) : smp := fold_left (fun s o => apply o s) ops s.
End Sampler.
Arguments smp : clear implicits. Arguments op : clear implicits.

(** ** MetropolisHastingsPt *)

Section Tempering.
  Context {Par Gen : Type}.
  Variable size : nat.
  Variable logv : Par -> cfg -> R.
  Variable k_move : Gen -> list cfg -> Gen * list (cfg * R).
  Variable k_random : Gen -> nat -> Gen * list cfg.
  Variable unif : Gen -> Gen * R.
  Variable rint2 : Gen -> Gen * bool.                  (* randint(0, 2) is 1 *)

  Record ptm := Ptm {
    t_par : Par; t_gen : Gen;
    t_state : list cfg; t_lv : list R;
    t_beta : list R;         (* _beta *)
    t_prop : list R;         (* _proposed_beta *)
    t_prob : list R;         (* _beta_prob *)
    t_pos : nat;             (* _beta_stats[0] *)
    t_mean : R;              (* _beta_stats[1] *)
    t_m2 : R;                (* _beta_stats[2] *)
    t_steps : nat;           (* _beta_stats[3] *)
    t_sweep : nat; t_pow : R;
    t_acc : list nat;        (* _accepted_samples *)
    t_tot : nat }.

  (** sampler/numpy/metropolis_hastings_pt.py 58-61: 1 - i / n_replicas. *)
  Definition leg_betas (n : nat) : list R := map (fun i => (1 - INR i / INR n)%R) (seq 0 n).

  (** sampler/numpy/metropolis_hastings_pt.py 109-123: the loop over the replicas;
      [rows] holds (state, log_value, beta, accepted). *)
  Fixpoint fb_loop (pow : R) (g : Gen) (rows : list (cfg * R * R * nat)) (props : list (cfg * R * R))
    : Gen * list (cfg * R * nat) :=
    match rows, props with
    | (x, l, b, n) :: rows, (y, l1, c) :: props =>
        let '(g, u) := unif g in
        let a := if Rlt_dec u (exp (pow * b * (l1 - l + c))) then true else false in
        let '(g, out) := fb_loop pow g rows props in
        (g, (if a then (y, l1, S n) else (x, l, n)) :: out)
    | _, _ => (g, [])
    end.

  (** range(swap_order, n_replicas, 2). *)
  Definition swap_range (n order : nat) : list nat :=
    map (fun k => order + 2 * k) (seq 0 ((n + 1 - order) / 2)).

  (** sampler/numpy/metropolis_hastings_pt.py 185-188: the proposed inverse temperatures,
      written into the array left by the previous call. *)
  Definition propose (n order : nat) (beta prop : list R) : list R :=
    fold_left (fun prop i =>
      let inn := (i + 1) mod n in
      upd (upd prop i (nth inn beta 0%R)) inn (nth i beta 0%R)) (swap_range n order) prop.

  (** sampler/numpy/metropolis_hastings_pt.py 190-193. *)
  Definition exch_prob (pow : R) (lv beta prop : list R) : list R :=
    map (fun i => exp (pow * (nth i prop 0 - nth i beta 0) * nth i lv 0)%R) (seq 0 (length beta)).

  Definition swap2 {A} (d : A) (i j : nat) (l : list A) : list A :=
    upd (upd l i (nth j l d)) j (nth i l d).

  (** sampler/numpy/metropolis_hastings_pt.py 195-212: variables of the loop over the
      pairs. *)
  Record xst := Xst { x_gen : Gen; x_prob : list R; x_beta : list R; x_acc : list nat; x_pos : nat }.

  Definition swap_pair (n : nat) (x : xst) (i : nat) : xst :=
    let inn := (i + 1) mod n in
    let prob := upd (x_prob x) i (nth i (x_prob x) 0 * nth inn (x_prob x) 0)%R in
    let '(g, u) := unif (x_gen x) in
    if Rlt_dec u (nth i prob 0%R) then
      Xst g prob (swap2 0%R i inn (x_beta x)) (swap2 0 i inn (x_acc x))
        (if x_pos x =? i then inn else if x_pos x =? inn then i else x_pos x)
    else Xst g prob (x_beta x) (x_acc x) (x_pos x).

  (** sampler/numpy/metropolis_hastings_pt.py 214-220: mean and squared deviations of the
      position. *)
  Definition position_stats (pos : nat) (mean m2 : R) (steps : nat) : R * R * nat :=
    let steps := S steps in
    let delta := (INR pos - mean)%R in
    let mean := (mean + delta / INR steps)%R in
    let delta2 := (INR pos - mean)%R in
    (mean, (m2 + delta * delta2)%R, steps).

  (** sampler/numpy/metropolis_hastings_pt.py 177-220, [_exchange_step_kernel]. *)
  Definition exchange_step (s : ptm) : ptm :=
    let '(g, o) := rint2 (t_gen s) in
    let order := if o then 1 else 0 in
    let n := length (t_beta s) in
    let prop := propose n order (t_beta s) (t_prop s) in
    let prob := exch_prob (t_pow s) (t_lv s) (t_beta s) prop in
    let x := fold_left (swap_pair n) (swap_range n order)
               (Xst g prob (t_beta s) (t_acc s) (t_pos s)) in
    let '(mean, m2, steps) := position_stats (x_pos x) (t_mean s) (t_m2 s) (t_steps s) in
    Ptm (t_par s) (x_gen x) (t_state s) (t_lv s) (x_beta x) prop (x_prob x) (x_pos x) mean m2 steps
        (t_sweep s) (t_pow s) (x_acc x) (t_tot s).

  (** sampler/numpy/metropolis_hastings_pt.py 144-159: the moves at fixed temperature. *)
  Definition fixed_step (s : ptm) : ptm :=
    let '(g, prop) := k_move (t_gen s) (t_state s) in
    let props := map (fun t => (fst t, logv (t_par s) (fst t), snd t)) prop in
    let '(g, rows) := fb_loop (t_pow s) g
      (combine (combine (combine (t_state s) (t_lv s)) (t_beta s)) (t_acc s)) props in
    Ptm (t_par s) g (map (fun r => fst (fst r)) rows) (map (fun r => snd (fst r)) rows)
        (t_beta s) (t_prop s) (t_prob s) (t_pos s) (t_mean s) (t_m2 s) (t_steps s)
        (t_sweep s) (t_pow s) (map snd rows) (t_tot s).

  Fixpoint pt_sweeps (n : nat) (s : ptm) : ptm :=
    match n with O => s | S n => pt_sweeps n (exchange_step (fixed_step s)) end.

  (** sampler/numpy/metropolis_hastings_pt.py 125-173, [__next__]: the returned row. *)
  Definition pt_next (s : ptm) : ptm * res cfg :=
    let s' := pt_sweeps (t_sweep s) s in
    let s' := Ptm (t_par s') (t_gen s') (t_state s') (t_lv s') (t_beta s') (t_prop s') (t_prob s')
                  (t_pos s') (t_mean s') (t_m2 s') (t_steps s') (t_sweep s') (t_pow s') (t_acc s')
                  (t_tot s' + t_sweep s) in
    (s', match nth_error (t_state s') (t_pos s') with Some x => Ok x | None => Err IndexError end).

  (** sampler/numpy/metropolis_hastings_pt.py 85-94, [reset]: position 0 of the statistics
      and the inverse temperatures are kept. *)
  Definition pt_reset (init_random : bool) (s : ptm) : ptm :=
    let '(g, st) := if init_random then k_random (t_gen s) (length (t_state s)) else (t_gen s, t_state s) in
    Ptm (t_par s) g st (map (logv (t_par s)) st) (t_beta s) (t_prop s) (t_prob s) (t_pos s) 0 0 0
        (t_sweep s) (t_pow s) (repeat 0 (length (t_state s))) 0.

  (** sampler/numpy/metropolis_hastings_pt.py 43-65, the setter of [n_replicas];
      [junk] are the contents of [np.empty]. *)
  Definition set_replicas (junk : list R) (n : Z) (s : ptm) : ptm * res unit :=
    if (n <? 1)%Z then (s, Err ValueError)
    else let n := Z.to_nat n in
      (Ptm (t_par s) (t_gen s) (repeat (repeat 0%Z size) n) (repeat 0%R n) (leg_betas n) junk junk
           (t_pos s) (t_mean s) (t_m2 s) (t_steps s) (t_sweep s) (t_pow s) (t_acc s) (t_tot s), Ok tt).

  Definition pt_set_pow (p : R) (s : ptm) : ptm :=
    Ptm (t_par s) (t_gen s) (t_state s) (t_lv s) (t_beta s) (t_prop s) (t_prob s) (t_pos s) (t_mean s)
        (t_m2 s) (t_steps s) (t_sweep s) p (t_acc s) (t_tot s).
  Definition pt_set_par (p : Par) (s : ptm) : ptm :=
    Ptm p (t_gen s) (t_state s) (t_lv s) (t_beta s) (t_prop s) (t_prob s) (t_pos s) (t_mean s)
        (t_m2 s) (t_steps s) (t_sweep s) (t_pow s) (t_acc s) (t_tot s).

  (** sampler/numpy/metropolis_hastings_pt.py 13-37, [__init__], for a [sweep_size] which is
      not negative. *)
  Definition pt_init (junk : list R) (p : Par) (g : Gen) (n_replicas : Z) (sweep_size : option nat) : res ptm :=
    let sw := match sweep_size with Some n => n | None => size end in
    let s := Ptm p g [] [] [] [] [] 0 0 0 0 sw 2%R [] 0 in
    let '(s, r) := set_replicas junk n_replicas s in
    let? _ := r in
    Ok (pt_reset true s).

  (** Uses of the sampler. *)
  Inductive pt_op := PtReset (init_random : bool) | PtNext | PtSetPow (p : R) | PtSetPar (p : Par).
  Definition pt_apply (o : pt_op) (s : ptm) : ptm :=
    match o with
    | PtReset b => pt_reset b s
    | PtNext => fst (pt_next s)
    | PtSetPow p => pt_set_pow p s
    | PtSetPar p => pt_set_par p s
    end.
  Definition pt_run (ops : list pt_op) (s : ptm) : ptm := fold_left (fun s o => pt_apply o s) ops s.
End Tempering.
Arguments ptm : clear implicits. Arguments xst : clear implicits. Arguments pt_op : clear implicits.

(** ** ExactSampler *)

Section Exact.
  Context {Par : Type}.
  Variable amps : Par -> list R.       (* numpy.absolute(machine.to_array()) *)

  Record exs := Exs { e_par : Par; e_pow : R; e_prob : list R }.

  Fixpoint sumR (l : list R) : R := match l with [] => 0%R | x :: l => (x + sumR l)%R end.

  (** sampler/exact_sampler.py 38-40, [reset]. *)
  Definition ex_reset (s : exs) : exs :=
    let prob := map (fun a => Rpower a (e_pow s)) (amps (e_par s)) in
    Exs (e_par s) (e_pow s) (map (fun p => (p / sumR prob)%R) prob).
  (** 29-36, [__init__]. *)
  Definition ex_init (p : Par) : exs := ex_reset (Exs p 2%R []).
  (** 67-70. *)
  Definition ex_set_pow (pw : R) (s : exs) : exs := ex_reset (Exs (e_par s) pw (e_prob s)).
  Definition ex_set_par (p : Par) (s : exs) : exs := Exs p (e_pow s) (e_prob s).

  (** 42-46 and 48-61: the distribution from which [__next__] and [generate_samples] draw;
      neither resets. *)
  Definition ex_generate_dist (s : exs) : list R := e_prob s.
End Exact.
