(** * The Metropolis sampler spread over devices (netket/sampler/metropolis_pmap.py 32-254)

    [Metro_Model] is the sampler every device runs (its [m_chains] is the number of chains
    per device).  jax.pmap applies a function to every device's slice of the stacked
    arrays; a stacked state is the list of the devices' states. *)
From Coq Require Import List ZArith Bool QArith.
From Verif Require Import Base MCState_Model Metro_Model.
Import ListNotations.
Open Scope Z_scope.

(** ** Construction *)

(** A keyword argument: not given, given as None, given as an integer. *)
Definition kwarg := option (option Z).

(** base.py 71-111 with keyword arguments; the entry n_chains_per_rank of the result *)
Definition parent_pre_init (n_nodes : Z) (n_chains n_chains_per_rank : kwarg) : res (option Z) :=
  match n_chains_per_rank with
  | Some c => match n_chains with Some (Some _) => Err ValueError | _ => Ok c end
  | None => let? c := pre_init n_nodes (match n_chains with Some n => n | None => None end) None in Ok (Some c)
  end.

(** metropolis_pmap.py 80-127: the number of chains per rank and whether a warning is
    issued; [n_devices] is len(jax.devices()).  None / n_devices is a TypeError.  Line 116
    assigns before line 118 compares. *)
Definition pmap_pre_init (n_nodes n_devices : Z) (n_chains n_chains_per_rank : kwarg) (n_chains_per_device : option Z)
  : res (Z * bool) :=
  let n_chains_undef := match n_chains, n_chains_per_rank with None, None => true | _, _ => false end in
  let both := negb n_chains_undef && match n_chains_per_device with Some _ => true | None => false end in
  if both then Err ValueError
  else
    let? kw := parent_pre_init n_nodes n_chains n_chains_per_rank in
    let? per_device := match n_chains_per_device with
      | Some d => Ok d
      | None => match kw with Some c => Ok (Z.max (ceil_div c n_devices) 1) | None => Err TypeError end
      end in
    let kw := per_device * n_devices in
    Ok (kw, negb (kw =? per_device * n_devices)).

(** Types of the samples; numpy's float64 is the default of the field dtype. *)
Inductive dtype := Float64 | OtherType (n : nat).

(** The fields that matter: of the sampler, and of the sampler every device runs. *)
Record pmap_sampler := PmapSampler {
  ps_chains_per_rank : Z; ps_dtype : dtype;
  ps_chains_per_device : Z; ps_device_dtype : dtype; ps_warned : bool }.

(** 129-158: __post_init__; the device's sampler is constructed without dtype. *)
Definition pmap_sampler_make (experimental : bool) (n_nodes n_devices : Z) (n_chains n_chains_per_rank : kwarg)
    (n_chains_per_device : option Z) (dt : option dtype) : res pmap_sampler :=
  let? cw := pmap_pre_init n_nodes n_devices n_chains n_chains_per_rank n_chains_per_device in
  if experimental then
    let per_device := fst cw / n_devices in
    Ok (PmapSampler (fst cw) (match dt with Some d => d | None => Float64 end) per_device Float64 (snd cw))
  else Err RuntimeError.

(** base.py 126-133: n_chains *)
Definition ps_n_chains (n_nodes : Z) (s : pmap_sampler) : Z := ps_chains_per_rank s * n_nodes.

(** metropolis.py 275-277 and 125-127: the type of the configurations every device holds *)
Definition samples_dtype (s : pmap_sampler) : dtype := ps_device_dtype s.

(** ** Sampling *)
Open Scope nat_scope.
Section Sampling.
  Context {Cfg Par R Key RS : Type}.
  Variable M : metro Cfg Par R Key RS.
  (** jax.random.split(key, n) *)
  Variable splitn : Key -> nat -> list Key.

  Definition pstate := list (mstate Cfg Key RS).

  (** 164-174, 223-227 *)
  Definition p_init (n_devices : nat) (p : Par) (key : Key) : pstate := map (init_state M p) (splitn key n_devices).
  (** 176-185, 230-234 *)
  Definition p_reset (p : Par) (s : pstate) : pstate := map (reset M p) s.
  (** 187-198, 237-244: conf.reshape(-1, N) of an array (devices, chains, N) *)
  Definition p_next (p : Par) (s : pstate) : pstate * list Cfg :=
    let r := map (sample_next M p) s in (map fst r, concat (map snd r)).
  (** 200-217, 247-254: out_axes=(1, 0) stacks the samples of the devices as the second
      axis, after the time; reshape merges devices and chains *)
  Definition p_chain (p : Par) (chain_length : nat) (s : pstate) : list (list Cfg) * pstate :=
    let r := map (sample_chain M p chain_length) s in
    (map (fun t => concat (map (fun xs => nth t (fst xs) []) r)) (seq 0 chain_length), map snd r).

  Definition p_op (s : pstate) (o : @mop Par) : pstate :=
    match o with
    | Reset p => p_reset p s
    | Next p => fst (p_next p s)
    | Chain p n => snd (p_chain p n s)
    end.
  Definition p_ops (s : pstate) (os : list mop) : pstate := fold_left p_op os s.
  (** the ranks, each with its own key and the same number of devices *)
  Definition p_world (n_devices : nat) (p : Par) (keys : list Key) (os : list mop) : list pstate :=
    map (fun k => p_ops (p_init n_devices p k) os) keys.

  Definition sum_by {A} (f : A -> nat) (l : list A) : nat := fold_right (fun a n => f a + n) 0 l.
  (** 41-43: n_steps_proc.sum() * n_nodes, on rank [r] *)
  Definition p_n_steps (w : list pstate) (r : nat) : option nat :=
    option_map (fun s => sum_by s_steps s * length w) (nth_error w r).
  (** 45-49 *)
  Definition p_n_accepted (w : list pstate) : nat := sum_by (sum_by s_acc) w.
  (** metropolis.py 149-160 *)
  Definition p_acceptance (w : list pstate) (r : nat) : option Q :=
    match p_n_steps w r with
    | Some (S n) => Some (inject_Z (Z.of_nat (p_n_accepted w)) / inject_Z (Z.of_nat (S n)))%Q
    | _ => None
    end.
End Sampling.
