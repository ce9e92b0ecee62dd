(** * Numbers of chains and samples, cached samples of a Monte Carlo state
    (netket/sampler/base.py, netket/vqs/base.py, netket/vqs/mc_state.py)

    Sampling, resetting and initialising a sampler are oracles: arbitrary functions of
    the sampler, the variables and the state of the sampler.  Freezing of dictionaries and
    deprecation warnings are left out.  [n_nodes] is the number of MPI ranks. *)
From Coq Require Import List ZArith Bool.
From Verif Require Import Base.
Import ListNotations.
Open Scope Z_scope.

(** int(np.ceil(a / b)) for a positive [b]. *)
Definition ceil_div (a b : Z) : Z := - ((- a) / b).

(** ** base.py 71-111: Sampler.__pre_init__, the number of chains per rank.
    [n_chains_per_rank] is [Some] if the keyword is given. *)
Definition pre_init (n_nodes : Z) (n_chains n_chains_per_rank : option Z) : res Z :=
  match n_chains_per_rank with
  | Some c => match n_chains with Some _ => Err ValueError | None => Ok c end
  | None =>
      let n := match n_chains with Some n => n | None => 16 end in
      Ok (Z.max (ceil_div n n_nodes) 1)
  end.

(** mc_state.py 55-60. *)
Definition compute_chain_length (n_chains n_samples : Z) : res Z :=
  if n_samples <=? 0 then Err ValueError else Ok (ceil_div n_samples n_chains).

Section State.
  Variables Par MSt RS Smp : Type.       (* parameters, model state, sampler state, samples *)

  Record sampler := Sampler {
    sm_id : nat;                         (* everything else that distinguishes samplers *)
    sm_chains_per_rank : Z;
    sm_exact : bool
  }.

  Variable n_nodes : Z.
  Variable o_reset : sampler -> MSt * Par -> RS -> RS.
  Variable o_sample : sampler -> MSt * Par -> RS -> Z -> Smp * RS.
  Variable o_init : sampler -> MSt * Par -> RS.

  (** base.py 126-133: the n_chains property. *)
  Definition n_chains (s : sampler) : Z := sm_chains_per_rank s * n_nodes.

  Record mcstate := MCState {
    f_par : Par; f_mst : MSt;
    f_sampler : sampler; f_rs : RS;
    f_samples : option Smp;              (* _samples *)
    f_n_samples : Z; f_chain_length : Z; f_per_node : Z;
    f_discard : Z
  }.

  (** mc_state.py 365-370. *)
  Definition mreset (s : mcstate) : mcstate :=
    MCState (f_par s) (f_mst s) (f_sampler s) (f_rs s) None
      (f_n_samples s) (f_chain_length s) (f_per_node s) (f_discard s).

  (** vqs/base.py 76-82. *)
  Definition set_parameters (p : Par) (s : mcstate) : mcstate :=
    mreset (MCState p (f_mst s) (f_sampler s) (f_rs s) (f_samples s)
      (f_n_samples s) (f_chain_length s) (f_per_node s) (f_discard s)).

  (** vqs/base.py 90-96. *)
  Definition set_model_state (m : MSt) (s : mcstate) : mcstate :=
    mreset (MCState (f_par s) m (f_sampler s) (f_rs s) (f_samples s)
      (f_n_samples s) (f_chain_length s) (f_per_node s) (f_discard s)).

  (** vqs/base.py 105-110: first the model state, then the parameters. *)
  Definition set_variables (v : MSt * Par) (s : mcstate) : mcstate :=
    set_parameters (snd v) (set_model_state (fst v) s).

  (** vqs/base.py 98-103. *)
  Definition variables (s : mcstate) : MSt * Par := (f_mst s, f_par s).

  (** mc_state.py 258-270; the type check of the argument is left to the types. *)
  Definition set_sampler (sm : sampler) (s : mcstate) : mcstate :=
    let s1 := MCState (f_par s) (f_mst s) sm (f_rs s) (f_samples s)
      (f_n_samples s) (f_chain_length s) (f_per_node s) (f_discard s) in
    let s2 := MCState (f_par s1) (f_mst s1) (f_sampler s1) (o_init sm (variables s1)) (f_samples s1)
      (f_n_samples s1) (f_chain_length s1) (f_per_node s1) (f_discard s1) in
    mreset s2.

  (** Assignment to the plain attribute sampler_state. *)
  Definition set_sampler_state (r : RS) (s : mcstate) : mcstate :=
    MCState (f_par s) (f_mst s) (f_sampler s) r (f_samples s)
      (f_n_samples s) (f_chain_length s) (f_per_node s) (f_discard s).

  (** 277-288. *)
  Definition set_n_samples (n : Z) (s : mcstate) : res mcstate :=
    let? chain_length := compute_chain_length (n_chains (f_sampler s)) n in
    Ok (mreset (MCState (f_par s) (f_mst s) (f_sampler s) (f_rs s) (f_samples s)
          (chain_length * n_chains (f_sampler s)) chain_length
          (chain_length * sm_chains_per_rank (f_sampler s)) (f_discard s))).

  (** 290-297. *)
  Definition n_samples_per_rank (s : mcstate) : Z := f_chain_length s * n_nodes.
  Definition set_n_samples_per_rank (n : Z) (s : mcstate) : res mcstate :=
    set_n_samples (n * n_nodes) s.

  (** 299-311. *)
  Definition chain_length (s : mcstate) : Z := f_chain_length s.
  Definition set_chain_length (len : Z) (s : mcstate) : res mcstate :=
    let? s' := set_n_samples (len * n_chains (f_sampler s) * n_nodes) s in Ok (mreset s').

  (** 320-340. *)
  Definition set_discard (d : option Z) (s : mcstate) : res mcstate :=
    if match d with Some d => d <? 0 | None => false end then Err ValueError
    else
      let d := if sm_exact (f_sampler s) then Some 0 else d in
      let v := match d with Some d => d | None => f_n_samples s / 10 end in
      Ok (MCState (f_par s) (f_mst s) (f_sampler s) (f_rs s) (f_samples s)
            (f_n_samples s) (f_chain_length s) (f_per_node s) v).

  (** 372-416: sample; the state after the call and what is returned. *)
  Definition msample (cl n_samples n_discard : option Z) (s : mcstate) : res (mcstate * Smp) :=
    let? len := match cl, n_samples with
                | None, None => Ok (chain_length s)
                | None, Some n => compute_chain_length (n_chains (f_sampler s)) n
                | Some c, _ => Ok c
                end in
    let nd := match n_discard with Some d => d | None => f_discard s end in
    let v := variables s in
    let rs0 := o_reset (f_sampler s) v (f_rs s) in
    let rs1 := if f_discard s >? 0 then snd (o_sample (f_sampler s) v rs0 nd) else rs0 in
    let r := o_sample (f_sampler s) v rs1 len in
    Ok (MCState (f_par s) (f_mst s) (f_sampler s) (snd r) (Some (fst r))
          (f_n_samples s) (f_chain_length s) (f_per_node s) (f_discard s), fst r).

  (** 419-431: the samples property. *)
  Definition msamples (s : mcstate) : res (mcstate * Smp) :=
    match f_samples s with
    | Some x => Ok (s, x)
    | None => msample None None None s
    end.

  (** 104-230: construction, reduced to the assignments in their order; [v] are the
      variables given or initialised, [n_samples] etc. the keywords. *)
  Definition construct (sm : sampler) (v : MSt * Par) (n_samples per_rank discard : option Z) : res mcstate :=
    let? n := match n_samples, per_rank with
              | None, None => Ok (inl 1000)
              | Some _, Some _ => Err ValueError
              | Some n, None => Ok (inl n)
              | None, Some p => Ok (inr p)
              end in
    let s0 := MCState (snd v) (fst v) sm (o_init sm v) None 0 0 0 0 in
    let? s1 := match n with inl n => set_n_samples n s0 | inr p => set_n_samples_per_rank p s0 end in
    set_discard discard s1.

  (** ** Histories *)
  Inductive mc_op :=
  | OPar (p : Par) | OMst (m : MSt) | OVars (v : MSt * Par) | OSampler (sm : sampler) | ORs (r : RS)
  | ONSamples (n : Z) | OPerRank (n : Z) | OLen (n : Z) | ODiscard (d : option Z)
  | OReset | OSample (cl n d : option Z) | OSamples.

  (** A call that raises leaves the state as it was (all checks come first). *)
  Definition keep (s : mcstate) (r : res mcstate) : mcstate := match r with Ok s' => s' | Err _ => s end.
  Definition mc_step (op : mc_op) (s : mcstate) : mcstate :=
    match op with
    | OPar p => set_parameters p s
    | OMst m => set_model_state m s
    | OVars v => set_variables v s
    | OSampler sm => set_sampler sm s
    | ORs r => set_sampler_state r s
    | ONSamples n => keep s (set_n_samples n s)
    | OPerRank n => keep s (set_n_samples_per_rank n s)
    | OLen n => keep s (set_chain_length n s)
    | ODiscard d => keep s (set_discard d s)
    | OReset => mreset s
    | OSample cl n d => match msample cl n d s with Ok t => fst t | Err _ => s end
    | OSamples => match msamples s with Ok t => fst t | Err _ => s end
    end.
  Definition mc_run (ops : list mc_op) (s : mcstate) : mcstate := fold_left (fun s op => mc_step op s) ops s.

  (** ** 852-884: serialisation *)
  Record state_dict := StateDict { d_vars : MSt * Par; d_rs : RS; d_n : Z; d_disc : Z }.
  Definition serialize (s : mcstate) : state_dict :=
    StateDict (variables s) (f_rs s) (f_n_samples s) (f_discard s).
  Definition deserialize (s : mcstate) (d : state_dict) : res mcstate :=
    let s1 := mreset s in
    let s2 := set_variables (d_vars d) s1 in
    let s3 := set_sampler_state (d_rs d) s2 in
    let? s4 := set_n_samples (d_n d) s3 in
    set_discard (Some (d_disc d)) s4.
End State.

Arguments f_par {Par MSt RS Smp}.
Arguments f_mst {Par MSt RS Smp}.
Arguments f_sampler {Par MSt RS Smp}.
Arguments f_rs {Par MSt RS Smp}.
Arguments f_samples {Par MSt RS Smp}.
Arguments f_n_samples {Par MSt RS Smp}.
Arguments f_chain_length {Par MSt RS Smp}.
Arguments f_per_node {Par MSt RS Smp}.
Arguments f_discard {Par MSt RS Smp}.
Arguments mreset {Par MSt RS Smp}.
Arguments set_parameters {Par MSt RS Smp}.
Arguments set_model_state {Par MSt RS Smp}.
Arguments set_variables {Par MSt RS Smp}.
Arguments variables {Par MSt RS Smp}.
Arguments set_sampler {Par MSt RS Smp}.
Arguments set_sampler_state {Par MSt RS Smp}.
Arguments set_n_samples {Par MSt RS Smp}.
Arguments n_samples_per_rank {Par MSt RS Smp}.
Arguments set_n_samples_per_rank {Par MSt RS Smp}.
Arguments chain_length {Par MSt RS Smp}.
Arguments set_chain_length {Par MSt RS Smp}.
Arguments set_discard {Par MSt RS Smp}.
Arguments msample {Par MSt RS Smp}.
Arguments msamples {Par MSt RS Smp}.
Arguments construct {Par MSt RS Smp}.
Arguments mc_step {Par MSt RS Smp}.
Arguments mc_run {Par MSt RS Smp}.
Arguments serialize {Par MSt RS Smp}.
Arguments deserialize {Par MSt RS Smp}.
Arguments keep {Par MSt RS Smp}.
Arguments MCState {Par MSt RS Smp}.
Arguments OPar {Par MSt RS}.
Arguments OMst {Par MSt RS}.
Arguments OVars {Par MSt RS}.
Arguments OSampler {Par MSt RS}.
Arguments ORs {Par MSt RS}.
Arguments ONSamples {Par MSt RS}.
Arguments OPerRank {Par MSt RS}.
Arguments OLen {Par MSt RS}.
Arguments ODiscard {Par MSt RS}.
Arguments OReset {Par MSt RS}.
Arguments OSample {Par MSt RS}.
Arguments OSamples {Par MSt RS}.
Arguments StateDict {Par MSt RS}.
Arguments d_vars {Par MSt RS}.
Arguments d_rs {Par MSt RS}.
Arguments d_n {Par MSt RS}.
Arguments d_disc {Par MSt RS}.
