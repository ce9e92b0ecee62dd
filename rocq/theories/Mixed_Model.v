(** * Monte Carlo mixed states (netket/vqs/mc_mixed_state.py, netket/vqs/base.py)

    A mixed state consists of a Monte Carlo state of the doubled space and one of the
    diagonal, both as in MCState_Model with the same oracles; the random keys are those of
    Keys_Model. *)
From Coq Require Import List ZArith Bool Reals.
From Verif Require Import Base MCState_Model Rings ARNN_Model ToArray_Model Estim_Model.
Import ListNotations.
Open Scope Z_scope.

Section Mixed.
  Variables Par MSt RS Smp : Type.
  Variable n_nodes : Z.
  Variable o_reset : sampler -> MSt * Par -> RS -> RS.
  Variable o_sample : sampler -> MSt * Par -> RS -> Z -> Smp * RS.
  Variable o_init : sampler -> MSt * Par -> RS.
  (** the field machine_pow of a sampler, and sampler.replace(machine_pow=..),
      sampler.replace(hilbert=hilbert_physical) *)
  Variable with_pow : sampler -> Z -> sampler.
  Variable physical : sampler -> sampler.

  Notation mc := (mcstate Par MSt RS Smp).
  Record mixed := Mixed { x_main : mc; x_diag : mc }.

  (** ** Construction, 58-166.  The keywords collected in kwargs that matter here. *)
  Record kwargs := Kwargs {
    k_n_samples : option Z; k_per_rank : option Z; k_discard : option Z;   (* the main state *)
    k_apply_fun : bool                                                     (* apply_fun= given *)
  }.
  Record diag_args := DiagArgs { a_sampler : option sampler; a_n : option Z; a_per_rank : option Z; a_discard : option Z;
                                 a_old_discard : option Z }.
  (** 106-166; [v] are the variables given or initialised.  kwargs is passed on to the
      diagonal with only n_samples, n_discard and n_discard_per_chain removed: a keyword
      given twice is a TypeError. *)
  Definition construct_mixed (sm : sampler) (v : MSt * Par) (k : kwargs) (a : diag_args) : res mixed :=
    let? main := construct n_nodes o_init sm v (k_n_samples k) (k_per_rank k) (k_discard k) in
    let sd := match a_sampler a with Some sd => sd | None => physical sm end in
    let sd := with_pow sd 1 in
    let? disc := match a_old_discard a, a_discard a with
                 | Some _, Some _ => Err ValueError
                 | Some d, None => Ok (Some d)
                 | None, d => Ok d
                 end in
    if match k_per_rank k with Some _ => true | None => k_apply_fun k end then Err TypeError
    else
      let? diag := construct n_nodes o_init sd (variables main) (a_n a) (a_per_rank a) disc in
      Ok (Mixed main diag).

  (** ** Attributes.  [XMain] are operations of MCState on the state itself; its reset is
      overridden (258-261), so whatever resets the state also resets the diagonal. *)
  Definition resets (op : mc_op Par MSt RS) (s : mc) : bool :=
    match op with
    | OPar _ | OMst _ | OVars _ | OSampler _ | OReset => true
    | ONSamples n => match set_n_samples n_nodes n s with Ok _ => true | Err _ => false end
    | OPerRank n => match set_n_samples_per_rank n_nodes n s with Ok _ => true | Err _ => false end
    | OLen n => match set_chain_length n_nodes n s with Ok _ => true | Err _ => false end
    | ORs _ | ODiscard _ | OSample _ _ _ | OSamples => false
    end.
  (** 246-256: assignments to parameters and model_state are handed on to the diagonal
      (variables assigns to both, base.py 105-110). *)
  Definition hand_on (op : mc_op Par MSt RS) (d : mc) : mc :=
    match op with
    | OPar p => set_parameters p d
    | OMst m => set_model_state m d
    | OVars v => set_parameters (snd v) (mreset (set_model_state (fst v) d))
    | _ => d
    end.
  Inductive mixed_op :=
  | XMain (op : mc_op Par MSt RS)
  (** sampler_diag 183-185, n_samples_diag 194-196, chain_length_diag 207-210,
      n_discard_per_chain_diag 219-221, and uses of the diagonal state *)
  | XSamplerDiag (sm : sampler) | XNDiag (n : Z) | XLenDiag (n : Z) | XDiscardDiag (d : option Z)
  | XDiagSample (cl n d : option Z) | XDiagSamples.
  Definition diag_op (op : mixed_op) : option (mc_op Par MSt RS) :=
    match op with
    | XMain _ => None
    | XSamplerDiag sm => Some (OSampler sm)
    | XNDiag n => Some (ONSamples n)
    | XLenDiag n => Some (OLen n)
    | XDiscardDiag d => Some (ODiscard d)
    | XDiagSample cl n d => Some (OSample cl n d)
    | XDiagSamples => Some OSamples
    end.
  Definition mixed_step (op : mixed_op) (x : mixed) : mixed :=
    match op with
    | XMain o =>
        let d := if resets o (x_main x) then mreset (x_diag x) else x_diag x in
        Mixed (mc_step n_nodes o_reset o_sample o_init o (x_main x)) (hand_on o d)
    | _ => match diag_op op with
           | Some o => Mixed (x_main x) (mc_step n_nodes o_reset o_sample o_init o (x_diag x))
           | None => x
           end
    end.
  Definition mixed_run (ops : list mixed_op) (x : mixed) : mixed := fold_left (fun x op => mixed_step op x) ops x.

  (** ** 322-353: serialisation *)
  Record mixed_dict := MixedDict { md_main : state_dict Par MSt RS; md_diag : state_dict Par MSt RS }.
  Definition serialize_mixed (x : mixed) : mixed_dict := MixedDict (serialize (x_main x)) (serialize (x_diag x)).
  (** The copy shares the diagonal with the state it is copied from, so that 336 resets the
      diagonal of both.  The first component is the state given as argument, afterwards. *)
  Definition deserialize_mixed (x : mixed) (d : mixed_dict) : res (mixed * mixed) :=
    let old_diag := mreset (x_diag x) in
    let x' := Mixed (x_main x) old_diag in
    let new_main := mreset (x_main x) in
    let? new_diag := deserialize n_nodes old_diag (md_diag d) in
    let new_main := set_variables (d_vars (md_main d)) new_main in
    let new_diag := hand_on (OVars (d_vars (md_main d))) (mreset new_diag) in
    let new_main := set_sampler_state (d_rs (md_main d)) new_main in
    let? new_main := set_n_samples n_nodes (d_n (md_main d)) new_main in
    let new_diag := mreset new_diag in
    let? new_main := set_discard (Some (d_disc (md_main d))) new_main in
    Ok (x', Mixed new_main new_diag).
End Mixed.

(** ** Expectation values, 263-283 and _local_cost_functions.py 208-213.
    [log_rho row column]; the samples are drawn from the diagonal. *)
Definition local_value_op_op (log_rho : nat -> nat -> cpx) (s : nat) (conn : list (nat * cpx)) : cpx :=
  lsum cC (map (fun c => rmul cC (snd c) (cexp (rsub cC (log_rho (fst c) s) (log_rho s s)))) conn).
Definition expect_operator (log_rho : nat -> nat -> cpx) (conn : nat -> list (nat * cpx)) (samples : list (R * nat)) : cpx :=
  wsum samples (fun s => local_value_op_op log_rho s (conn s)).
(** 46-48: the amplitude sampled on the diagonal *)
Definition diagonal_log (log_rho : nat -> nat -> cpx) (s : nat) : cpx := log_rho s s.

(** ** base.py 244-270 and mc_state.py 455, 489: which estimator is used for an operator.
    [same_hilbert] and [same_physical] are the results of the two comparisons. *)
Inductive answer := Superoperator | Operator | ReturnsNotImplemented.
Definition mixed_expect (same_hilbert same_physical : bool) : answer :=
  if same_hilbert then Superoperator else if same_physical then Operator else ReturnsNotImplemented.
Definition mixed_expect_and_grad (same_hilbert same_physical : bool) : answer :=
  if same_hilbert then Superoperator
  else if same_physical
  then (if same_hilbert then Superoperator else ReturnsNotImplemented)   (* MCState.expect_and_grad *)
  else ReturnsNotImplemented.

Arguments Mixed {Par MSt RS Smp}.
Arguments x_main {Par MSt RS Smp}.
Arguments x_diag {Par MSt RS Smp}.
Arguments construct_mixed {Par MSt RS Smp}.
Arguments resets {Par MSt RS Smp}.
Arguments hand_on {Par MSt RS Smp}.
Arguments mixed_step {Par MSt RS Smp}.
Arguments mixed_run {Par MSt RS Smp}.
Arguments serialize_mixed {Par MSt RS Smp}.
Arguments deserialize_mixed {Par MSt RS Smp}.
Arguments XMain {Par MSt RS}.
Arguments XSamplerDiag {Par MSt RS}.
Arguments XNDiag {Par MSt RS}.
Arguments XLenDiag {Par MSt RS}.
Arguments XDiscardDiag {Par MSt RS}.
Arguments XDiagSample {Par MSt RS}.
Arguments XDiagSamples {Par MSt RS}.
Arguments diag_op {Par MSt RS}.
Arguments md_main {Par MSt RS}.
Arguments md_diag {Par MSt RS}.
