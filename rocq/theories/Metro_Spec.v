(** * What a Metropolis run is, without caches and counters

    The reference run below keeps, for every chain, only the configuration and the
    list of outcomes of the moves attempted since the last reset.  Each outcome is
    recomputed from the definition of the acceptance test at the current parameters. *)
From Coq Require Import List ZArith Bool Lia.
From Verif Require Import Base Metro_Model.
Import ListNotations.
Open Scope nat_scope.

Section Spec.
  Context {Cfg Par R Key RS : Type}.
  Variable M : metro Cfg Par R Key RS.

  (** The functions the sampler is used with return arrays of the right size. *)
  Record shapes_ok : Prop := {
    sh_random : forall p rs k, length (m_random M p rs k) = m_chains M;
    sh_trans : forall p rs k x, length x = m_chains M ->
        length (fst (m_trans M p rs k x)) = m_chains M;
    sh_corr : forall p rs k x c, length x = m_chains M ->
        snd (m_trans M p rs k x) = Some c -> length c = m_chains M;
    sh_unif : forall k n, length (m_unif M k n) = n }.

  (** The rule draws and proposes configurations of the Hilbert space [inH]. *)
  Record rule_valid (inH : Cfg -> Prop) : Prop := {
    rv_random : forall p rs k, Forall inH (m_random M p rs k);
    rv_trans : forall p rs k x, Forall inH x -> Forall inH (fst (m_trans M p rs k x)) }.

  (** Is the move proposed to chain [i] accepted? *)
  Definition moved (p : Par) (rs : RS) (key : Key) (x : list Cfg) (i : nat) : bool :=
    let '(_, key1, key2) := m_split3 M key in
    let '(y, corr) := m_trans M p rs key1 x in
    match nth_error (m_unif M key2 (m_chains M)) i, nth_error y i, nth_error x i with
    | Some u, Some yi, Some xi =>
        m_accept M u (m_logp M p yi) (m_logp M p xi)
                 (match corr with None => None | Some c => nth_error c i end)
    | _, _, _ => false
    end.

  (** The configuration of chain [i] after the move. *)
  Definition after (p : Par) (rs : RS) (key : Key) (x : list Cfg) (i : nat) : Cfg :=
    let '(_, key1, _) := m_split3 M key in
    if moved p rs key x i then nth i (fst (m_trans M p rs key1 x)) (m_zero M)
    else nth i x (m_zero M).

  (** One move of every chain, [n] times: the outcomes and the final batch. *)
  Fixpoint moves (p : Par) (rs : RS) (n : nat) (key : Key) (x : list Cfg)
    : list bool * list Cfg :=
    match n with
    | O => ([], x)
    | S n =>
        let '(key', _, _) := m_split3 M key in
        let r := moves p rs n key' (map (after p rs key x) (seq 0 (m_chains M))) in
        (map (moved p rs key x) (seq 0 (m_chains M)) ++ fst r, snd r)
    end.

  (** The reference state of one rank: batch, key, rule state, and the outcomes of
      all the moves attempted since the last reset. *)
  Definition ref : Type := (list Cfg * Key * RS * list bool)%type.

  Definition ref_next (p : Par) (s : ref) : ref :=
    let '(x, key, rs, log) := s in
    let r := moves p rs (m_sweeps M) (snd (m_split2 M key)) x in
    (snd r, fst (m_split2 M key), rs, log ++ fst r).

  Fixpoint ref_chain (p : Par) (n : nat) (s : ref) : ref :=
    match n with O => s | S n => ref_chain p n (ref_next p s) end.

  Definition ref_op (s : ref) (o : mop) : ref :=
    match o with
    | Reset p =>
        let '(x, key, rs, log) := s in
        (if m_reset_chains M then m_random M p rs (snd (m_split2 M key)) else x,
         fst (m_split2 M key), m_rreset M p rs, [])
    | Next p => ref_next p s
    | Chain p n => ref_chain p n s
    end.

  Definition ref_init (p : Par) (key : Key) : ref :=
    let ks := fst (m_split2 M key) in
    let rs := m_rinit M p (snd (m_split2 M key)) in
    if m_reset_chains M then (repeat (m_zero M) (m_chains M), ks, rs, [])
    else (m_random M p rs (snd (m_split2 M ks)), fst (m_split2 M ks), rs, []).

  (** The reference run of one rank. *)
  Definition ref_run (p : Par) (key : Key) (os : list mop) : ref :=
    fold_left ref_op os (ref_init p key).
  Definition run_batch (s : ref) : list Cfg := fst (fst (fst s)).
  Definition run_log (s : ref) : list bool := snd s.

  (** The run starts from drawn configurations: either the chains are initialised
      at creation, or the first thing done is a reset (what the documentation of
      [init_state] asks for). *)
  Definition started (os : list (@mop Par)) : Prop :=
    m_reset_chains M = false \/ exists p os', os = Reset p :: os'.

  (** Total over the ranks. *)
  Definition total {A} (f : A -> nat) (l : list A) : nat := fold_right (fun a n => f a + n) 0 l.
End Spec.
