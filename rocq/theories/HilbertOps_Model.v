(** * Model of operations on Hilbert spaces: equality, powers, products, partial trace,
    local flips and random states *)
From Coq Require Import ZArith QArith Qround List Bool Lia.
From Verif Require Import Base Hilbert_Model.
Import ListNotations.
Open Scope Z_scope.

(** ** Equality (netket/hilbert/abstract_hilbert.py:154-158 with the [_attrs] of
    fock.py:160-161, spin.py:156-157, qubit.py:73-74, homogeneous.py:186-193,
    tensor_hilbert.py:140-141, doubled_hilbert.py:136-137).
    Constraint closures are compared by identity, local states as frozensets. *)
Definition opt_id_eqb {A B} (a : option (A * nat)) (b : option (B * nat)) : bool :=
  match a, b with
  | None, None => true
  | Some (_, i), Some (_, j) => Nat.eqb i j
  | _, _ => false
  end.

Definition zmem (x : Z) (l : list Z) : bool := existsb (Z.eqb x) l.
Definition frozenset_eqb (a b : list Z) : bool :=
  forallb (fun x => zmem x b) a && forallb (fun x => zmem x a) b.

Fixpoint hilbert_eqb (h1 h2 : hilbert) : bool :=
  match h1, h2 with
  | Fock m1 _ N1 c1, Fock m2 _ N2 c2 => Nat.eqb N1 N2 && (m1 =? m2) && opt_id_eqb c1 c2
  | Spin s1 N1 c1, Spin s2 N2 c2 => Nat.eqb N1 N2 && Nat.eqb s1 s2 && opt_id_eqb c1 c2
  | Qubit N1, Qubit N2 => Nat.eqb N1 N2
  | Custom l1 N1 c1, Custom l2 N2 c2 =>
      Nat.eqb N1 N2 &&
      match l1, l2 with
      | Some a, Some b => Nat.eqb (length a) (length b) && frozenset_eqb a b
      | None, None => true
      | _, _ => false
      end && opt_id_eqb c1 c2
  | Tensor a, Tensor b =>
      (fix go (a b : list hilbert) : bool :=
         match a, b with
         | [], [] => true
         | x :: a', y :: b' => hilbert_eqb x y && go a' b'
         | _, _ => false
         end) a b
  | Doubled a, Doubled b => hilbert_eqb a b
  | _, _ => false
  end.

(** ** Powers: fock.py:112-118, spin.py:111-117, qubit.py:45-46, custom_hilbert.py:60-67.
    In Fock and Spin the constrained branch reads the local variable before assigning it.
    TensorHilbert and DoubledHilbert define no __pow__. *)
Definition hpow (h : hilbert) (n : nat) : res hilbert :=
  match h with
  | Fock m _ N None => mk_Fock (Some m) (N * n) None 0
  | Fock _ _ _ (Some _) => Err UnboundLocalError
  | Spin s2 N None => mk_Spin s2 (N * n) None 0
  | Spin _ _ (Some _) => Err UnboundLocalError
  | Qubit N => Ok (Qubit (N * n))
  | Custom ls N None => Ok (Custom ls (N * n) None)
  | Custom _ _ (Some _) => Err NotImplementedError
  | Tensor _ | Doubled _ => Err TypeError
  end.

(** _mul_sametype_: fock.py:120-126, spin.py:119-125, qubit.py:48-50; [None] is
    NotImplemented.  The other classes do not define the method. *)
Definition mul_sametype (h1 h2 : hilbert) : res (option hilbert) :=
  match h1, h2 with
  | Fock m1 _ N1 None, Fock m2 _ N2 None =>
      if m1 =? m2 then let? h := mk_Fock (Some m1) (N1 + N2) None 0 in Ok (Some h)
      else Ok None
  | Fock _ _ _ _, Fock _ _ _ _ => Ok None
  | Spin s1 N1 None, Spin s2 N2 None =>
      if Nat.eqb s1 s2 then let? h := mk_Spin s1 (N1 + N2) None 0 in Ok (Some h)
      else Ok None
  | Spin _ _ _, Spin _ _ _ => Ok None
  | Qubit N1, Qubit N2 => Ok (Some (Qubit (N1 + N2)))
  | Custom _ _ _, Custom _ _ _ => Err AttributeError
  | Doubled _, Doubled _ => Err AttributeError
  | _, _ => Ok None
  end.

Definition is_tensor (h : hilbert) : bool :=
  match h with Tensor _ => true | _ => false end.

(** TensorHilbert construction, tensor_hilbert.py:30-61: raises if the list is empty or
    if a factor is not indexable (lines 39, 48). *)
Definition mk_Tensor (l : list hilbert) : res hilbert :=
  match l with
  | [] => Err ValueError
  | _ => let? _ := sequence (map n_states l) in Ok (Tensor l)
  end.

(** h1 * h2: discrete_hilbert.py:210-221 and tensor_hilbert.py:143-163.
    [depth] is the remaining interpreter stack: the two methods call each other
    (TensorHilbert(self) * other evaluates self * other again), until the interpreter
    raises RecursionError (a RuntimeError), which line 160 catches. *)
Fixpoint hmul (depth : nat) (h1 h2 : hilbert) : res hilbert :=
  match depth with
  | O => Err RuntimeError
  | S d =>
      let tensor_mul (ls : list hilbert) :=
        let spaces_l := removelast ls in
        let center_l := last ls (Qubit 0) in
        let center_r := match h2 with Tensor (x :: _) => x | _ => h2 end in
        let spaces_r := match h2 with Tensor (_ :: r) => r | _ => [] end in
        let center :=
          match hmul d center_l center_r with
          | Ok c => if is_tensor c then [center_l; center_r] else [c]
          | Err _ => [center_l; center_r]
          end in
        mk_Tensor (spaces_l ++ center ++ spaces_r) in
      match h1 with
      | Tensor ls => tensor_mul ls
      | _ =>
          if hilbert_eqb h1 h2 then hpow h1 2
          else
            let? r := mul_sametype h1 h2 in
            match r with
            | Some h => Ok h
            | None => let? _ := mk_Tensor [h1] in tensor_mul [h1]
            end
      end
  end.

(** ** Partial trace.  [None] means that all sites were traced away.
    fock.py:128-148, spin.py:127-147, qubit.py:52-67, tensor_hilbert.py:165-204,
    abstract_hilbert.py:127-139 (other classes).
    With more listed sites than sites (duplicates) Python builds an object of negative
    size; here that outcome is reported as [Err Exception_].  [depth] is the interpreter
    stack available to the products. *)
Definition ptrace_check (N : nat) (sites : list Z) : bool :=
  forallb (fun s => (0 <=? s) && (s <? Z.of_nat N)) sites.

Definition ptrace_size (N : nat) (sites : list Z) (mk : nat -> res hilbert)
  : res (option hilbert) :=
  if Nat.eqb N (length sites) then Ok None
  else if Nat.ltb N (length sites) then Err Exception_
  else let? h := mk (N - length sites)%nat in Ok (Some h).

Fixpoint ptrace (depth : nat) (h : hilbert) (sites : list Z) : res (option hilbert) :=
  match h with
  | Fock m _ N np =>
      if negb (ptrace_check N sites) then Err ValueError
      else match np with
           | Some _ => Err TypeError
           | None => ptrace_size N sites (fun n => mk_Fock (Some m) n None 0)
           end
  | Spin s2 N tsz =>
      if negb (ptrace_check N sites) then Err ValueError
      else match tsz with
           | Some _ => Err TypeError
           | None => ptrace_size N sites (fun n => mk_Spin s2 n None 0)
           end
  | Qubit N =>
      if negb (ptrace_check N sites) then Err ValueError
      else ptrace_size N sites (fun n => Ok (Qubit n))
  | Tensor l =>
      let total := list_sum (map hsize l) in
      let sites := np_sort sites in
      if negb (ptrace_check total sites) then Err ValueError
      else if Nat.eqb total (length sites) then Ok None
      else
        let? kept :=
          (fix go (l : list hilbert) (sz : Z) : res (list hilbert) :=
             match l with
             | [] => Ok []
             | hilb :: l' =>
                 let n := Z.of_nat (hsize hilb) in
                 let here := map (fun s => s - sz)
                               (filter (fun s => (sz <=? s) && (s <? sz + n)) sites) in
                 let? this :=
                   match here with
                   | [] => Ok (Some hilb)
                   | _ => ptrace depth hilb here
                   end in
                 let? rest := go l' (sz + n) in
                 Ok (match this with Some x => x :: rest | None => rest end)
             end) l 0 in
        match kept with
        | [] => Ok None
        | h0 :: hs =>
            let? h := fold_left (fun acc x => let? a := acc in hmul depth a x) hs (Ok h0) in
            Ok (Some h)
        end
  | Custom _ _ _ | Doubled _ => Err NotImplementedError
  end.

(** ** Local flips (netket/hilbert/random)

    jax indexing: negative indices count from the end; reads out of range are clamped,
    writes out of range are dropped. *)
Definition jax_norm (len : nat) (i : Z) : Z := if i <? 0 then i + Z.of_nat len else i.

Definition jax_get (l : list Z) (i : Z) : Z :=
  let j := jax_norm (length l) i in
  nth (Z.to_nat (Z.max 0 (Z.min j (Z.of_nat (length l) - 1)))) l 0.

Definition jax_set (l : list Z) (i : Z) (v : Z) : list Z :=
  let j := jax_norm (length l) i in
  if (0 <=? j) && (j <? Z.of_nat (length l)) then upd l (Z.to_nat j) v else l.

(** The integer obtained from a uniform variate: floor(u * m), u in [0,1). *)
Definition draw (u : Q) (m : Z) : Z := Qfloor (u * inject_Z m).

Definition b2z (b : bool) : Z := if b then 1 else 0.

(** flip_state_scalar: the new configuration and the old value.  [k] is the random
    integer: floor(r*(n_states-1)) in random/fock.py:64-76 and random/spin.py:98-120, the
    randint of random/custom.py:39-46; random/qubit.py:28-30 draws nothing.
    random/tensor_hilbert.py:34-62 (lax.switch clamps its index);
    random/doubled.py:35-67. *)
Fixpoint flip_state (h : hilbert) (k : Z) (st : list Z) (idx : Z) : list Z * Z :=
  match h with
  | Fock m _ _ _ =>
      if m =? 0 then (st, jax_get st idx)
      else
        let old := jax_get st idx in
        (jax_set st idx (k + b2z (old <=? k)), old)
  | Spin s2 _ _ =>
      if Nat.eqb s2 1 then (jax_set st idx (- jax_get st idx), jax_get st idx)
      else
        let old := jax_get st idx in
        let new := k * 2 - Z.of_nat s2 in
        (jax_set st idx (new + 2 * b2z (old <=? new)), old)
  | Qubit _ => (jax_set st idx (- jax_get st idx + 1), jax_get st idx)
  | Custom (Some ls) _ _ =>
      let old := jax_get st idx in
      let new := jax_get ls (k + b2z (old <=? jax_get ls k)) in
      (jax_set st idx new, old)
  | Custom None _ _ => (st, jax_get st idx)
  | Tensor l =>
      (* the branch is selected by the index clamped to the sites *)
      let size := list_sum (map hsize l) in
      let sel := Z.to_nat (Z.max 0 (Z.min idx (Z.of_nat size - 1))) in
      (fix go (l : list hilbert) (pos : nat) : list Z * Z :=
         match l with
         | [] => (st, jax_get st idx)
         | hi :: l' =>
             let n := hsize hi in
             if Nat.ltb sel (pos + n) then
               let sub := firstn n (skipn pos st) in
               let r := flip_state hi k sub (idx - Z.of_nat pos) in
               (firstn pos st ++ fst r ++ skipn (pos + n) st, snd r)
             else go l' (pos + n)%nat
         end) l O
  | Doubled p =>
      match p with
      | Tensor _ | Doubled _ =>
          if idx <? Z.of_nat (hsize p) then flip_state p k st idx
          else flip_state p k st (idx - 2 * Z.of_nat (hsize p))
      | _ =>
          match constraint_fn p with
          | None => flip_state p k st idx
          | Some _ =>
              if idx <? Z.of_nat (hsize p) then flip_state p k st idx
              else flip_state p k st (idx - 2 * Z.of_nat (hsize p))
          end
      end
  end.

(** ** Random constrained states

    random/fock.py:44-61 and random/spin.py:78-95 run the same loop: pick one of the
    sites that are not full, add [step], drop the site from the list when it is full.
    [r i] is the i-th raw random number; rgen.integers(0, ss) is modelled by reducing it
    modulo ss, and raises ValueError when ss = 0. *)
Fixpoint fill_loop (step : Z) (full : Z -> bool) (n : nat) (r : nat -> nat)
  (sites : list nat) (out : list Z) : res (list Z) :=
  match n with
  | O => Ok out
  | S n' =>
      match sites with
      | [] => Err ValueError
      | _ =>
          let s := (r n' mod length sites)%nat in
          let j := nth s sites O in
          let out' := upd out j (nth j out 0 + step) in
          let sites' := if full (nth j out' 0)
                        then firstn s sites ++ skipn (S s) sites else sites in
          fill_loop step full n' r sites' out'
      end
  end.

(** random/fock.py:44-61 *)
Definition fock_random_constrained (n_max : Z) (N : nat) (n_particles : Z)
  (r : nat -> nat) : res (list Z) :=
  fill_loop 1 (fun x => x =? n_max) (Z.to_nat n_particles) r (seq 0 N) (repeat 0 N).

(** random/spin.py:78-95; [round(2*s - 1)] is [s2 - 1], [-round(2*s)] is [-s2] *)
Definition spin_random_constrained (s2 N : nat) (total_sz : Q) (r : nat -> nat)
  : res (list Z) :=
  fill_loop 2 (fun x => Z.of_nat s2 - 1 <? x)
    (Z.to_nat (py_round (inject_Z (Z.of_nat s2 * Z.of_nat N) / 2 + total_sz)))
    r (seq 0 N) (repeat (- Z.of_nat s2) N).

(** random/spin.py:39-61 (S = 1/2): the list that is then shuffled by
    jax.random.permutation. *)
Definition spin_half_unshuffled (N : nat) (total_sz : Q) : list Z :=
  let m := py_int (total_sz * 2) in
  let nup := (Z.of_nat N + m) / 2 in
  let ndown := (Z.of_nat N - m) / 2 in
  repeat 1 (Z.to_nat nup) ++ repeat (-1) (Z.to_nat ndown).

(** Unconstrained random states: one integer per site (random/fock.py:28-30,
    random/spin.py:29-34, random/qubit.py:23-25, random/custom.py:30-36); [ks] are the
    draws of jax.random.randint / choice. *)
Definition random_unconstrained (h : hilbert) (ks : list Z) : list Z :=
  match h with
  | Spin s2 _ _ => map (fun k => k * 2 - Z.of_nat s2) ks
  | Custom (Some ls) _ _ => map (fun k => nth (Z.to_nat k) ls 0) ks
  | _ => ks
  end.
