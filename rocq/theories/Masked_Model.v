(** * Masked layers of autoregressive networks (netket/nn/masked_linear.py,
    netket/models/autoreg.py 64-192)

    One sample of a batch is modelled (the code treats the samples of a batch
    independently; a single input is a batch of one).  An input with axes (length,
    features) is the list of its rows; parameters are functions of their indices.
    Precision and dtype arguments are left out. *)
From Coq Require Import List Arith Bool.
From Verif Require Import Base Rings.
Import ListNotations.
Open Scope nat_scope.

Definition b2n (b : bool) : nat := if b then 1 else 0.

Section Layers.
  Variable C : cring.
  Notation "0" := (r0 C).
  Notation "1" := (r1 C).
  Infix "+" := (radd C).
  Infix "*" := (rmul C).

  Definition rows : Type := list (list (T C)).
  Definition cell (x : rows) (s c : nat) : T C := nth c (nth s x []) 0.
  (** inputs.shape[-1] *)
  Definition width {A} (x : list (list A)) : nat := length (hd [] x).

  (** y.reshape(n, m) *)
  Fixpoint reshape {A} (n m : nat) (l : list A) : list (list A) :=
    match n with O => [] | S n => firstn m l :: reshape n m (skipn m l) end.

  (** jnp.triu(jnp.ones(...), k) *)
  Definition triu (k i j : nat) : T C := if (i + k)%nat <=? j then 1 else 0.
  (** jnp.kron(m, jnp.ones((a, b))) *)
  Definition kron_ones (m : nat -> nat -> T C) (a b p q : nat) : T C := m (p / a) (q / b) * 1.

  (** masked_linear.py 62-110: MaskedDense1D. *)
  Definition masked_dense (exclusive : bool) (features : nat) (kernel : nat -> nat -> T C)
      (bias : option (nat -> nat -> T C)) (x : rows) : rows :=
    let size := length x in
    let cin := width x in
    let inputs := concat x in
    let mask := kron_ones (triu (b2n exclusive)) cin features in
    let y := map (fun q => fsum C (size * cin)%nat (fun p => nth p inputs 0 * (mask p q * kernel p q)))
               (seq O (size * features)%nat) in
    let y := reshape size features y in
    match bias with
    | None => y
    | Some b => map (fun s => map (fun f => cell y s f + b s f) (seq O features)) (seq O size)
    end.

  (** lax.conv_general_dilated with stride 1 and padding "VALID" on one spatial axis;
      the output channel [o] belongs to the group [o / (features / groups)]. *)
  Definition conv1d (y : rows) (cin ks dilation features groups : nat)
      (kernel : nat -> nat -> nat -> T C) : rows :=
    let len := (length y + 1 - ((ks - 1) * dilation + 1))%nat in
    map (fun i => map (fun o =>
        fsum C ks (fun k => fsum C (cin / groups) (fun c =>
          cell y (i + k * dilation) (o / (features / groups) * (cin / groups) + c) * kernel k c o)))
        (seq O features)) (seq O len).

  Definition add_bias1 (bias : option (nat -> T C)) (features : nat) (y : rows) : rows :=
    match bias with
    | None => y
    | Some b => map (fun r => map (fun f => nth f r 0 + b f) (seq O features)) y
    end.

  (** 144-214: MaskedConv1D.  Kernels of length zero, dilation zero and numbers of
      features that are no multiple of the number of groups are rejected by jax. *)
  Definition masked_conv1d (exclusive : bool) (features kernel_size dilation groups : nat)
      (kernel : nat -> nat -> nat -> T C) (bias : option (nat -> T C)) (x : rows) : res rows :=
    let ks := (kernel_size - b2n exclusive)%nat in
    let cin := width x in
    if groups =? 0 then Err ZeroDivisionError
    else if negb (cin mod groups =? 0) then Err AssertionError
    else if (ks =? 0) || (dilation =? 0) || negb (features mod groups =? 0) then Err ValueError
    else
      let inputs := if exclusive then firstn (length x - dilation) x else x in
      let y := repeat (repeat 0 cin) ((ks - b2n (negb exclusive)) * dilation) ++ inputs in
      Ok (add_bias1 bias features (conv1d y cin ks dilation features groups kernel)).

  (** Two spatial axes. *)
  Definition cell2 (x : list rows) (i j c : nat) : T C := cell (nth i x []) j c.
  Definition conv2d (y : list rows) (cin kh kw dh dw features groups : nat)
      (kernel : nat -> nat -> nat -> nat -> T C) : list rows :=
    let h := (length y + 1 - ((kh - 1) * dh + 1))%nat in
    let w := (width y + 1 - ((kw - 1) * dw + 1))%nat in
    map (fun i => map (fun j => map (fun o =>
        fsum C kh (fun a => fsum C kw (fun b => fsum C (cin / groups) (fun c =>
          cell2 y (i + a * dh) (j + b * dw) (o / (features / groups) * (cin / groups) + c)
          * kernel a b c o))))
        (seq O features)) (seq O w)) (seq O h).

  (** 240-245: the mask. *)
  Definition conv_mask (exclusive : bool) (kh kw a b : nat) : T C :=
    if (a =? kh - 1)%nat && (kw / 2 + b2n (negb exclusive) <=? b)%nat then 0 else 1.

  (** 217-328: MaskedConv2D. *)
  Definition masked_conv2d (exclusive : bool) (features kh kw dh dw groups : nat)
      (kernel : nat -> nat -> nat -> nat -> T C) (bias : option (nat -> T C)) (x : list rows) : res (list rows) :=
    let cin := width (hd [] x) in
    if groups =? 0 then Err ZeroDivisionError
    else if negb (cin mod groups =? 0) then Err AssertionError
    else if (kh =? 0) || (kw =? 0) || (dh =? 0) || (dw =? 0) || negb (features mod groups =? 0)
    then Err ValueError
    else
      let z := repeat 0 cin in
      let left := (kw / 2 * dw)%nat in
      let right := ((kw - 1) / 2 * dw)%nat in
      let padded := map (fun r => repeat z left ++ r ++ repeat z right) x in
      let y := repeat (repeat z (left + width x + right)) ((kh - 1) * dh) ++ padded in
      let masked a b c o := conv_mask exclusive kh kw a b * kernel a b c o in
      Ok (map (add_bias1 bias features) (conv2d y cin kh kw dh dw features groups masked)).

  (** The layers that ARNNDense (82-103) and ARNNConv1D (137-158) build; exclusive is
      (i == 0). *)
  Inductive layer :=
  | LDense (features : nat) (kernel : nat -> nat -> T C) (bias : option (nat -> nat -> T C))
  | LConv (features kernel_size dilation groups : nat) (kernel : nat -> nat -> nat -> T C)
          (bias : option (nat -> T C)).
  Definition apply_layer (exclusive : bool) (l : layer) (x : rows) : res rows :=
    match l with
    | LDense f k b => Ok (masked_dense exclusive f k b x)
    | LConv f ks d g k b => masked_conv1d exclusive f ks d g k b x
    end.

  Variable activation : T C -> T C.   (* acts on every element *)

  (** autoreg.py 184-192: the loop of _conditional_log_psi; [i] is the loop variable. *)
  Fixpoint forward (i : nat) (ls : list layer) (x : rows) : res rows :=
    match ls with
    | [] => Ok x
    | l :: ls =>
        let x := if O <? i then map (map activation) x else x in
        let? y := apply_layer (i =? O)%nat l x in
        forward (S i) ls y
    end.
  Definition network (ls : list layer) (inputs : list (T C)) : res rows :=
    forward O ls (map (fun v => [v]) inputs).
End Layers.

Arguments LDense {C}.
Arguments LConv {C}.
