(** * Proofs: first axis, initial kernels, examples *)
From Coq Require Import ZArith List Bool Lia.
From Verif Require Import Base Dense_Model Dense_Spec Dense_Proofs Dense_Layer.
Import ListNotations.
Open Scope nat_scope.

Section Sums.
Context {A : Type} (zero : A) (add mul : A -> A -> A).
Hypothesis add_assoc : forall a b c, add a (add b c) = add (add a b) c.
Hypothesis add_0_l : forall a, add zero a = a.
Hypothesis add_0_r : forall a, add a zero = a.

Lemma first_axis_dot (x kernel : tensor A) n0 n1 m : shape x = [n0; n1] -> shape kernel = [n0; m] ->
  exists y, dot_general zero add mul x kernel [0] [0] [] [] = Ok y /\ shape y = [n1; m] /\
    forall j f, at_ y [j; f] = nested_sum zero add [n0] (fun i => mul (at_ x (i ++ [j])) (at_ kernel (i ++ [f]))).
Proof.
  intros Hx Hk. unfold dot_general, dims. rewrite Hx, Hk. cbn. rewrite Nat.eqb_refl. cbn.
  eexists. split; [reflexivity|]. split; [reflexivity|]. intros j f. cbn [at_].
  clear add_assoc add_0_l add_0_r. unfold total. cbn. generalize (seq 0 n0). intros l. induction l as [|i l IH]; [reflexivity|]. cbn. f_equal. exact IH.
Qed.

Definition first_axis (m : nat) (kernel : tensor A) (bias : option (tensor A)) (x : tensor A) : res (tensor A) :=
  dense_general zero add mul [m] [0%Z] [] kernel bias x.

Lemma first_axis_unfold m kernel bias x n0 n1 : shape x = [n0; n1] -> shape kernel = [n0; m] -> (forall t, bias = Some t -> shape t = [m]) ->
  first_axis m kernel bias x =
  let? out := dot_general zero add mul x kernel [0] [0] [] [] in
  match bias with
  | None => Ok out
  | Some t => add_t add out (mkT [m; 1] (fun i => at_ t (firstn 1 i ++ skipn 2 i)))
  end.
Proof.
  intros Hx Hk Hb. unfold first_axis, dense_general. cbn [batch_check negb]. rewrite Hx. cbn [length].
  change (as_dims (normalize_axes [0%Z] 2) 2) with (Ok [0]). change (as_dims (normalize_axes [] 2) 2) with (@Ok (list nat) []). cbn [bind].
  cbn [length seq]. unfold dims. rewrite Hx. cbn [map nth app]. rewrite Hk, list_eqb_refl. cbn [negb].
  destruct (dot_general zero add mul x kernel [0] [0] [] []) as [out|e]; cbn [bind]; [|reflexivity].
  destruct bias as [t|]; [|reflexivity]. rewrite (Hb t eq_refl), list_eqb_refl. cbn [negb]. change (free 2 [0]) with [1].
  cbn [expand_all]. unfold expand. rewrite (Hb t eq_refl). cbn [length Nat.leb firstn skipn app bind]. reflexivity.
Qed.

(** without a bias the first axis is contracted as documented *)
Lemma first_axis_nobias_thm x kernel n0 n1 m : shape x = [n0; n1] -> shape kernel = [n0; m] ->
  exists y, dense_general zero add mul [m] [0%Z] [] kernel None x = Ok y /\ shape y = [n1; m] /\
    forall j f, at_ y [j; f] = nested_sum zero add [n0] (fun i => mul (at_ x (i ++ [j])) (at_ kernel (i ++ [f]))).
Proof.
  intros Hx Hk. destruct (first_axis_dot x kernel n0 n1 m Hx Hk) as (y & Y1 & Y2 & Y3).
  exists y. change (first_axis m kernel None x = Ok y /\ shape y = [n1; m] /\ forall j f, at_ y [j; f] = nested_sum zero add [n0] (fun i => mul (at_ x (i ++ [j])) (at_ kernel (i ++ [f])))).
  rewrite (first_axis_unfold m kernel None x n0 n1 Hx Hk) by discriminate. rewrite Y1. auto.
Qed.

(** with a bias its components go along the wrong dimension *)
Lemma first_axis_bias_thm x kernel bias n0 m : shape x = [n0; m] -> shape kernel = [n0; m] -> shape bias = [m] ->
  exists y, dense_general zero add mul [m] [0%Z] [] kernel (Some bias) x = Ok y /\ shape y = [m; m] /\
    forall j f, j < m -> f < m ->
      at_ y [j; f] = add (nested_sum zero add [n0] (fun i => mul (at_ x (i ++ [j])) (at_ kernel (i ++ [f])))) (at_ bias [j]).
Proof.
  intros Hx Hk Hb. destruct (first_axis_dot x kernel n0 m m Hx Hk) as (y & Y1 & Y2 & Y3).
  change (dense_general zero add mul [m] [0%Z] [] kernel (Some bias) x) with (first_axis m kernel (Some bias) x).
  rewrite (first_axis_unfold m kernel (Some bias) x n0 m Hx Hk) by (intros t E; injection E as <-; exact Hb). rewrite Y1. cbn [bind].
  unfold add_t. rewrite Y2. cbn [shape rev app]. rewrite (bshape_left [m; m] [1; m]).
  - cbn [bind]. eexists. split; [reflexivity|]. split; [reflexivity|]. intros j f Hj Hf. cbn [at_].
    rewrite bat_full by (rewrite Y2; constructor; [exact Hj|constructor; [exact Hf|constructor]]). rewrite Y3. f_equal.
    unfold bat. cbn [shape length Nat.sub skipn fit at_ firstn app]. destruct (Nat.eqb_spec m 1) as [->|]; [|reflexivity].
    replace j with 0 by lia. reflexivity.
  - constructor; [auto|]. constructor; [auto|constructor].
Qed.
Lemma first_axis_raises_thm x kernel bias n0 n1 m : shape x = [n0; n1] -> shape kernel = [n0; m] -> shape bias = [m] ->
  m <> n1 -> m <> 1 -> n1 <> 1 -> dense_general zero add mul [m] [0%Z] [] kernel (Some bias) x = Err TypeError.
Proof.
  intros Hx Hk Hb H1 H2 H3. destruct (first_axis_dot x kernel n0 n1 m Hx Hk) as (y & Y1 & Y2 & Y3).
  change (dense_general zero add mul [m] [0%Z] [] kernel (Some bias) x) with (first_axis m kernel (Some bias) x).
  rewrite (first_axis_unfold m kernel (Some bias) x n0 n1 Hx Hk) by (intros t E; injection E as <-; exact Hb). rewrite Y1. cbn [bind].
  unfold add_t. rewrite Y2. cbn [shape rev app bshape bind].
  destruct (Nat.eqb_spec n1 m); [congruence|]. destruct (Nat.eqb_spec n1 1); [congruence|]. destruct (Nat.eqb_spec m 1); [congruence|]. reflexivity.
Qed.

Lemma batch_dims_thm x kernel bias features axis batch : batch <> [] -> ~ (forall d, In d batch <-> exists k, (0 <= k <= fold_right Z.max (nth 0 batch 0%Z) batch)%Z /\ d = k) ->
  dense_general zero add mul features axis batch kernel bias x = Err ValueError.
Proof.
  intros Hne H. unfold dense_general. destruct (batch_check batch) eqn:E; [|reflexivity]. exfalso. apply H. clear H.
  destruct batch as [|b0 batch]; [congruence|]. unfold batch_check in E. set (l := b0 :: batch) in *. set (m := fold_right Z.max (nth 0 l 0%Z) l) in *.
  apply andb_true_iff in E. destruct E as [E1 E2]. rewrite forallb_forall in E1, E2. intros d. split.
  - intros Hd. specialize (E1 d Hd). apply existsb_exists in E1. destruct E1 as (z & Hz & Ez). apply Z.eqb_eq in Ez. subst z.
    apply in_map_iff in Hz. destruct Hz as (k & <- & Hk). apply in_seq in Hk. exists (Z.of_nat k). split; [lia|reflexivity].
  - intros (k & Hk & ->). assert (Hk' : In k (map Z.of_nat (seq 0 (Z.to_nat (m + 1))))).
    { apply in_map_iff. exists (Z.to_nat k). split; [lia|apply in_seq; lia]. }
    specialize (E2 k Hk'). apply existsb_exists in E2. destruct E2 as (z & Hz & Ez). apply Z.eqb_eq in Ez. subst z. exact Hz.
Qed.
End Sums.

(** ** Initial kernels *)
Lemma repeat_blocks {A} (u : list A) d : forall n i j, i < n -> j < length u -> nth (i * length u + j) (concat (repeat u n)) d = nth j u d.
Proof.
  induction n as [|n IH]; intros i j Hi Hj; [lia|]. cbn [repeat concat]. destruct i as [|i].
  - cbn. apply app_nth1, Hj.
  - rewrite app_nth2 by (cbn; lia). replace (S i * length u + j - length u) with (i * length u + j) by (cbn; lia). apply IH; lia.
Qed.
Lemma init_thm {A} (init : nat * nat -> list A) batch axes features d :
  let size := fold_right Nat.mul 1 in
  let block := size axes * size features in
  length (init (size axes, size features)) = block ->
  length (kernel_init init batch axes features) = size batch * block /\
  forall i i' j, i < size batch -> i' < size batch -> j < block ->
    nth (i * block + j) (kernel_init init batch axes features) d = nth (i' * block + j) (kernel_init init batch axes features) d.
Proof.
  intros size block Hl. unfold kernel_init. fold size. split.
  - rewrite <- Hl. generalize (init (size axes, size features)). intros u. generalize (size batch). intros n. induction n as [|n IH]; [reflexivity|].
    cbn [repeat concat]. rewrite app_length, IH. cbn. lia.
  - intros i i' j Hi Hi' Hj. rewrite <- Hl in *. rewrite !repeat_blocks by assumption. reflexivity.
Qed.

Lemma example_dense_general :
  let x := mkT [2; 3; 2; 2] (fun i => match i with [a; b; c; d] => Z.of_nat (a + 2 * b + c * d) | _ => 0%Z end) in
  let k := mkT [2; 2; 2; 3] (fun i => match i with [a; c; d; f] => Z.of_nat (a + c + d + f) | _ => 0%Z end) in
  let t := mkT [2; 3] (fun i => match i with [a; f] => Z.of_nat (10 * a + f) | _ => 0%Z end) in
  (let? y := dense_general 0%Z Z.add Z.mul [3] [-2; -1]%Z [0%Z] k (Some t) x in Ok (shape y, at_ y [1; 2; 0])) = Ok ([2; 3; 3], 53%Z).
Proof. vm_compute. reflexivity. Qed.
Lemma example_axis :
  let x := mkT [1; 2] (fun _ => 0%Z) in
  let k := mkT [1; 2] (fun _ => 0%Z) in
  let t := mkT [2] (fun i => match i with [f] => Z.of_nat f | _ => 7%Z end) in
  (let? y := dense_general 0%Z Z.add Z.mul [2] [0%Z] [] k (Some t) x in Ok (at_ y [0; 1], at_ y [1; 0])) = Ok (0%Z, 1%Z).
Proof. vm_compute. reflexivity. Qed.
