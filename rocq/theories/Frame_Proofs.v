(** * Proofs for C119 *)
From Coq Require Import String List Bool Arith ZArith Lia.
From Verif Require Import Base Frame_Model Frame_Spec.
Import ListNotations.
Open Scope nat_scope.

Lemma flax_kept hk m : maybe_wrap hk (MFlax m) = Ok (FFlax, WFlax m) /\
  (forall r xs, w_init (WFlax m) r xs = fl_init m r xs) /\
  (forall v r mu xs, w_apply (WFlax m) v r mu xs = fl_apply m v r mu xs).
Proof. repeat split. Qed.

Lemma stax_found hk i a : stax i a -> maybe_wrap hk (MTuple [i; a]) = Ok (FJax, WJax i a).
Proof.
  intros (H1 & H2 & H3 & H4). unfold maybe_wrap, identify. cbn. unfold is_jax. cbn.
  now rewrite H1, H2, H3, H4.
Qed.
Lemma stax_runs i a k others s d out p :
  e_call i [k; shape_tuple s] = Ok (VTuple [out; p]) ->
  w_init (WJax i a) (keys_with k others) [VArr s d] = Ok (variables_of p) /\
  forall rngs xs, w_apply (WJax i a) (variables_of p) rngs false xs = e_call a (p :: xs).
Proof. intros H. unfold shape_tuple in H. cbn. rewrite H. split; reflexivity. Qed.
Lemma stax_fails i a k others s d e :
  e_call i [k; shape_tuple s] = Err e ->
  w_init (WJax i a) (keys_with k others) [VArr s d] = Err e.
Proof. intros H. unfold shape_tuple in H. cbn. rewrite H. reflexivity. Qed.

Lemma haiku_found i a : transformed i a -> maybe_wrap true (MTransformed i a) = Ok (FHaiku, WHaiku i a).
Proof.
  intros [(n & H1 & H2) (k & H3)]. unfold maybe_wrap, identify. cbn. unfold is_jax. cbn.
  destruct (e_callable i && e_callable a); [|reflexivity]. rewrite H1, H3.
  apply Nat.eqb_neq in H2. rewrite H2. reflexivity.
Qed.
Lemma haiku_runs i a k others xs p :
  e_call i (k :: xs) = Ok p ->
  w_init (WHaiku i a) (keys_with k others) xs = Ok (variables_of p) /\
  forall rngs ys, w_apply (WHaiku i a) (variables_of p) rngs false ys = e_call a (p :: rngs :: ys).
Proof. intros H. cbn. rewrite H. split; reflexivity. Qed.

Lemma mutable_refused w v r xs :
  (exists i a, w = WJax i a) \/ (exists i a, w = WHaiku i a) -> w_apply w v r true xs = Err ValueError.
Proof. intros [(i & a & ->)|(i & a & ->)]; reflexivity. Qed.

Lemma no_variables w v r xs :
  (exists i a, w = WJax i a) \/ (exists i a, w = WHaiku i a) ->
  (forall l, v = VDict l -> ~ In "params"%string (map fst l)) -> raises (w_apply w v r false xs).
Proof.
  intros Hw Hv. assert (raises (getitem v "params")) as (e & E).
  { destruct v as [|z|s d|l|l]; try (now exists TypeError). cbn. unfold find_key.
    destruct (find _ l) as [[q x]|] eqn:F; [|now exists KeyError].
    exfalso. apply find_some in F as [Hi F]. apply String.eqb_eq in F. cbn in F. subst q.
    apply (Hv l eq_refl). apply in_map_iff. exists ("params"%string, x). auto. }
  exists e. destruct Hw as [(i & a & ->)|(i & a & ->)]; unfold w_apply; rewrite E; reflexivity.
Qed.

Lemma params_back f v : f <> FUnknown -> unwrap_params f (wrap_params f v) = Ok v.
Proof. destruct f; intros H; try reflexivity. congruence. Qed.

Lemma other_jax m : other_package m -> is_jax m = Ok false.
Proof.
  destruct m as [m|l|i a|m]; try contradiction; [|reflexivity]. intros H. cbn in H. unfold is_jax. cbn.
  destruct l as [|x [|y [|z l]]]; try reflexivity. cbn in H. lia.
Qed.
Lemma other_kept m : other_package m -> exists w, maybe_wrap true m = Ok (FUnknown, w) /\
  match m with MOther n => w = WOther n | _ => True end.
Proof.
  intros H. unfold maybe_wrap, identify. cbn [identify_in registered is_mine]. rewrite (other_jax m H).
  destruct m as [m|l|i a|m]; try contradiction; cbn; eauto.
Qed.
Lemma other_import m : other_package m -> maybe_wrap false m = Err Exception_.
Proof.
  intros H. unfold maybe_wrap, identify. cbn [identify_in registered is_mine]. rewrite (other_jax m H).
  destruct m as [m|l|i a|m]; try contradiction; reflexivity.
Qed.
