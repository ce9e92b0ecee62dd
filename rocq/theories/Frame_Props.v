(** * Property C119: models from other packages are used like flax modules *)
From Coq Require Import String List Bool Arith ZArith.
From Verif Require Import Base Frame_Model Frame_Spec Frame_Proofs.
Import ListNotations.
Open Scope nat_scope.

(** scale times the sum of the inputs: init gives the scale 3 *)
Definition total_of (l : list Z) : Z := fold_right Z.add 0%Z l.
Definition st_init : elem := mkElem true (Some 2) (fun l =>
  match l with [VNum k; VTuple s] => Ok (VTuple [VTuple s; VNum (k + 3)]) | _ => Err TypeError end).
Definition st_apply : elem := mkElem true (Some 2) (fun l =>
  match l with [VNum p; VArr _ d] => Ok (VNum (p * total_of d)) | _ => Err TypeError end).
Definition hk_init : elem := mkElem true (Some 1) (fun l =>
  match l with [VNum k; VArr _ _] => Ok (VNum (k + 3)) | _ => Err TypeError end).
Definition hk_apply : elem := mkElem true (Some 2) (fun l =>
  match l with [VNum p; _; VArr _ d] => Ok (VNum (p * total_of d)) | _ => Err TypeError end).
(** the same after hk.without_apply_rng *)
Definition hk_apply1 : elem := mkElem true (Some 1) (fun l =>
  match l with [VNum p; VArr _ d] => Ok (VNum (p * total_of d)) | _ => Err TypeError end).
Definition x0 : val := VArr [2] [1; 4]%Z.
Definition ks : val := keys_with (VNum 0) [("dropout"%string, VNum 9)].

(** ** Flax modules are used as they are *)
Theorem C119_flax :
  forall hk m, maybe_wrap hk (MFlax m) = Ok (FFlax, WFlax m) /\
  (forall r xs, w_init (WFlax m) r xs = fl_init m r xs) /\
  (forall v r mu xs, w_apply (WFlax m) v r mu xs = fl_apply m v r mu xs).
Proof. exact Frame_Proofs.flax_kept. Qed.
Print Assumptions C119_flax.

(** ** Pairs of stax: found whether or not haiku is installed; init makes the variables
    from the key "params" and the shape of the sample, apply evaluates with them *)
Theorem C119_stax :
  forall hk i a, stax i a -> maybe_wrap hk (MTuple [i; a]) = Ok (FJax, WJax i a).
Proof. exact Frame_Proofs.stax_found. Qed.
Print Assumptions C119_stax.
Theorem C119_stax_runs :
  forall i a k others s d out p,
  e_call i [k; shape_tuple s] = Ok (VTuple [out; p]) ->
  w_init (WJax i a) (keys_with k others) [VArr s d] = Ok (variables_of p) /\
  forall rngs xs, w_apply (WJax i a) (variables_of p) rngs false xs = e_call a (p :: xs).
Proof. exact Frame_Proofs.stax_runs. Qed.
Print Assumptions C119_stax_runs.
Theorem C119_stax_fails :
  forall i a k others s d e,
  e_call i [k; shape_tuple s] = Err e ->
  w_init (WJax i a) (keys_with k others) [VArr s d] = Err e.
Proof. exact Frame_Proofs.stax_fails. Qed.
Print Assumptions C119_stax_fails.
Example C119_stax_ex :
  stax st_init st_apply /\
  e_call st_init [VNum 0; shape_tuple [2]] = Ok (VTuple [shape_tuple [2]; VNum 3]) /\
  w_init (WJax st_init st_apply) ks [x0] = Ok (variables_of (VNum 3)) /\
  w_apply (WJax st_init st_apply) (variables_of (VNum 3)) VNone false [x0] = Ok (VNum 15) /\
  w_init (WJax hk_apply st_apply) ks [x0] = Err TypeError.
Proof. repeat split. Qed.

(** ** Transformed functions of haiku *)
Theorem C119_haiku :
  forall i a, transformed i a -> maybe_wrap true (MTransformed i a) = Ok (FHaiku, WHaiku i a).
Proof. exact Frame_Proofs.haiku_found. Qed.
Print Assumptions C119_haiku.
Theorem C119_haiku_runs :
  forall i a k others xs p,
  e_call i (k :: xs) = Ok p ->
  w_init (WHaiku i a) (keys_with k others) xs = Ok (variables_of p) /\
  forall rngs ys, w_apply (WHaiku i a) (variables_of p) rngs false ys = e_call a (p :: rngs :: ys).
Proof. exact Frame_Proofs.haiku_runs. Qed.
Print Assumptions C119_haiku_runs.
Example C119_haiku_ex :
  transformed hk_init hk_apply /\
  w_init (WHaiku hk_init hk_apply) ks [x0] = Ok (variables_of (VNum 3)) /\
  w_apply (WHaiku hk_init hk_apply) (variables_of (VNum 3)) VNone false [x0] = Ok (VNum 15).
Proof.
  split; [|split; reflexivity].
  split; [exists 1; split; [reflexivity|discriminate]|exists 2; reflexivity].
Qed.
(** without_apply_rng: the missing generator is passed in front of the sample all the same *)
Theorem C119_without_rng_refuted :
  exists i a p x y, transformed i a /\ e_call a [p; x] = Ok y /\
    maybe_wrap true (MTransformed i a) = Ok (FHaiku, WHaiku i a) /\
    w_apply (WHaiku i a) (variables_of p) VNone false [x] = Err TypeError.
Proof.
  exists hk_init, hk_apply1, (VNum 3), x0, (VNum 15). split; [|repeat split].
  split; [exists 1; split; [reflexivity|discriminate]|exists 1; reflexivity].
Qed.
Print Assumptions C119_without_rng_refuted.
(** functions with two named arguments each make a Transformed pass for a pair of stax: the
    initialiser gets the shape in place of the sample *)
Theorem C119_transformed_refuted :
  exists i a k x p, e_call i [k; x] = Ok p /\
    maybe_wrap true (MTransformed i a) = Ok (FJax, WJax i a) /\
    raises (w_init (WJax i a) (keys_with k []) [x]).
Proof.
  exists (mkElem true (Some 2) (e_call hk_init)), (mkElem true (Some 2) (e_call hk_apply1)).
  exists (VNum 0), x0, (VNum 3). repeat split. now exists TypeError.
Qed.
Print Assumptions C119_transformed_refuted.

(** ** Mutable collections and variables without parameters are refused *)
Theorem C119_mutable :
  forall w v r xs,
  (exists i a, w = WJax i a) \/ (exists i a, w = WHaiku i a) -> w_apply w v r true xs = Err ValueError.
Proof. exact Frame_Proofs.mutable_refused. Qed.
Print Assumptions C119_mutable.
Theorem C119_no_parameters :
  forall w v r xs,
  (exists i a, w = WJax i a) \/ (exists i a, w = WHaiku i a) ->
  (forall l, v = VDict l -> ~ In "params"%string (map fst l)) -> raises (w_apply w v r false xs).
Proof. exact Frame_Proofs.no_variables. Qed.
Print Assumptions C119_no_parameters.
Example C119_no_parameters_ex :
  (forall l, VDict [("state"%string, VNum 1)] = VDict l -> ~ In "params"%string (map fst l)) /\
  w_apply (WJax st_init st_apply) (VDict [("state"%string, VNum 1)]) VNone false [x0] = Err KeyError.
Proof. split; [|reflexivity]. intros l E. injection E as <-. intros [H|[]]. discriminate H. Qed.

(** ** Parameters survive wrapping and unwrapping *)
Theorem C119_params_partial :
  forall f v, f <> FUnknown -> unwrap_params f (wrap_params f v) = Ok v.
Proof. exact Frame_Proofs.params_back. Qed.
Print Assumptions C119_params_partial.
Example C119_params_ex : FHaiku <> FUnknown /\ unwrap_params FHaiku (wrap_params FHaiku (VNum 4)) = Ok (VNum 4).
Proof. split; [discriminate|reflexivity]. Qed.
Theorem C119_params_refuted : exists f v, unwrap_params f (wrap_params f v) <> Ok v.
Proof. exists FUnknown, (VNum 4). discriminate. Qed.
Print Assumptions C119_params_refuted.

(** ** Models of other packages are left alone when haiku is installed *)
Theorem C119_other_partial :
  forall m, other_package m -> exists w, maybe_wrap true m = Ok (FUnknown, w) /\
  match m with MOther n => w = WOther n | _ => True end.
Proof. exact Frame_Proofs.other_kept. Qed.
Print Assumptions C119_other_partial.
(** and always refused when it is not *)
Theorem C119_other_refuted :
  (forall m, other_package m -> maybe_wrap false m = Err Exception_) /\ exists m, other_package m.
Proof.
  exact (conj Frame_Proofs.other_import
          (ex_intro _ (MOther (mkLinen (fun _ _ => Ok VNone) (fun _ _ _ _ => Ok VNone))) I)).
Qed.
Print Assumptions C119_other_refuted.
Example C119_other_ex :
  other_package (MTuple [st_init]) /\ maybe_wrap true (MTuple [st_init]) = Ok (FUnknown, WTuple [st_init]).
Proof. split; [discriminate|reflexivity]. Qed.
