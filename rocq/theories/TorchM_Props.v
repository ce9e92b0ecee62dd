(** * Property C121: machines made from torch modules *)
From Coq Require Import String List Bool Arith Lia Reals Lra.
From Verif Require Import Base TorchM_Model TorchM_Spec TorchM_Proofs.
Import ListNotations.
Open Scope nat_scope.

(** a module with a weight, a frozen scale and a bias *)
Definition w_ex : tmodule :=
  [mkParam "weight" true [1; 2]%R; mkParam "scale" false [5]%R; mkParam "bias" true [3]%R].

(** ** The parameters that are read: as many as the machine says *)
Theorem C121_number : forall m, t_npar (new m) = length (parameters (new m)).
Proof. exact TorchM_Proofs.made. Qed.
Print Assumptions C121_number.

(** ** Writing a vector of that length and reading gives the real parts back; the layout and
    the parameters that are not trained stay *)
Theorem C121_set_get :
  forall t v, t_npar t = length (parameters t) -> length v = t_npar t ->
  exists t', set_parameters t v = Ok t' /\ parameters t' = map (fun z => (fst z, 0%R)) v /\
    same_layout (t_module t) (t_module t') /\ untrained_kept (t_module t) (t_module t') /\
    t_npar t' = t_npar t /\ t_npar t' = length (parameters t').
Proof. exact TorchM_Proofs.set_get'. Qed.
Print Assumptions C121_set_get.

(** ** Writing back what was read changes nothing *)
Theorem C121_get_set :
  forall t, t_npar t = length (parameters t) -> set_parameters t (parameters t) = Ok t.
Proof. exact TorchM_Proofs.get_set'. Qed.
Print Assumptions C121_get_set.

(** ** A vector of another length is refused *)
Theorem C121_set_wrong :
  forall t v, length v <> t_npar t -> set_parameters t v = Err ValueError.
Proof. exact TorchM_Proofs.set_wrong. Qed.
Print Assumptions C121_set_wrong.

(** ** Loading what another machine of the same layout saved gives that machine, with the
    parameters that are not trained *)
Theorem C121_load :
  forall t u, same_layout (t_module t) (t_module u) -> NoDup (map p_name (t_module u)) ->
  t_npar t = t_npar u -> load t (state_dict u) = Ok u.
Proof. exact TorchM_Proofs.load_ok. Qed.
Print Assumptions C121_load.
Theorem C121_load_missing :
  forall t d p, In p (t_module t) -> ~ In (p_name p) (map fst d) -> load t d = Err RuntimeError.
Proof. exact TorchM_Proofs.missing_name. Qed.
Print Assumptions C121_load_missing.

Example C121_parameters_ex :
  parameters (new w_ex) = [(1, 0); (2, 0); (3, 0)]%R /\
  set_parameters (new w_ex) [(7, 1); (8, 0); (9, 0)]%R =
    Ok (mkMachine [mkParam "weight" true [7; 8]%R; mkParam "scale" false [5]%R; mkParam "bias" true [9]%R] 3) /\
  NoDup (map p_name w_ex) /\ load (new w_ex) [("weight"%string, [1; 2]%R)] = Err RuntimeError.
Proof.
  repeat split. repeat constructor; cbn; intuition discriminate.
Qed.

(** ** der_log has the derivative of the outputs in each entry, with BackPACK as without *)
Theorem C121_der_log :
  forall dre dim ns np n k, n < ns -> k < np ->
  nth_error (der_log dre dim ns np) n = Some (map (fun k => (dre n k, dim n k)) (seq 0 np)) /\
  entry (der_log dre dim ns np) n k = (dre n k, dim n k).
Proof. exact TorchM_Proofs.der_entries. Qed.
Print Assumptions C121_der_log.
Theorem C121_backpack :
  forall dre dim ns np, der_log_backpack dre dim ns np = der_log dre dim ns np.
Proof. exact TorchM_Proofs.backpack_same. Qed.
Print Assumptions C121_backpack.

(** ** The product of a vector with the derivatives: the same with return_jacobian and
    without, whatever gradients earlier calls left; none are left *)
Theorem C121_product :
  forall dre dim ns np vec, vjp_stored dre dim ns np vec true = map (product dre dim ns vec) (seq 0 np).
Proof. exact TorchM_Proofs.want_true. Qed.
Print Assumptions C121_product.
Theorem C121_product_conj :
  forall dre dim ns np vec,
  vjp_stored dre dim ns np vec false = map (product_conj dre dim ns vec) (seq 0 np).
Proof. exact TorchM_Proofs.want_false. Qed.
Print Assumptions C121_product_conj.
Theorem C121_product_direct :
  forall dre dim ns np vec c grad,
  fst (vjp_direct dre dim ns np vec c grad) = vjp_stored dre dim ns np vec c.
Proof. exact TorchM_Proofs.same_both. Qed.
Print Assumptions C121_product_direct.
Theorem C121_gradients_cleared :
  forall dre dim ns np vec c grad k, snd (vjp_direct dre dim ns np vec c grad) k = 0%R.
Proof. exact TorchM_Proofs.left_clear. Qed.
Print Assumptions C121_gradients_cleared.

(** one sample, one parameter: derivative 1 + 2i, vector 3 + 4i, conj (1 + 2i) (3 + 4i) = 11 - 2i *)
Example C121_product_ex :
  fst (vjp_direct (fun _ _ => 1%R) (fun _ _ => 2%R) 1 1 (fun _ => (3, 4)%R) true (fun _ => 9%R)) = [(11, -2)%R] /\
  fst (vjp_direct (fun _ _ => 1%R) (fun _ _ => 2%R) 1 1 (fun _ => (3, 4)%R) false (fun _ => 9%R)) = [(11, 2)%R].
Proof.
  split; cbv - [Rplus Rmult Ropp IZR]; (apply (f_equal2 (@cons cpx)); [|reflexivity]);
    apply (f_equal2 (@pair R R)); ring.
Qed.

(** ** The activation TorchLogCosh, documented as log(cosh): it is larger by log 2 *)
Theorem C121_log_cosh_value : forall x, torch_log_cosh x = (ln (cosh x) + ln 2)%R.
Proof. exact TorchM_Proofs.torch_log_cosh_value. Qed.
Print Assumptions C121_log_cosh_value.
Theorem C121_log_cosh_refuted : exists x, torch_log_cosh x <> ln (cosh x).
Proof. exact TorchM_Proofs.torch_log_cosh_off. Qed.
Print Assumptions C121_log_cosh_refuted.
