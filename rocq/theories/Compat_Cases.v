From Coq Require Import String List ZArith QArith Bool Lia.
From Verif Require Import Base Lattice_Model LatGen_Model LatGen_Spec LatGen_Ex Compat_Model Compat_Spec Compat_Proofs.
Import ListNotations.
Open Scope nat_scope.
Lemma keyword_main {W V} (legacy f : @fn W V) argname argtype v kw w :
  first_parameter argname [] ((argname, v) :: kw) = Some v /\
  wraps_legacy legacy argname argtype f [] ((argname, v) :: kw) w = (w, Err IndexError).
Proof. split; [|apply wraps_keyword]. unfold first_parameter, lookup. cbn [find fst]. rewrite String.eqb_refl. reflexivity. Qed.
Lemma graph_one : exists (N n : Z), N <> n /\ graph_to_N recording N (Some n) ([], tt) =
  graph_to_N recording 1 (Some n) ([], tt) /\ snd (graph_to_N recording N (Some n) ([], tt)) = Ok n.
Proof. exists 1%Z, 5%Z. split; [discriminate|]. split; reflexivity. Qed.
Lemma pair_valid : valid pair_chain.
Proof. unfold valid. cbn. repeat split; [repeat constructor; lia|discriminate]. Qed.
Definition pair_lattice : glattice := match gen_lattice pair_chain with Ok L => L | Err _ => GLat pair_chain [] [] end.
Lemma no_inverse : exists g L i v, valid g /\ gen_lattice g = Ok L /\ i < length (gl_sites L) /\
  site_to_vector L (Z.of_nat i) = Ok v /\ vector_to_site L v = Ok (i - 1) /\ 0 < i.
Proof.
  exists pair_chain, pair_lattice, 1, [0%Z]. split; [exact pair_valid|]. vm_compute. repeat split; lia.
Qed.
