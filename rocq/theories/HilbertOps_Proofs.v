(** * Proofs about operations on Hilbert spaces *)
From Coq Require Import ZArith QArith Qround List Bool Lia Sorted Permutation.
From Verif Require Import Base BaseFacts Hilbert_Model Hilbert_Spec Hilbert_Proofs
  HilbertOps_Model HilbertOps_Spec.
Import ListNotations.
Open Scope Z_scope.

(** A Fock space without cut-off has no (finite) description here unless N = 0; use the
    finite ones. *)
Definition finite_space (h : hilbert) : Prop :=
  match h with Fock _ false _ _ | Custom None _ _ => False | _ => True end.

Lemma config_unconstrained h s : homogeneous h -> unconstrained h -> finite_space h ->
  (config h s <-> length s = n_sites h /\ Forall (local_value h) s).
Proof.
  intros Hh Hu Hf. destruct h as [m fin N [[p id]|]|s2 N [[p id]|]|N|[ls|] N [[f id]|]|l|p]; try contradiction.
  - destruct fin; [|contradiction].
    rewrite config_Fock_iff, Forall_forall. simpl. split.
    * intros (A & B & _). split; auto.
    * intros (A & B). repeat split; auto; try (apply B; auto). discriminate.
  - rewrite config_Spin_iff, Forall_forall. simpl. split.
    * intros (A & B & _). split; auto.
    * intros (A & B). repeat split; auto; try (apply B; auto). discriminate.
  - rewrite config_Qubit_iff, Forall_forall. simpl. tauto.
  - rewrite config_Custom_iff, Forall_forall. simpl. split.
    * intros (A & B & _). split; auto.
    * intros (A & B). repeat split; auto; try (apply B; auto). discriminate.
Qed.

(** concatenation of words *)
Lemma words_concat (V : Z -> Prop) N M s :
  (length s = N + M)%nat /\ Forall V s <->
  exists a b, s = a ++ b /\ (length a = N /\ Forall V a) /\ (length b = M /\ Forall V b).
Proof.
  split.
  - intros [L F]. exists (firstn N s), (skipn N s). rewrite firstn_skipn. split; auto.
    rewrite <- (firstn_skipn N s) in F. apply Forall_app in F. destruct F.
    rewrite firstn_length, skipn_length. repeat split; auto; lia.
  - intros (a & b & -> & [La Fa] & [Lb Fb]). rewrite app_length. split; [lia|]. apply Forall_app; auto.
Qed.

Lemma mk_Fock_Ok m N np id h : mk_Fock (Some m) N np id = Ok h ->
  h = Fock m true N (option_map (fun x => (x, id)) np) /\ m < 2 ^ 63 - 1.
Proof.
  unfold mk_Fock, max_ind. destruct np as [p|].
  - destruct (0 <? p); [|discriminate]. destruct (_ <? p); [discriminate|]. cbn [bind].
    destruct (Z.ltb_spec (2 ^ 63 - 1) (m + 1)); [discriminate|]. intros E; inversion E. split; auto; lia.
  - cbn [bind]. destruct (Z.ltb_spec (2 ^ 63 - 1) (m + 1)); [discriminate|].
    intros E; inversion E. split; auto; lia.
Qed.

Definition cat (P Q : list Z -> Prop) (s : list Z) : Prop :=
  exists a b, s = a ++ b /\ P a /\ Q b.

(** *** powers *)
Fixpoint cat_pow (P : list Z -> Prop) (n : nat) : list Z -> Prop :=
  match n with O => fun s => s = [] | S n' => cat P (cat_pow P n') end.

Lemma hpow_words h n h' : built h -> hpow h n = Ok h' ->
  homogeneous h /\ unconstrained h /\ 
  homogeneous h' /\ unconstrained h' /\ built h' /\ n_sites h' = (n_sites h * n)%nat /\
  (finite_space h <-> finite_space h') /\
  (forall x, local_value h x <-> local_value h' x).
Proof.
  intros B E. destruct h as [m fin N [[p id]|]|s2 N [[p id]|]|N|[ls|] N [[f id]|]|l|p]; simpl in E; try discriminate.
  - apply mk_Fock_Ok in E. destruct E as [-> Hm]. simpl. inversion B; subst; [|lia].
    repeat split; auto; try (constructor; auto); tauto.
  - inversion E; subst. simpl. repeat split; auto; try constructor; try tauto; intros; auto.
  - inversion E; subst. simpl. repeat split; auto; try constructor; try tauto; intros; auto.
  - inversion E; subst. simpl. repeat split; auto; try constructor; try tauto; intros; auto.
  - inversion E; subst. simpl. repeat split; auto; try constructor; try tauto; intros; auto.
Qed.

Lemma words_pow (V : Z -> Prop) N n s :
  (length s = N * n)%nat /\ Forall V s <-> 
  exists parts, length parts = n /\ Forall (fun a => length a = N /\ Forall V a) parts /\ s = concat parts.
Proof.
  revert s. induction n; intros s.
  - rewrite Nat.mul_0_r. split.
    + intros [L F]. destruct s; [|discriminate]. exists []. auto.
    + intros (parts & L & F & ->). destruct parts; [|discriminate]. simpl. auto.
  - replace (N * S n)%nat with (N + N * n)%nat by lia. rewrite words_concat. split.
    + intros (a & b & -> & A & B). apply IHn in B. destruct B as (parts & L & F & ->).
      exists (a :: parts). simpl. repeat split; auto.
    + intros (parts & L & F & ->). destruct parts as [|a parts]; [discriminate|].
      inversion F; subst. exists a, (concat parts). split; auto. split; auto. apply IHn.
      exists parts. auto.
Qed.

Lemma hpow_config h n h' : built h -> finite_space h -> hpow h n = Ok h' ->
  forall s, config h' s <->
    exists parts, length parts = n /\ Forall (config h) parts /\ s = concat parts.
Proof.
  intros B Fin E s. destruct (hpow_words h n h' B E) as (H1 & H2 & H3 & H4 & B' & HN & HF & HV).
  rewrite config_unconstrained by tauto. rewrite HN.
  split.
  - intros W. apply words_pow in W. destruct W as (parts & L & F & ->). exists parts.
    repeat split; auto. eapply Forall_impl; [|exact F]. intros a [La Fa].
    apply config_unconstrained; auto. split; auto. eapply Forall_impl; [|exact Fa]. apply HV.
  - intros (parts & L & F & ->). apply words_pow. exists parts. repeat split; auto.
    eapply Forall_impl; [|exact F]. intros a Ca. apply config_unconstrained in Ca; auto.
    destruct Ca as [La Fa]. split; auto. eapply Forall_impl; [|exact Fa]. apply HV.
Qed.

Lemma hpow_available h n : built h -> homogeneous h -> unconstrained h -> finite_space h ->
  exists h', hpow h n = Ok h'.
Proof.
  intros B Hh Hu Hf. destruct h as [m fin N [[p id]|]|s2 N [[p id]|]|N|[ls|] N [[f id]|]|l|p];
    try contradiction; simpl; try (eexists; reflexivity).
  destruct fin; [|contradiction]. inversion B; subst. unfold mk_Fock, max_ind. cbn [bind].
  destruct (Z.ltb_spec (2 ^ 63 - 1) (m + 1)); [lia|]. eauto.
Qed.

(** *** products *)
Lemma zmem_In x l : zmem x l = true <-> In x l.
Proof.
  unfold zmem. rewrite existsb_exists. split.
  - intros (y & Hy & E). apply Z.eqb_eq in E. subst; auto.
  - intros H. exists x. split; auto. apply Z.eqb_refl.
Qed.

Lemma frozenset_eqb_In a b : frozenset_eqb a b = true -> forall x, In x a <-> In x b.
Proof.
  unfold frozenset_eqb. rewrite andb_true_iff, !forallb_forall. intros [A B] x.
  split; intros H; [apply A in H|apply B in H]; apply zmem_In in H; auto.
Qed.

(** equal unconstrained homogeneous spaces have the same configurations *)
Lemma hilbert_eqb_config h1 h2 n h' : built h1 -> built h2 -> hilbert_eqb h1 h2 = true ->
  hpow h1 n = Ok h' -> n_sites h2 = n_sites h1 /\ forall s, config h1 s <-> config h2 s.
Proof.
  intros B1 B2 E P.
  destruct h1 as [m fin N [[p id]|]|s2 N [[p id]|]|N|[ls|] N [[f id]|]|l|p]; simpl in P; try discriminate;
  destruct h2; simpl in E; try discriminate.
  - apply mk_Fock_Ok in P. destruct P as [_ Hm].
    apply andb_true_iff in E. destruct E as [E E3]. apply andb_true_iff in E. destruct E as [E1 E2].
    apply Nat.eqb_eq in E1. apply Z.eqb_eq in E2. match type of E3 with match ?c with _ => _ end = true => destruct c as [[? ?]|]; [discriminate|] end. subst.
    inversion B1; subst; inversion B2; subst; try lia; try tauto.
  - apply andb_true_iff in E. destruct E as [E E3]. apply andb_true_iff in E. destruct E as [E1 E2].
    apply Nat.eqb_eq in E1. apply Nat.eqb_eq in E2. match type of E3 with match ?c with _ => _ end = true => destruct c as [[? ?]|]; [discriminate|] end. subst. simpl. tauto.
  - apply Nat.eqb_eq in E. subst. tauto.
  - apply andb_true_iff in E. destruct E as [E E3]. apply andb_true_iff in E. destruct E as [E1 E2].
    apply Nat.eqb_eq in E1. match type of E3 with match ?c with _ => _ end = true => destruct c as [[? ?]|]; [discriminate|] end. subst. destruct ls0 as [ls0|]; [|discriminate].
    apply andb_true_iff in E2. destruct E2 as [_ E2]. pose proof (frozenset_eqb_In _ _ E2) as EI.
    split; auto. intros s. rewrite !config_Custom_iff. split; intros (A & C & D); repeat split; auto;
      try discriminate; intros; apply EI; auto.
  - apply andb_true_iff in E. destruct E as [E E3]. apply andb_true_iff in E. destruct E as [E1 E2].
    apply Nat.eqb_eq in E1. match type of E3 with match ?c with _ => _ end = true => destruct c as [[? ?]|]; [discriminate|] end. subst. destruct ls as [ls0|]; [discriminate|].
    tauto.
Qed.

Lemma config_Tensor_one h s : config (Tensor [h]) s <-> config h s.
Proof.
  split.
  - intros C. inversion C; subst. inversion H3; subst. rewrite app_nil_r. auto.
  - intros C. rewrite <- (app_nil_r s). constructor; auto. constructor.
Qed.

Lemma config_Tensor_app l1 l2 s :
  config (Tensor (l1 ++ l2)) s <-> cat (config (Tensor l1)) (config (Tensor l2)) s.
Proof.
  revert s; induction l1; intros s; simpl.
  - split.
    + intros C. exists [], s. repeat split; auto. constructor.
    + intros (a & b & -> & A & B). inversion A. auto.
  - split.
    + intros C. inversion C; subst. apply IHl1 in H3. destruct H3 as (u & v & -> & U & V).
      exists (a0 ++ u), v. rewrite app_assoc. repeat split; auto. constructor; auto.
    + intros (u & v & -> & U & V). inversion U; subst. rewrite <- app_assoc. constructor; auto.
      apply IHl1. exists b, v. auto.
Qed.

Lemma cat_assoc P Q R s : cat P (cat Q R) s <-> cat (cat P Q) R s.
Proof.
  split.
  - intros (a & bc & -> & A & b & c & -> & B & C). exists (a ++ b), c.
    rewrite app_assoc. repeat split; auto. exists a, b; auto.
  - intros (ab & c & -> & (a & b & -> & A & B) & C). exists a, (b ++ c).
    rewrite <- app_assoc. repeat split; auto. exists b, c; auto.
Qed.

Lemma cat_iff P P' Q Q' s : (forall s, P s <-> P' s) -> (forall s, Q s <-> Q' s) ->
  (cat P Q s <-> cat P' Q' s).
Proof.
  intros A B. split; intros (a & b & -> & C & D); exists a, b; repeat split; auto;
    try apply A; try apply B; auto.
Qed.

Lemma mk_Tensor_Ok l h : mk_Tensor l = Ok h -> h = Tensor l.
Proof.
  unfold mk_Tensor. destruct l; [discriminate|]. destruct (sequence _); cbn [bind]; [|discriminate].
  intros E; inversion E; auto.
Qed.

Lemma infinite_no_config m N np s : ~ config (Fock m false N np) s.
Proof. intros C. inversion C. Qed.

Lemma sametype_config h1 h2 h : built h1 -> built h2 -> mul_sametype h1 h2 = Ok (Some h) ->
  built h /\ forall s, config h s <-> cat (config h1) (config h2) s.
Proof.
  intros B1 B2 E.
  destruct h1 as [m fin N [[p id]|]|s2 N [[p id]|]|N|[ls|] N [[f id]|]|l|p];
  destruct h2 as [m' fin' N' [[p' id']|]|s2' N' [[p' id']|]|N'|[ls'|] N' [[f' id']|]|l'|p'];
  simpl in E; try discriminate.
  - destruct (Z.eqb_spec m m'); [|discriminate]. subst m'.
    destruct (mk_Fock (Some m) (N + N') None 0) as [g|] eqn:EM; [|discriminate]. cbn [bind] in E.
    inversion E; subst g. apply mk_Fock_Ok in EM. destruct EM as [-> Hm].
    inversion B1; subst; [|lia]. inversion B2; subst; [|lia].
    split; [constructor; auto|]. intros s. simpl option_map. rewrite config_unconstrained by (simpl; auto).
    rewrite (words_concat _ N N'). unfold cat. split; intros (a & b & -> & A & B); exists a, b; 
      (split; [auto|]); rewrite !config_unconstrained in * by (simpl; auto); auto.
  - destruct (Nat.eqb_spec s2 s2'); [|discriminate]. subst s2'. inversion E; subst.
    split; [constructor|]. intros s. simpl option_map. rewrite config_unconstrained by (simpl; auto).
    rewrite (words_concat _ N N'). unfold cat. split; intros (a & b & -> & A & B); exists a, b; 
      (split; [auto|]); rewrite !config_unconstrained in * by (simpl; auto); auto.
  - inversion E; subst.
    split; [constructor|]. intros s. rewrite config_unconstrained by (simpl; auto).
    rewrite (words_concat _ N N'). unfold cat. split; intros (a & b & -> & A & B); exists a, b; 
      (split; [auto|]); rewrite !config_unconstrained in * by (simpl; auto); auto.
Qed.

Lemma hpow2_config h h' : built h -> hpow h 2 = Ok h' ->
  built h' /\ (finite_space h -> forall s, config h' s <-> cat (config h) (config h) s).
Proof.
  intros B E. destruct (hpow_words h 2 h' B E) as (H1 & H2 & H3 & H4 & B' & HN & HF & HV).
  split; auto. intros Fin s. rewrite (hpow_config h 2 h' B Fin E). split.
  - intros (parts & L & F & ->). destruct parts as [|a [|b [|]]]; try discriminate.
    inversion F; subst. inversion H6; subst. exists a, b. simpl. rewrite app_nil_r. auto.
  - intros (a & b & -> & A & C). exists [a; b]. simpl. rewrite app_nil_r. auto.
Qed.

(** every site has finitely many values *)
Inductive all_finite : hilbert -> Prop :=
| af_homog h : homogeneous h -> finite_space h -> all_finite h
| af_Tensor l : Forall all_finite l -> all_finite (Tensor l)
| af_Doubled p : all_finite p -> all_finite (Doubled p).

Lemma all_finite_fs h : all_finite h -> finite_space h.
Proof. destruct 1; auto; simpl; auto. Qed.

Lemma sametype_finite h1 h2 h : mul_sametype h1 h2 = Ok (Some h) -> homogeneous h /\ finite_space h.
Proof.
  intros E.
  destruct h1 as [m fin N [[p id]|]|s2 N [[p id]|]|N|[ls|] N [[f id]|]|l|p];
  destruct h2 as [m' fin' N' [[p' id']|]|s2' N' [[p' id']|]|N'|[ls'|] N' [[f' id']|]|l'|p'];
  simpl in E; try discriminate.
  - destruct (m =? m'); [|discriminate]. destruct (mk_Fock (Some m) (N + N') None 0) eqn:EM; [|discriminate].
    cbn [bind] in E. inversion E; subst. apply mk_Fock_Ok in EM. destruct EM as [-> _]. simpl. auto.
  - destruct (Nat.eqb s2 s2'); [|discriminate]. inversion E; subst. simpl; auto.
  - inversion E; subst. simpl; auto.
Qed.

Lemma removelast_last_app {A} (l : list A) d : l <> [] -> removelast l ++ [last l d] = l.
Proof. intros. symmetry. apply app_removelast_last. auto. Qed.

Lemma Forall_removelast {A} (P : A -> Prop) l : Forall P l -> Forall P (removelast l).
Proof. induction 1; simpl; auto. destruct l; auto. Qed.

Lemma Forall_last {A} (P : A -> Prop) l d : Forall P l -> l <> [] -> P (last l d).
Proof.
  intros F H. rewrite <- (removelast_last_app l d H) in F. apply Forall_app in F.
  destruct F as [_ F]. inversion F; auto.
Qed.

(** what the tensor branch produces *)
Definition good (h : hilbert) : Prop := built h /\ all_finite h.

Lemma good_Tensor l : good (Tensor l) <-> l <> [] /\ Forall good l.
Proof.
  split.
  - intros [Gb Gf]. inversion Gb as [| | | | |? Hne Fb|]; subst.
    inversion Gf as [? HH| ? Ff|]; subst; [contradiction|]. split; auto.
    rewrite Forall_forall in *. intros y Hy; split; auto.
  - intros [Hne F]. split.
    + constructor; auto. eapply Forall_impl; [|exact F]. intros a [A _]; auto.
    + apply af_Tensor. eapply Forall_impl; [|exact F]. intros a [_ A]; auto.
Qed.

Lemma hmul_config d : forall h1 h2 h, good h1 -> good h2 -> 
  (forall l, h1 = Tensor l -> l <> []) ->
  hmul d h1 h2 = Ok h ->
  good h /\ (forall l, h = Tensor l -> l <> []) /\
  forall s, config h s <-> cat (config h1) (config h2) s.
Proof.
  induction d; intros h1 h2 h G1 G2 Ne E; [discriminate|].
  assert (TM : forall ls h, ls <> [] -> Forall good ls ->
    (let spaces_l := removelast ls in
     let center_l := last ls (Qubit 0) in
     let center_r := match h2 with Tensor (x :: _) => x | _ => h2 end in
     let spaces_r := match h2 with Tensor (_ :: r) => r | _ => [] end in
     let center :=
       match hmul d center_l center_r with
       | Ok c => if is_tensor c then [center_l; center_r] else [c]
       | Err _ => [center_l; center_r]
       end in
     mk_Tensor (spaces_l ++ center ++ spaces_r)) = Ok h ->
    (forall l, last ls (Qubit 0) = Tensor l -> l <> []) \/ True ->
    good h /\ (forall l, h = Tensor l -> l <> []) /\
    forall s, config h s <-> cat (config (Tensor ls)) (config h2) s).
  { clear E h. intros ls h Hne Hls E _. cbv zeta in E.
    set (cl := last ls (Qubit 0)) in *. 
    set (cr := match h2 with Tensor (x :: _) => x | _ => h2 end) in *.
    set (sr := match h2 with Tensor (_ :: r) => r | _ => [] end) in *.
    set (center := match hmul d cl cr with
       | Ok c => if is_tensor c then [cl; cr] else [c]
       | Err _ => [cl; cr] end) in *.
    assert (Hcl : good cl) by (apply Forall_last; auto).
    assert (Hcr : good cr /\ Forall good sr /\ forall s, config (Tensor (cr :: sr)) s <-> config h2 s).
    { subst cr sr. destruct h2 as [ | | | |[|x r]| ]; try (split; [auto|split; [constructor|intros; apply config_Tensor_one]]).
      apply good_Tensor in G2. destruct G2 as [_ G2]. inversion G2; subst. split; auto. split; auto. tauto. }
    destruct Hcr as (Gcr & Gsr & Ecr).
    assert (Hcenter : Forall good center /\ forall s, config (Tensor center) s <-> cat (config cl) (config cr) s).
    { assert (Def : Forall good [cl; cr] /\ forall s, config (Tensor [cl; cr]) s <-> cat (config cl) (config cr) s).
      { split; [constructor; [exact Hcl|constructor; [exact Gcr|constructor]]|]. intros s.
        change [cl; cr] with ([cl] ++ [cr]). rewrite config_Tensor_app.
        apply cat_iff; intros; apply config_Tensor_one. }
      subst center. destruct (hmul d cl cr) as [c|] eqn:EC; auto. destruct (is_tensor c) eqn:IT; auto.
      assert (Hn : forall l, cl = Tensor l -> l <> []).
      { intros l El Hl. subst l. destruct d; [discriminate|]. rewrite El in EC.
        cbn [hmul] in EC. cbv zeta in EC.
        match type of EC with mk_Tensor ?x = _ => destruct (mk_Tensor x) eqn:EM end; [|discriminate].
        apply mk_Tensor_Ok in EM. inversion EC; subst. discriminate. }
      destruct (IHd cl cr c Hcl Gcr Hn EC) as (Gc & _ & Cc).
      split; [constructor; auto|]. intros s. rewrite config_Tensor_one. auto. }
    destruct Hcenter as [Gce Ece].
    apply mk_Tensor_Ok in E. subst h. split; [|split].
    - assert (FA : Forall good (removelast ls ++ center ++ sr)).
      { apply Forall_app; split; [apply Forall_removelast; auto|]. apply Forall_app; auto. }
      apply good_Tensor. split; auto. intros H0. apply app_eq_nil in H0. destruct H0 as [_ H0].
      apply app_eq_nil in H0. destruct H0 as [H0 _]. subst center.
      destruct (hmul d cl cr) as [c|]; [destruct (is_tensor c)|]; discriminate.
    - intros l E Hl. inversion E; subst. apply app_eq_nil in H0. destruct H0 as [_ H0].
      apply app_eq_nil in H0. destruct H0 as [H0 _]. subst center.
      destruct (hmul d cl cr) as [c|]; [destruct (is_tensor c)|]; discriminate.
    - intros s. rewrite config_Tensor_app.
      rewrite (cat_iff _ _ _ _ s (fun s => iff_refl _) (config_Tensor_app center sr)).
      rewrite (cat_iff _ _ _ _ s (fun s => iff_refl _) (fun s => cat_iff _ _ _ _ s Ece (fun s => iff_refl _))).
      rewrite <- (removelast_last_app ls (Qubit 0) Hne) at 2. fold cl.
      rewrite (cat_iff (config (Tensor (removelast ls ++ [cl]))) _ (config h2) _ s (config_Tensor_app _ _) (fun s => iff_sym (Ecr s))).
      rewrite <- cat_assoc.
      apply cat_iff; [tauto|]. intros t. rewrite <- cat_assoc. apply cat_iff.
      + intros; symmetry; apply config_Tensor_one.
      + intros u. change (cr :: sr) with ([cr] ++ sr). rewrite config_Tensor_app.
        apply cat_iff; [|tauto]. intros; symmetry; apply config_Tensor_one. }
  assert (NT : forall l, h1 <> Tensor l -> (if hilbert_eqb h1 h2 then hpow h1 2
      else let? r := mul_sametype h1 h2 in
           match r with
           | Some h => Ok h
           | None => let? _ := mk_Tensor [h1] in
             (let spaces_l := removelast [h1] in
              let center_l := last [h1] (Qubit 0) in
              let center_r := match h2 with Tensor (x :: _) => x | _ => h2 end in
              let spaces_r := match h2 with Tensor (_ :: r) => r | _ => [] end in
              let center :=
                match hmul d center_l center_r with
                | Ok c => if is_tensor c then [center_l; center_r] else [c]
                | Err _ => [center_l; center_r]
                end in
              mk_Tensor (spaces_l ++ center ++ spaces_r))
           end) = Ok h ->
     good h /\ (forall l, h = Tensor l -> l <> []) /\ forall s, config h s <-> cat (config h1) (config h2) s).
  { intros l Hnt E'. destruct G1 as [B1 F1], G2 as [B2 F2].
    destruct (hilbert_eqb h1 h2) eqn:EQ.
    - destruct (hilbert_eqb_config _ _ _ _ B1 B2 EQ E') as [_ EC].
      destruct (hpow2_config _ _ B1 E') as [B' C'].
      destruct (hpow_words _ _ _ B1 E') as (_ & _ & Hh & _ & _ & _ & Hf & _).
      specialize (C' (all_finite_fs _ F1)).
      split; [split; auto; constructor; auto; apply Hf, all_finite_fs; auto|].
      split; [intros l' ->; contradiction|]. intros s. rewrite C'. apply cat_iff; [tauto|auto].
    - destruct (mul_sametype h1 h2) as [[g|]|] eqn:ST; cbn [bind] in E'; [| |discriminate].
      + inversion E'; subst g. destruct (sametype_config _ _ _ B1 B2 ST) as [Bh Ch].
        destruct (sametype_finite _ _ _ ST) as [Hh Hf].
        split; [split; auto; constructor; auto|]. split; auto. intros l' ->; contradiction.
      + destruct (mk_Tensor [h1]) eqn:MT; cbn [bind] in E'; [|discriminate].
        destruct (TM [h1] h) as (R1 & R2 & R3).
        * discriminate.
        * constructor; [split; auto|constructor].
        * exact E'.
        * auto.
        * split; auto. split; auto. intros s. rewrite R3. apply cat_iff; [apply config_Tensor_one|tauto]. }
  destruct h1; try (apply (NT []); [discriminate|exact E]).
  cbn [hmul] in E. destruct G1 as [Gb Gf]. apply (TM l h).
  - apply Ne; auto.
  - inversion Gb; subst. inversion Gf; subst; [contradiction|]. rewrite Forall_forall in *. intros y Hy. split; auto.
  - exact E.
  - auto.
Qed.

(** ** Partial trace *)
Lemma remove_sites_app W i a b :
  remove_sites W i (a ++ b) = remove_sites W i a ++ remove_sites W (i + Z.of_nat (length a)) b.
Proof.
  revert i; induction a; intros i; cbn [app remove_sites length].
  - f_equal. simpl. lia.
  - replace (i + Z.of_nat (S (length a0))) with (i + 1 + Z.of_nat (length a0)) by lia.
    rewrite IHa. destruct (existsb (Z.eqb i) W); auto.
Qed.

Lemma existsb_In W i : existsb (Z.eqb i) W = true <-> In i W.
Proof. apply zmem_In. Qed.

Lemma remove_sites_ext W W' i i' s :
  (forall j, 0 <= j < Z.of_nat (length s) -> (In (i + j) W <-> In (i' + j) W')) ->
  remove_sites W i s = remove_sites W' i' s.
Proof.
  revert i i'; induction s as [|x s IH]; intros i i' H; cbn [remove_sites]; auto.
  assert (E : existsb (Z.eqb i) W = existsb (Z.eqb i') W').
  { apply eq_true_iff_eq. rewrite !existsb_In. specialize (H 0). rewrite !Z.add_0_r in H.
    apply H. simpl; lia. }
  rewrite E. rewrite (IH (i + 1) (i' + 1)).
  - auto.
  - intros j Hj. replace (i + 1 + j) with (i + (j + 1)) by lia.
    replace (i' + 1 + j) with (i' + (j + 1)) by lia. apply H. simpl length. lia.
Qed.

Lemma remove_sites_none W i s :
  (forall j, 0 <= j < Z.of_nat (length s) -> ~ In (i + j) W) -> remove_sites W i s = s.
Proof.
  revert i; induction s as [|x s IH]; intros i H; cbn [remove_sites]; auto.
  destruct (existsb (Z.eqb i) W) eqn:E.
  - apply existsb_In in E. exfalso. apply (H 0); [simpl; lia|]. rewrite Z.add_0_r; auto.
  - f_equal. apply IH. intros j Hj. replace (i + 1 + j) with (i + (j + 1)) by lia. apply H. simpl length; lia.
Qed.

(** number of kept sites *)
Fixpoint kept (W : list Z) (i : Z) (N : nat) : nat :=
  match N with
  | O => O
  | S N' => ((if existsb (Z.eqb i) W then 0 else 1) + kept W (i + 1) N')%nat
  end.

Lemma remove_sites_length W i s : length (remove_sites W i s) = kept W i (length s).
Proof.
  revert i; induction s; intros i; cbn [remove_sites kept length]; auto.
  destruct (existsb (Z.eqb i) W); simpl; rewrite IHs; auto.
Qed.

Lemma filter_remove_len (W : list Z) i : NoDup W -> In i W ->
  length (filter (fun x => negb (x =? i)) W) = (length W - 1)%nat.
Proof.
  induction 1 as [|x l Hx Hn IH]; intros Hi; [destruct Hi|]. simpl.
  destruct (Z.eqb_spec x i).
  - subst. simpl. rewrite Nat.sub_0_r. 
    assert (filter (fun x => negb (x =? i)) l = l).
    { clear - Hx. induction l; simpl; auto. destruct (Z.eqb_spec a i); simpl.
      - subst. exfalso; apply Hx; left; auto.
      - f_equal. apply IHl. intros H; apply Hx; right; auto. }
    rewrite H. auto.
  - simpl. destruct Hi as [->|Hi]; [congruence|]. rewrite IH by auto.
    destruct l; [destruct Hi|simpl; lia].
Qed.

Lemma kept_count W i N : NoDup W -> (forall x, In x W -> i <= x < i + Z.of_nat N) ->
  kept W i N = (N - length W)%nat /\ (length W <= N)%nat.
Proof.
  revert W i; induction N; intros W i Hn Hr; cbn [kept].
  - destruct W as [|x W]; auto. specialize (Hr x (or_introl eq_refl)). lia.
  - set (W' := filter (fun x => negb (x =? i)) W).
    assert (K : kept W (i + 1) N = kept W' (i + 1) N).
    { assert (G : forall j M, i < j -> kept W j M = kept W' j M).
      { intros j M; revert j; induction M; intros j Hj; cbn [kept]; auto.
        rewrite IHM by lia. f_equal. replace (existsb (Z.eqb j) W') with (existsb (Z.eqb j) W); auto.
        apply eq_true_iff_eq. rewrite !existsb_In. unfold W'. rewrite filter_In.
        split; [intros; split; auto|tauto]. destruct (Z.eqb_spec j i); auto; lia. }
      apply G; lia. }
    rewrite K. destruct (IHN W' (i + 1)) as [E1 E2].
    { apply NoDup_filter; auto. }
    { intros x Hx. unfold W' in Hx. apply filter_In in Hx. destruct Hx as [Hx E].
      specialize (Hr x Hx). destruct (Z.eqb_spec x i); [discriminate|]. lia. }
    rewrite E1. destruct (existsb (Z.eqb i) W) eqn:EI.
    + apply existsb_In in EI. pose proof (filter_remove_len W i Hn EI) as L. fold W' in L.
      destruct W; [destruct EI|]. simpl length in *. lia.
    + assert (W' = W).
      { unfold W'. assert (~ In i W) by (rewrite <- existsb_In, EI; discriminate).
        clear - H. induction W; simpl; auto. destruct (Z.eqb_spec a i); simpl.
        - subst; exfalso; apply H; left; auto.
        - f_equal. apply IHW. intros X; apply H; right; auto. }
      rewrite H in *. lia.
Qed.

Lemma remove_sites_onto (V : Z -> Prop) v0 W i N t : V v0 ->
  length t = kept W i N -> Forall V t ->
  exists s, length s = N /\ Forall V s /\ remove_sites W i s = t.
Proof.
  intros Hv. revert i t; induction N; intros i t L F; cbn [kept] in L.
  - destruct t; [|discriminate]. exists []. auto.
  - destruct (existsb (Z.eqb i) W) eqn:E.
    + destruct (IHN (i + 1) t) as (s & Ls & Fs & Rs); auto.
      exists (v0 :: s). cbn [remove_sites length]. rewrite E. auto.
    + destruct t as [|x t]; [discriminate|]. simpl in L. inversion F; subst.
      destruct (IHN (i + 1) t) as (s & Ls & Fs & Rs); auto.
      exists (x :: s). cbn [remove_sites length]. rewrite E, Rs. auto.
Qed.

Lemma remove_sites_Forall (V : Z -> Prop) W i s : Forall V s -> Forall V (remove_sites W i s).
Proof.
  intros F; revert i; induction F; intros i; cbn [remove_sites]; auto.
  destruct (existsb _ W); auto.
Qed.

Lemma ptrace_check_In N W : ptrace_check N W = true <-> forall x, In x W -> 0 <= x < Z.of_nat N.
Proof.
  unfold ptrace_check. rewrite forallb_forall. split; intros H x Hx; specialize (H x Hx).
  - apply andb_true_iff in H. destruct H as [A B]. apply Z.leb_le in A. apply Z.ltb_lt in B. lia.
  - apply andb_true_iff. rewrite Z.leb_le, Z.ltb_lt. lia.
Qed.

(** the statement proved for each space *)
Definition ptrace_correct (h : hilbert) (W : list Z) (r : option hilbert) : Prop :=
  match r with
  | Some h' => good h' /\ (forall l, h' = Tensor l -> l <> []) /\
      (forall t, config h' t <-> exists s, config h s /\ remove_sites W 0 s = t)
  | None => forall i, 0 <= i < Z.of_nat (n_sites h) -> In i W
  end.

Lemma words_removed (V : Z -> Prop) v0 N W : NoDup W -> (forall x, In x W -> 0 <= x < Z.of_nat N) -> V v0 ->
  forall t, (length t = (N - length W)%nat /\ Forall V t) <->
            exists s, (length s = N /\ Forall V s) /\ remove_sites W 0 s = t.
Proof.
  intros Hn Hr Hv t. destruct (kept_count W 0 N Hn) as [K _]; [intros; apply Hr; auto|]. split.
  - intros [L F]. destruct (remove_sites_onto V v0 W 0 N t) as (s & A & B & C); auto; [lia|]. eauto.
  - intros (s & [L F] & <-). split.
    + rewrite remove_sites_length, L. auto.
    + apply remove_sites_Forall; auto.
Qed.

Lemma all_listed W N : NoDup W -> (forall x, In x W -> 0 <= x < Z.of_nat N) -> length W = N ->
  forall i, 0 <= i < Z.of_nat N -> In i W.
Proof.
  intros Hn Hr HL i Hi.
  assert (P : incl (zrange (Z.of_nat N)) W).
  { apply NoDup_length_incl; auto.
    - rewrite zrange_length, Nat2Z.id. lia.
    - intros x Hx. apply in_zrange. auto. }
  apply P. apply in_zrange. auto.
Qed.

Lemma ptrace_size_spec h W mk r v0 :
  homogeneous h -> unconstrained h -> finite_space h ->
  NoDup W -> (forall x, In x W -> 0 <= x < Z.of_nat (n_sites h)) ->
  (forall n h', mk n = Ok h' -> homogeneous h' /\ unconstrained h' /\ finite_space h' /\ built h' /\
      n_sites h' = n /\ forall x, local_value h x <-> local_value h' x) ->
  local_value h v0 ->
  ptrace_size (n_sites h) W mk = Ok r -> ptrace_correct h W r.
Proof.
  intros H1 H2 H3 Hn Hr Hmk Hv E. unfold ptrace_size in E.
  destruct (Nat.eqb_spec (n_sites h) (length W)).
  - inversion E; subst. simpl. apply all_listed; auto.
  - destruct (Nat.ltb (n_sites h) (length W)); [discriminate|].
    destruct (mk (n_sites h - length W)%nat) as [h'|] eqn:EM; [|discriminate]. cbn [bind] in E.
    inversion E; subst. destruct (Hmk _ _ EM) as (A1 & A2 & A3 & A4 & A5 & A6). simpl.
    split; [split; auto; constructor; auto|]. split; [intros l ->; contradiction|].
    intros t. rewrite config_unconstrained by auto. rewrite A5.
    pose proof (words_removed (local_value h) v0 (n_sites h) W Hn Hr Hv t) as WR. split.
    + intros [L F]. destruct (proj1 WR) as (s & B & C).
      { split; auto. eapply Forall_impl; [|exact F]. apply A6. }
      exists s. split; auto. apply config_unconstrained; auto.
    + intros (s & B & C). apply config_unconstrained in B; auto. 
      destruct (proj2 WR) as [L F]; eauto. split; auto. eapply Forall_impl; [|exact F]. apply A6.
Qed.

Lemma config_length h s : config h s -> length s = n_sites h.
Proof.
  intros C; induction C; simpl; auto; rewrite ?app_length; auto.
Qed.

Lemma hsize_n_sites h : hsize h = n_sites h.
Proof.
  induction h using hilbert_nested_ind; simpl; auto.
  - f_equal. induction H; simpl; auto. f_equal; auto.
  - lia.
Qed.

(** value available on an unconstrained space with at least one site, or empty *)
Lemma nonempty_value h s : homogeneous h -> unconstrained h -> finite_space h -> config h s ->
  (exists v, local_value h v) \/ n_sites h = O.
Proof.
  intros H1 H2 H3 C. apply config_unconstrained in C; auto. destruct C as [L F].
  destruct s as [|x s]; [right; auto|]. left. inversion F; eauto.
Qed.

Lemma ptrace_homog_case h W mk r :
  homogeneous h -> unconstrained h -> finite_space h ->
  (exists s, config h s) -> NoDup W -> ptrace_check (n_sites h) W = true ->
  (forall n h', mk n = Ok h' -> homogeneous h' /\ unconstrained h' /\ finite_space h' /\ built h' /\
      n_sites h' = n /\ forall x, local_value h x <-> local_value h' x) ->
  ptrace_size (n_sites h) W mk = Ok r -> ptrace_correct h W r.
Proof.
  intros H1 H2 H3 [s C] Hn Hc Hmk E. rewrite ptrace_check_In in Hc.
  destruct (nonempty_value h s H1 H2 H3 C) as [[v Hv]|H0].
  - eapply ptrace_size_spec; eauto.
  - rewrite H0 in *. destruct W as [|x W]; [|specialize (Hc x (or_introl eq_refl)); lia].
    simpl in E. inversion E; subst. simpl. rewrite H0. intros i Hi. simpl in Hi. lia.
Qed.

(** fold of products *)
Lemma fold_hmul_err d hs e : fold_left (fun acc x => let? a := acc in hmul d a x) hs (Err e) = Err e.
Proof. induction hs; cbn [fold_left bind]; auto. Qed.

Lemma fold_hmul_config d hs h0 h :
  good h0 -> (forall l, h0 = Tensor l -> l <> []) -> Forall good hs ->
  fold_left (fun acc x => let? a := acc in hmul d a x) hs (Ok h0) = Ok h ->
  good h /\ (forall l, h = Tensor l -> l <> []) /\
  forall s, config h s <-> config (Tensor (h0 :: hs)) s.
Proof.
  revert h0. induction hs as [|x hs IH]; intros h0 G N F E.
  - cbn [fold_left] in E. inversion E; subst. split; auto. split; auto. intros; symmetry; apply config_Tensor_one.
  - cbn [fold_left] in E. cbn [bind] in E. inversion F; subst.
    destruct (hmul d h0 x) as [h1|] eqn:EM; [|rewrite fold_hmul_err in E; discriminate].
    destruct (hmul_config _ _ _ _ G H1 N EM) as (G1 & N1 & C1).
    destruct (IH h1 G1 N1 H2 E) as (A & B & C). split; auto. split; auto.
    intros s. rewrite C. change (h1 :: hs) with ([h1] ++ hs).
    change (h0 :: x :: hs) with ([h0] ++ [x] ++ hs).
    rewrite !config_Tensor_app.
    rewrite (cat_iff _ _ _ _ s (fun s => iff_refl _) (config_Tensor_app [x] hs)).
    rewrite cat_assoc. apply cat_iff; [|tauto]. intros t. rewrite config_Tensor_one, C1.
    apply cat_iff; intros; symmetry; apply config_Tensor_one.
Qed.

Definition tensor_here (W : list Z) (sz n : Z) : list Z :=
  map (fun s => s - sz) (filter (fun s => (sz <=? s) && (s <? sz + n)) W).

Lemma tensor_here_In W sz n j : In j (tensor_here W sz n) <-> In (sz + j) W /\ 0 <= j < n.
Proof.
  unfold tensor_here. rewrite in_map_iff. split.
  - intros (x & <- & Hx). apply filter_In in Hx. destruct Hx as [Hx E].
    apply andb_true_iff in E. rewrite Z.leb_le, Z.ltb_lt in E.
    replace (sz + (x - sz)) with x by lia. split; auto. lia.
  - intros [H Hj]. exists (sz + j). split; [lia|]. apply filter_In. split; auto.
    apply andb_true_iff. rewrite Z.leb_le, Z.ltb_lt. lia.
Qed.

Lemma tensor_here_NoDup W sz n : NoDup W -> NoDup (tensor_here W sz n).
Proof. intros H. apply NoDup_map_inj; [intros; lia|]. apply NoDup_filter; auto. Qed.

Definition tensor_keep (pt : hilbert -> list Z -> res (option hilbert)) (W : list Z) :=
  fix go (l : list hilbert) (sz : Z) {struct l} : res (list hilbert) :=
  match l with
  | [] => Ok []
  | hilb :: l' =>
      let n := Z.of_nat (hsize hilb) in
      let here := map (fun s => s - sz) (filter (fun s => (sz <=? s) && (s <? sz + n)) W) in
      let? this := match here with [] => Ok (Some hilb) | _ => pt hilb here end in
      let? rest := go l' (sz + n) in
      Ok (match this with Some x => x :: rest | None => rest end)
  end.

Lemma tensor_keep_cons pt W hilb l' sz : tensor_keep pt W (hilb :: l') sz =
      let n := Z.of_nat (hsize hilb) in
      let here := map (fun s => s - sz) (filter (fun s => (sz <=? s) && (s <? sz + n)) W) in
      let? this := match here with [] => Ok (Some hilb) | _ => pt hilb here end in
      let? rest := tensor_keep pt W l' (sz + n) in
      Ok (match this with Some x => x :: rest | None => rest end).
Proof. reflexivity. Qed.

Lemma config_Tensor_cons_iff h l t : config (Tensor (h :: l)) t <->
  exists a b, t = a ++ b /\ config h a /\ config (Tensor l) b.
Proof.
  split.
  - intros C. inversion C; subst. eauto.
  - intros (a & b & -> & A & B). constructor; auto.
Qed.

Lemma nonempty_Tensor l : (exists s, config (Tensor l) s) -> Forall (fun h => exists s, config h s) l.
Proof.
  intros [s C]. revert s C. induction l; intros s C; constructor; inversion C; subst; eauto.
Qed.

Lemma ptrace_spec d h : forall W r, good h -> (forall l, h = Tensor l -> l <> []) ->
  (exists s, config h s) -> NoDup W -> ptrace d h W = Ok r -> ptrace_correct h W r.
Proof.
  induction h using hilbert_nested_ind; intros W r G NE Hex Hn E.
  - cbn [ptrace] in E. destruct (ptrace_check N W) eqn:EC; [|discriminate]. cbn [negb] in E.
    destruct np as [?|]; [discriminate|]. destruct G as [Gb Gf].
    assert (FS : finite_space (Fock m f N None)) by (apply all_finite_fs; auto).
    eapply ptrace_homog_case; try exact E; simpl; auto.
    intros n h' EM. apply mk_Fock_Ok in EM. destruct EM as [-> Hm]. simpl in *. destruct f; [|contradiction].
    repeat split; auto; try (constructor; auto); tauto.
  - cbn [ptrace] in E. destruct (ptrace_check N W) eqn:EC; [|discriminate]. cbn [negb] in E.
    destruct t as [?|]; [discriminate|]. 
    eapply ptrace_homog_case; try exact E; simpl; auto.
    intros n h' EM. inversion EM; subst. simpl in *. 
    repeat split; auto; try (constructor; auto); tauto.
  - cbn [ptrace] in E. destruct (ptrace_check N W) eqn:EC; [|discriminate]. cbn [negb] in E.
    eapply ptrace_homog_case; try exact E; simpl; auto.
    intros n h' EM. inversion EM; subst. simpl in *. 
    repeat split; auto; try (constructor; auto); tauto.
  - discriminate.
  - cbn [ptrace] in E. set (W' := np_sort W) in *.
    assert (Hn' : NoDup W') by (eapply Permutation_NoDup; [apply np_sort_perm|auto]).
    assert (HS : forall x, In x W' <-> In x W) by apply np_sort_in.
    destruct (ptrace_check (list_sum (map hsize l)) W') eqn:EC; [|discriminate]. cbn [negb] in E.
    assert (HT : list_sum (map hsize l) = n_sites (Tensor l)) by apply (hsize_n_sites (Tensor l)).
    rewrite HT in *. rewrite ptrace_check_In in EC.
    destruct (Nat.eqb_spec (n_sites (Tensor l)) (length W')).
    + inversion E; subst r. intros i Hi. apply HS. eapply all_listed; eauto.
    + match type of E with (let? k := ?F in _) = _ => change F with (tensor_keep (ptrace d) W' l 0) in E end.
      destruct (tensor_keep (ptrace d) W' l 0) as [kept|] eqn:EK; [|discriminate]. cbn [bind] in E.
      apply good_Tensor in G. destruct G as [_ GL].
      pose proof (nonempty_Tensor _ Hex) as HexL.
      assert (Key : forall l kept sz, 
         Forall (fun h => forall W r, good h -> (forall l, h = Tensor l -> l <> []) -> (exists s, config h s) ->
            NoDup W -> ptrace d h W = Ok r -> ptrace_correct h W r) l ->
         Forall good l -> Forall (fun h => exists s, config h s) l ->
         tensor_keep (ptrace d) W' l sz = Ok kept ->
         Forall good kept /\
         forall t, config (Tensor kept) t <-> exists s, config (Tensor l) s /\ remove_sites W' sz s = t).
      { clear - Hn'. induction l as [|a l IH]; intros kept sz HI GL HX EK.
        - inversion EK; subst. split; [constructor|]. intros t. split.
          + intros C. inversion C; subst. exists []. split; auto.
          + intros (s & C & <-). inversion C; subst. constructor.
        - rewrite tensor_keep_cons in EK. cbv zeta in EK. fold (tensor_here W' sz (Z.of_nat (hsize a))) in EK.
          inversion HI; inversion GL; inversion HX; subst.
          destruct (match tensor_here W' sz (Z.of_nat (hsize a)) with [] => Ok (Some a) | _ => ptrace d a (tensor_here W' sz (Z.of_nat (hsize a))) end) as [this|] eqn:ET; [|discriminate].
          cbn [bind] in EK. destruct (tensor_keep (ptrace d) W' l (sz + Z.of_nat (hsize a))) as [rest|] eqn:ER; [|discriminate].
          cbn [bind] in EK. inversion EK; subst kept. 
          destruct (IH rest _ H2 H6 H10 ER) as [Gr Cr].
          assert (Blk : forall s, config a s -> remove_sites W' sz s = remove_sites (tensor_here W' sz (Z.of_nat (hsize a))) 0 s).
          { intros s C. apply remove_sites_ext. intros j Hj. rewrite (config_length _ _ C) in Hj.
            rewrite tensor_here_In. rewrite hsize_n_sites. rewrite Z.add_0_l. split; [intros; split; auto|tauto]. }
          assert (Pos : forall s, config a s -> sz + Z.of_nat (length s) = sz + Z.of_nat (hsize a)).
          { intros s C. rewrite (config_length _ _ C), hsize_n_sites. auto. }
          assert (Cor : ptrace_correct a (tensor_here W' sz (Z.of_nat (hsize a))) this \/ 
                        (tensor_here W' sz (Z.of_nat (hsize a)) = [] /\ this = Some a)).
          { destruct (tensor_here W' sz (Z.of_nat (hsize a))) as [|z zs] eqn:EH.
            - right. inversion ET; auto.
            - left. apply H1; auto.
              + intros l0 -> ->. cbn [ptrace] in ET. 
                assert (In z (tensor_here W' sz (Z.of_nat (hsize (Tensor []))))) by (rewrite EH; left; auto).
                apply tensor_here_In in H. simpl in H. lia.
              + rewrite <- EH. apply tensor_here_NoDup; auto. }
          destruct Cor as [Cor|[EH ->]].
          + destruct this as [x|]; simpl in Cor.
            * destruct Cor as (Gx & _ & Cx). split; [constructor; auto|]. intros t. split.
              -- intros C. apply config_Tensor_cons_iff in C. destruct C as (u & v & -> & Cu & Cv).
                 apply Cx in Cu. destruct Cu as (s & Cs & <-).
                 apply Cr in Cv. destruct Cv as (s' & Cs' & <-). exists (s ++ s').
                 split; [constructor; auto|]. rewrite remove_sites_app, Pos, Blk; auto.
              -- intros (s & C & <-). apply config_Tensor_cons_iff in C. destruct C as (u & v & -> & Cu & Cv). rewrite remove_sites_app, Pos, Blk by auto.
                 constructor; [apply Cx; eauto|apply Cr; eauto].
            * split; auto.
              assert (Emp : forall s, config a s -> remove_sites (tensor_here W' sz (Z.of_nat (hsize a))) 0 s = []).
              { intros s C. assert (KK : forall i s, (forall j, 0 <= j < Z.of_nat (length s) -> In (i + j) (tensor_here W' sz (Z.of_nat (hsize a)))) -> 
                   remove_sites (tensor_here W' sz (Z.of_nat (hsize a))) i s = []).
                { clear. intros i s; revert i; induction s as [|x s IH]; intros i H; cbn [remove_sites]; auto.
                  replace (existsb (Z.eqb i) _) with true.
                  - apply IH. intros j Hj. replace (i + 1 + j) with (i + (j + 1)) by lia. apply H. simpl length; lia.
                  - symmetry. apply existsb_In. specialize (H 0). rewrite Z.add_0_r in H. apply H. simpl; lia. }
                apply KK. intros j Hj. rewrite (config_length _ _ C) in Hj. apply Cor. auto. }
              destruct H9 as [s0 C0]. intros t. split.
              -- intros C. apply Cr in C. destruct C as (s' & Cs' & <-). exists (s0 ++ s').
                 split; [constructor; auto|]. rewrite remove_sites_app, Pos, Blk, Emp; auto.
              -- intros (s & C & <-). apply config_Tensor_cons_iff in C. destruct C as (u & v & -> & Cu & Cv). rewrite remove_sites_app, Pos, Blk, Emp by auto.
                 simpl. apply Cr; eauto.
          + split; [constructor; auto|].
            assert (Emp : forall s, config a s -> remove_sites (tensor_here W' sz (Z.of_nat (hsize a))) 0 s = s).
            { intros s C. rewrite EH. apply remove_sites_none. auto. }
            intros t. split.
            * intros C. apply config_Tensor_cons_iff in C. destruct C as (u & v & -> & Cu & Cv).
              apply Cr in Cv. destruct Cv as (s' & Cs' & <-).
              exists (u ++ s'). split; [constructor; auto|]. rewrite remove_sites_app, Pos, Blk, Emp; auto.
            * intros (s & C & <-). apply config_Tensor_cons_iff in C. destruct C as (u & v & -> & Cu & Cv). rewrite remove_sites_app, Pos, Blk, Emp by auto.
              constructor; auto. apply Cr; eauto. }
      destruct (Key l kept 0 H GL HexL EK) as [Gk Ck].
      assert (RS : forall s, remove_sites W' 0 s = remove_sites W 0 s).
      { intros s. apply remove_sites_ext. intros j _. apply HS. }
      destruct kept as [|h0 hs].
      * inversion E; subst r. (* impossible: a site is kept *)
        exfalso. destruct Hex as [s C].
        assert (X : config (Tensor []) (remove_sites W' 0 s)) by (apply Ck; eauto).
        apply config_length in X. pose proof (remove_sites_length W' 0 s) as L. rewrite X in L. simpl in L.
        rewrite (config_length _ _ C) in L.
        destruct (kept_count W' 0 (n_sites (Tensor l)) Hn') as [K1 K2]; [intros; apply EC; auto|]. lia.
      * inversion Gk; subst.
        match type of E with (let? h := ?F in _) = _ => destruct F as [hh|] eqn:EF; [|discriminate] end.
        cbn [bind] in E. inversion E; subst r.
        assert (NE0 : forall l0, h0 = Tensor l0 -> l0 <> []).
        { intros l0 ->. apply good_Tensor in H2. tauto. }
        destruct (fold_hmul_config _ _ _ _ H2 NE0 H3 EF) as (A & B & C).
        simpl. split; auto. split; auto. intros t. rewrite C, Ck. split; intros (s & Cs & <-); exists s; rewrite ?RS; auto.
  - discriminate.
Qed.

(** ** Partial trace is defined for unconstrained homogeneous spaces *)
Lemma ptrace_available d h W : built h -> homogeneous h -> unconstrained h -> finite_space h ->
  (forall ls N c, h <> Custom ls N c) -> NoDup W -> (forall x, In x W -> 0 <= x < Z.of_nat (n_sites h)) ->
  exists r, ptrace d h W = Ok r.
Proof.
  intros Hb Hh Hu Hf Hc Hn Hr.
  destruct (kept_count W 0 (n_sites h) Hn) as [_ K]; [intros; apply Hr; auto|].
  assert (C : ptrace_check (n_sites h) W = true) by (apply ptrace_check_In; auto).
  destruct h as [m fin N [[p id]|]|s2 N [[p id]|]|N|ls N c|l|p]; simpl in Hh, Hu; try contradiction;
    try (exfalso; eapply Hc; reflexivity); cbn [ptrace n_sites] in *; rewrite C; cbn [negb];
    unfold ptrace_size; destruct (Nat.eqb N (length W)) eqn:E; eauto;
    (replace (Nat.ltb N (length W)) with false by (symmetry; apply Nat.ltb_ge; lia)).
  - simpl in Hf. destruct (hpow_available (Fock m fin 1 None) (N - length W)) as [h' E']; auto.
    + inversion Hb; subst; constructor; auto.
    + simpl in Hf. simpl in E'. rewrite Nat.add_0_r in E'. rewrite E'. cbn [bind]. eauto.
  - eexists; reflexivity.
  - eexists; reflexivity.
Qed.

(** ** Local flips *)
Definition flip_val (h : hilbert) (k old : Z) : Z :=
  match h with
  | Fock _ _ _ _ => k + b2z (old <=? k)
  | Spin s2 _ _ =>
      if Nat.eqb s2 1 then - old
      else let new := k * 2 - Z.of_nat s2 in new + 2 * b2z (old <=? new)
  | Qubit _ => - old + 1
  | Custom (Some ls) _ _ => jax_get ls (k + b2z (old <=? jax_get ls k))
  | _ => 0
  end.

Lemma skip_range o k n : 0 <= o < n -> 0 <= k < n - 1 ->
  0 <= k + b2z (o <=? k) < n /\ k + b2z (o <=? k) <> o.
Proof. intros Ho Hk. unfold b2z. destruct (Z.leb_spec o k); lia. Qed.

Lemma skip_onto o w n : 0 <= o < n -> 0 <= w < n -> w <> o ->
  exists k, 0 <= k < n - 1 /\ k + b2z (o <=? k) = w.
Proof.
  intros Ho Hw N. destruct (Z.ltb_spec w o).
  - exists w. unfold b2z. destruct (Z.leb_spec o w); lia.
  - exists (w - 1). unfold b2z. destruct (Z.leb_spec o (w - 1)); lia.
Qed.

Lemma skip_inj o k k' : k + b2z (o <=? k) = k' + b2z (o <=? k') -> k = k'.
Proof. unfold b2z. destruct (Z.leb_spec o k), (Z.leb_spec o k'); lia. Qed.

Lemma increasing_sorted l : increasing l -> StronglySorted Z.lt l.
Proof.
  intros H. apply Sorted_StronglySorted; [intros x y z; lia|].
  induction l as [|x [|y l] IHl]; [constructor|repeat constructor|].
  destruct H as [A B]. constructor; [apply IHl; exact B|constructor; auto].
Qed.

Lemma jax_get_in l i : 0 <= i < Z.of_nat (length l) -> jax_get l i = nth (Z.to_nat i) l 0.
Proof.
  intros H. unfold jax_get, jax_norm. destruct (Z.ltb_spec i 0); [lia|]. f_equal. f_equal. lia.
Qed.

Lemma inc_nth_lt l i j : increasing l -> 0 <= i < j -> j < Z.of_nat (length l) ->
  nth (Z.to_nat i) l 0 < nth (Z.to_nat j) l 0.
Proof.
  intros H Hi Hj. apply increasing_sorted in H. apply StronglySorted_nth; auto; lia.
Qed.

Lemma inc_nth_le l i j : increasing l -> 0 <= i < Z.of_nat (length l) -> 0 <= j < Z.of_nat (length l) ->
  (nth (Z.to_nat i) l 0 <=? nth (Z.to_nat j) l 0) = (i <=? j).
Proof.
  intros H Hi Hj. apply eq_true_iff_eq. rewrite !Z.leb_le.
  destruct (Z.lt_trichotomy i j) as [L|[E|L]].
  - pose proof (inc_nth_lt l i j H). lia.
  - subst; lia.
  - pose proof (inc_nth_lt l j i H). lia.
Qed.

Lemma inc_nth_inj l i j : increasing l -> 0 <= i < Z.of_nat (length l) -> 0 <= j < Z.of_nat (length l) ->
  nth (Z.to_nat i) l 0 = nth (Z.to_nat j) l 0 -> i = j.
Proof.
  intros H Hi Hj E. pose proof (inc_nth_le l i j H Hi Hj). pose proof (inc_nth_le l j i H Hj Hi). lia.
Qed.

Lemma In_nthZ l (x : Z) : In x l -> exists i, 0 <= i < Z.of_nat (length l) /\ nth (Z.to_nat i) l 0 = x.
Proof.
  intros H. apply (In_nth _ _ 0) in H. destruct H as (n & Hn & E). exists (Z.of_nat n).
  rewrite Nat2Z.id. split; auto. lia.
Qed.

Lemma flip_val_spec h old : flippable_leaf h -> local_value h old ->
  (forall k, 0 <= k < n_local_values h - 1 -> local_value h (flip_val h k old) /\ flip_val h k old <> old) /\
  (forall v, local_value h v -> v <> old ->
     exists! k, 0 <= k < n_local_values h - 1 /\ flip_val h k old = v).
Proof.
  intros HL HO. destruct h as [m fin N np|s2 N t|N|[ls|] N c|l|p]; simpl in HL; try contradiction.
  - simpl in HO. destruct HO as [-> HO]. simpl. split.
    + intros k Hk. destruct (skip_range old k (m + 1)); try lia.
    + intros v [_ Hv] Hne. destruct (skip_onto old v (m + 1)) as (k & Hk & E); try lia.
      exists k. split; [auto|]. intros k' [_ E']. apply (skip_inj old). congruence.
  - destruct HO as (o & Ho & ->). unfold flip_val, n_local_values. destruct (Nat.eqb_spec s2 1).
    + subst. split.
      * intros k Hk. split; [|lia]. exists (1 - o). lia.
      * intros v (w & Hw & ->) Hne. exists 0. split; [split; [lia|]; lia|]. intros k' Hk'. lia.
    + assert (LE : forall k, (- Z.of_nat s2 + 2 * o <=? k * 2 - Z.of_nat s2) = (o <=? k)).
      { intros k. apply eq_true_iff_eq. rewrite !Z.leb_le. lia. }
      cbv zeta. split.
      * intros k Hk. rewrite LE. destruct (skip_range o k (Z.of_nat s2 + 1)); try lia. split; [|lia].
        exists (k + b2z (o <=? k)). lia.
      * intros v (w & Hw & ->) Hne. destruct (skip_onto o w (Z.of_nat s2 + 1)) as (k & Hk & E); try lia.
        exists k. split; [split; [auto|rewrite LE; lia]|]. intros k' [_ E'].
        rewrite LE in E'. apply (skip_inj o). lia.
  - simpl in HO. simpl. split.
    + intros k Hk. lia.
    + intros v Hv Hne. exists 0. split; [lia|]. intros k' Hk'. lia.
  - simpl in HO. simpl. destruct (In_nthZ _ _ HO) as (o & Ho & <-).
    assert (V : forall k, 0 <= k < Z.of_nat (length ls) - 1 ->
       jax_get ls (k + b2z (nth (Z.to_nat o) ls 0 <=? jax_get ls k)) = nth (Z.to_nat (k + b2z (o <=? k))) ls 0).
    { intros k Hk. rewrite (jax_get_in ls k) by lia. rewrite inc_nth_le by (auto; lia).
      apply jax_get_in. destruct (skip_range o k (Z.of_nat (length ls))); lia. }
    split.
    + intros k Hk. rewrite V by auto. destruct (skip_range o k (Z.of_nat (length ls))); auto. split.
      * apply nth_In. lia.
      * intros E. apply inc_nth_inj in E; auto.
    + intros v Hv Hne. destruct (In_nthZ _ _ Hv) as (w & Hw & <-).
      destruct (skip_onto o w (Z.of_nat (length ls))) as (k & Hk & E); auto; [congruence|].
      exists k. split; [split; auto; rewrite V by auto; congruence|].
      intros k' [Hk' E']. rewrite V in E' by auto. apply inc_nth_inj in E'; auto.
      * apply (skip_inj o). lia.
      * destruct (skip_range o k' (Z.of_nat (length ls))); lia.
Qed.

Lemma flip_leaf h k st idx j : flippable_leaf h -> jax_norm (length st) idx = j ->
  0 <= j < Z.of_nat (length st) -> 0 <= k < n_local_values h - 1 ->
  flip_state h k st idx = (upd st (Z.to_nat j) (flip_val h k (nth (Z.to_nat j) st 0)), nth (Z.to_nat j) st 0).
Proof.
  intros HL HJ Hj Hk.
  assert (G : jax_get st idx = nth (Z.to_nat j) st 0).
  { unfold jax_get. rewrite HJ. f_equal. f_equal. lia. }
  assert (P : forall v, jax_set st idx v = upd st (Z.to_nat j) v).
  { intros v. unfold jax_set. rewrite HJ. 
    replace ((0 <=? j) && (j <? Z.of_nat (length st))) with true; auto.
    symmetry. apply andb_true_iff. rewrite Z.leb_le, Z.ltb_lt. lia. }
  destruct h as [m fin N np|s2 N t|N|[ls|] N c|l|p]; simpl in HL; try contradiction;
    cbn [flip_state flip_val]; cbv zeta.
  - simpl in Hk. destruct (Z.eqb_spec m 0); [lia|]. rewrite G, P. auto.
  - destruct (Nat.eqb s2 1); rewrite G, P; auto.
  - rewrite G, P; auto.
  - rewrite G, P; auto.
Qed.

Lemma at_site_lt h i g : at_site h i g -> (i < n_sites h)%nat.
Proof. induction 1; cbn [n_sites map list_sum] in *; simpl in *; lia. Qed.

Lemma at_site_homog h i g : homogeneous h -> at_site h i g -> g = h /\ (i < n_sites h)%nat.
Proof. intros Hh A. destruct A; simpl in Hh; try contradiction. auto. Qed.

Fixpoint flip_tensor (fs : hilbert -> list Z -> Z -> list Z * Z) (st : list Z) (idx : Z) (sel : nat)
  (l : list hilbert) (pos : nat) : list Z * Z :=
  match l with
  | [] => (st, jax_get st idx)
  | hi :: l' =>
      let n := hsize hi in
      if Nat.ltb sel (pos + n) then
        let sub := firstn n (skipn pos st) in
        let r := fs hi sub (idx - Z.of_nat pos) in
        (firstn pos st ++ fst r ++ skipn (pos + n) st, snd r)
      else flip_tensor fs st idx sel l' (pos + n)
  end.

Lemma flip_state_Tensor l k st idx :
  flip_state (Tensor l) k st idx =
  flip_tensor (fun h s i => flip_state h k s i) st idx
    (Z.to_nat (Z.max 0 (Z.min idx (Z.of_nat (list_sum (map hsize l)) - 1)))) l 0.
Proof.
  cbn [flip_state]. cbv zeta. generalize (Z.to_nat (Z.max 0 (Z.min idx (Z.of_nat (list_sum (map hsize l)) - 1)))).
  intros sel. generalize 0%nat. induction l as [|a l IH]; intros pos; cbn [flip_tensor]; auto.
  cbv zeta. destruct (Nat.ltb sel (pos + hsize a)); auto.
Qed.

Lemma upd_mid (st : list Z) pos n i v : (i < n)%nat -> (pos + n <= length st)%nat ->
  firstn pos st ++ upd (firstn n (skipn pos st)) i v ++ skipn (pos + n) st = upd st (pos + i) v.
Proof.
  intros Hi HL.
  assert (LP : length (firstn pos st) = pos) by (rewrite firstn_length; lia).
  assert (LB : length (firstn n (skipn pos st)) = n) by (rewrite firstn_length, skipn_length; lia).
  assert (ES : st = firstn pos st ++ firstn n (skipn pos st) ++ skipn (pos + n) st).
  { rewrite <- (firstn_skipn pos st) at 1. f_equal. rewrite <- (firstn_skipn n (skipn pos st)) at 1.
    f_equal. apply skipn_skipn'. }
  replace (upd st (pos + i) v) with
    (upd (firstn pos st ++ firstn n (skipn pos st) ++ skipn (pos + n) st) (length (firstn pos st) + i) v)
    by (rewrite <- ES, LP; auto).
  rewrite upd_app_r, upd_app_l by lia. auto.
Qed.

Lemma nth_mid (st : list Z) pos n i : (i < n)%nat -> (pos + n <= length st)%nat ->
  nth i (firstn n (skipn pos st)) 0 = nth (pos + i) st 0.
Proof.
  intros Hi HL.
  assert (LP : length (firstn pos st) = pos) by (rewrite firstn_length; lia).
  assert (LB : length (firstn n (skipn pos st)) = n) by (rewrite firstn_length, skipn_length; lia).
  transitivity (nth (pos + i) (firstn pos st ++ firstn n (skipn pos st) ++ skipn (pos + n) st) 0).
  - rewrite app_nth2 by lia. rewrite app_nth1 by lia. f_equal. lia.
  - f_equal. symmetry. rewrite <- (firstn_skipn pos st) at 1. f_equal. rewrite <- (firstn_skipn n (skipn pos st)) at 1.
    f_equal. apply skipn_skipn'.
Qed.

Lemma flippable_leaf_homog h : flippable_leaf h -> homogeneous h.
Proof. destruct h; simpl; auto. Qed.

Lemma flip_state_spec h : forall k st i g, flippable h -> length st = n_sites h -> at_site h i g ->
  0 <= k < n_local_values g - 1 ->
  flip_state h k st (Z.of_nat i) = (upd st i (flip_val g k (nth i st 0)), nth i st 0) /\ flippable_leaf g.
Proof.
  assert (LC : forall h, flippable_leaf h -> forall k st i g, length st = n_sites h -> at_site h i g ->
     0 <= k < n_local_values g - 1 ->
     flip_state h k st (Z.of_nat i) = (upd st i (flip_val g k (nth i st 0)), nth i st 0) /\ flippable_leaf g).
  { clear h. intros h HF k st i g L A Hk. destruct (at_site_homog h i g) as [-> Hi]; auto.
    { apply flippable_leaf_homog; auto. }
    split; auto. rewrite (flip_leaf h k st (Z.of_nat i) (Z.of_nat i)); auto.
    - rewrite Nat2Z.id; auto.
    - unfold jax_norm. destruct (Z.ltb_spec (Z.of_nat i) 0); lia.
    - lia. }
  induction h using hilbert_nested_ind; intros k st i g HF L A Hk;
    try (inversion HF; subst; eapply LC; eauto; fail).
  - inversion HF as [? HH|? FF|]; subst; [contradiction|]. rewrite flip_state_Tensor.
    pose proof (at_site_lt _ _ _ A) as Hi. rewrite <- (hsize_n_sites (Tensor l)) in Hi. cbn [hsize] in Hi.
    replace (Z.to_nat (Z.max 0 (Z.min (Z.of_nat i) (Z.of_nat (list_sum (map hsize l)) - 1)))) with i by lia.
    assert (K : forall l pos i', 
       Forall (fun h => forall k st i g, flippable h -> length st = n_sites h -> at_site h i g ->
          0 <= k < n_local_values g - 1 ->
          flip_state h k st (Z.of_nat i) = (upd st i (flip_val g k (nth i st 0)), nth i st 0) /\ flippable_leaf g) l ->
       Forall flippable l -> at_site (Tensor l) i' g -> length st = (pos + list_sum (map n_sites l))%nat ->
       flip_tensor (fun h s i => flip_state h k s i) st (Z.of_nat (pos + i')) (pos + i') l pos =
         (upd st (pos + i') (flip_val g k (nth (pos + i') st 0)), nth (pos + i') st 0) /\ flippable_leaf g).
    { clear - Hk. induction l as [|a l IH]; intros pos i' HI FF A L.
      - inversion A; subst. simpl in *. contradiction.
      - inversion HI as [|? ? HIa HIl]; inversion FF as [|? ? Fa Fl]; subst. cbn [flip_tensor]. cbv zeta.
        cbn [map list_sum fold_right] in L. change (fold_right Nat.add 0%nat (map n_sites l)) with (list_sum (map n_sites l)) in L. rewrite hsize_n_sites.
        inversion A as [? ? HH| ? ? ? ? A'|? ? ? ? A'| |]; subst; [contradiction| |].
        + pose proof (at_site_lt _ _ _ A') as Hlt.
          replace (Nat.ltb (pos + i') (pos + n_sites a)) with true by (symmetry; apply Nat.ltb_lt; lia).
          replace (Z.of_nat (pos + i') - Z.of_nat pos) with (Z.of_nat i') by lia.
          destruct (HIa k (firstn (n_sites a) (skipn pos st)) i' g Fa) as [E FL]; auto.
          { rewrite firstn_length, skipn_length. lia. }
          rewrite E. cbn [fst snd]. split; auto. rewrite upd_mid, nth_mid by lia. auto.
        + replace (Nat.ltb (pos + (n_sites a + i)) (pos + n_sites a)) with false by (symmetry; apply Nat.ltb_ge; lia).
          destruct (IH (pos + n_sites a)%nat i HIl Fl A') as [E FL]; [lia|].
          replace (pos + (n_sites a + i))%nat with (pos + n_sites a + i)%nat by lia. auto. }
    apply (K l 0%nat i); auto.
  - inversion HF as [? HH| |? FL]; subst; [contradiction|].
    pose proof (flippable_leaf_homog _ FL) as Hh. simpl in L.
    assert (X : exists i', (i = i' \/ i = (n_sites h + i')%nat) /\ at_site h i' g).
    { inversion A; subst; [contradiction| |]; eauto. }
    destruct X as (i' & Hi' & A'). destruct (at_site_homog _ _ _ Hh A') as [-> Hlt]. split; auto.
    assert (R1 : flip_state h k st (Z.of_nat i) = (upd st i (flip_val h k (nth i st 0)), nth i st 0)).
    { rewrite (flip_leaf h k st (Z.of_nat i) (Z.of_nat i)); auto; try lia.
      - rewrite Nat2Z.id; auto.
      - unfold jax_norm. destruct (Z.ltb_spec (Z.of_nat i) 0); lia. }
    assert (R2 : (n_sites h <= i)%nat -> flip_state h k st (Z.of_nat i - 2 * Z.of_nat (hsize h)) = (upd st i (flip_val h k (nth i st 0)), nth i st 0)).
    { intros Hge. rewrite hsize_n_sites. rewrite (flip_leaf h k st (Z.of_nat i - 2 * Z.of_nat (n_sites h)) (Z.of_nat i)); auto; try lia.
      - rewrite Nat2Z.id; auto.
      - unfold jax_norm. destruct (Z.ltb_spec (Z.of_nat i - 2 * Z.of_nat (n_sites h)) 0); lia. }
    assert (E : flip_state (Doubled h) k st (Z.of_nat i) = 
        match constraint_fn h with None => flip_state h k st (Z.of_nat i)
        | Some _ => if Z.of_nat i <? Z.of_nat (hsize h) then flip_state h k st (Z.of_nat i)
             else flip_state h k st (Z.of_nat i - 2 * Z.of_nat (hsize h)) end).
    { destruct h; try contradiction; reflexivity. }
    rewrite E. destruct (constraint_fn h); auto.
    destruct (Z.ltb_spec (Z.of_nat i) (Z.of_nat (hsize h))) as [?|Hge]; auto.
    apply R2. rewrite hsize_n_sites in Hge. lia.
Qed.

Theorem flip_state_correct h st i g : flippable h -> length st = n_sites h -> at_site h i g ->
  local_value g (nth i st 0) ->
  (forall k, 0 <= k < n_local_values g - 1 ->
     exists v, flip_state h k st (Z.of_nat i) = (upd st i v, nth i st 0) /\ local_value g v /\ v <> nth i st 0) /\
  (forall v, local_value g v -> v <> nth i st 0 ->
     exists! k, 0 <= k < n_local_values g - 1 /\ fst (flip_state h k st (Z.of_nat i)) = upd st i v).
Proof.
  intros HF L A V. pose proof (at_site_lt _ _ _ A) as Hi. split.
  - intros k Hk. destruct (flip_state_spec h k st i g HF L A Hk) as [E FL].
    destruct (flip_val_spec g _ FL V) as [P _]. specialize (P k Hk). eexists; split; [exact E|]. auto.
  - intros v Hv Hne. assert (FL : flippable_leaf g).
    { clear - HF A. revert HF. induction A; intros HF; auto.
      - inversion HF; subst; simpl in *; auto; contradiction.
      - inversion HF as [? HH|? FF|]; subst; [contradiction|]. inversion FF; auto.
      - inversion HF as [? HH|? FF|]; subst; [contradiction|]. inversion FF; subst. apply IHA. apply flippable_Tensor; auto.
      - inversion HF; subst; [contradiction|]. apply IHA. constructor; auto.
      - inversion HF; subst; [contradiction|]. apply IHA. constructor; auto. }
    destruct (flip_val_spec g _ FL V) as [_ P]. destruct (P v Hv Hne) as (k & [Hk E] & U).
    assert (UI : forall a b, upd st i a = upd st i b -> a = b).
    { intros a b EE. apply (f_equal (fun l => nth i l 0)) in EE. rewrite !nth_upd_same in EE by lia. auto. }
    exists k. split.
    + split; auto. destruct (flip_state_spec h k st i g HF L A Hk) as [E' _]. rewrite E'. simpl. congruence.
    + intros k' [Hk' E']. apply U. split; auto.
      destruct (flip_state_spec h k' st i g HF L A Hk') as [E2 _]. rewrite E2 in E'. simpl in E'. auto.
Qed.

Lemma draw_spec u m k : (0 <= u)%Q -> (u < 1)%Q -> 0 < m ->
  (0 <= draw u m < m) /\
  (draw u m = k <-> (inject_Z k <= u * inject_Z m)%Q /\ (u * inject_Z m < inject_Z (k + 1))%Q).
Proof.
  intros H0 H1 Hm. unfold draw.
  assert (Hm' : (0 < inject_Z m)%Q) by (change 0%Q with (inject_Z 0); rewrite <- Zlt_Qlt; auto).
  assert (F : forall k, Qfloor (u * inject_Z m) = k <-> (inject_Z k <= u * inject_Z m)%Q /\ (u * inject_Z m < inject_Z (k + 1))%Q).
  { intros k0. split.
    - intros <-. split; [apply Qfloor_le|apply Qlt_floor].
    - intros [A B]. pose proof (Qfloor_le (u * inject_Z m)) as C. pose proof (Qlt_floor (u * inject_Z m)) as D.
      assert (X : (inject_Z k0 < inject_Z (Qfloor (u * inject_Z m) + 1))%Q) by (eapply Qle_lt_trans; eauto).
      assert (Y : (inject_Z (Qfloor (u * inject_Z m)) < inject_Z (k0 + 1))%Q) by (eapply Qle_lt_trans; eauto).
      rewrite <- Zlt_Qlt in X, Y. lia. }
  split; [|apply F].
  pose proof (Qfloor_le (u * inject_Z m)) as C. pose proof (Qlt_floor (u * inject_Z m)) as D.
  assert (P0 : (0 <= u * inject_Z m)%Q) by (apply Qmult_le_0_compat; [auto|apply Qlt_le_weak; auto]).
  assert (P1 : (u * inject_Z m < inject_Z m)%Q).
  { rewrite <- (Qmult_1_l (inject_Z m)) at 2. apply Qmult_lt_compat_r; auto. }
  assert (X : (inject_Z 0 < inject_Z (Qfloor (u * inject_Z m) + 1))%Q) by (eapply Qle_lt_trans; [exact P0|auto]).
  assert (Y : (inject_Z (Qfloor (u * inject_Z m)) < inject_Z m)%Q) by (eapply Qle_lt_trans; eauto).
  rewrite <- Zlt_Qlt in X, Y. lia.
Qed.

(** ** Random constrained states *)
Section Fill.
Variables (step lo cap : Z) (full : Z -> bool) (N : nat).
Hypothesis step_pos : 0 < step.
Hypothesis full_spec : forall c, 0 <= c <= cap -> (full (lo + step * c) = true <-> c = cap).

Definition fill_inv (sites : list nat) (out : list Z) (done : Z) : Prop :=
  NoDup sites /\ length out = N /\ zsum out = lo * Z.of_nat N + step * done /\
  (forall j, (j < N)%nat -> exists c, 0 <= c <= cap /\ nth j out 0 = lo + step * c /\ (In j sites <-> c < cap)) /\
  (forall j, In j sites -> (j < N)%nat).

Lemma zsum_const (l : list Z) v : (forall j, (j < length l)%nat -> nth j l 0 = v) -> zsum l = v * Z.of_nat (length l).
Proof.
  induction l as [|x l IH]; intros H; [unfold zsum; simpl; lia|].
  change (zsum (x :: l)) with (x + zsum l). rewrite IH.
  - specialize (H 0%nat). simpl in H. simpl length. rewrite H by lia. lia.
  - intros j Hj. apply (H (S j)). simpl; lia.
Qed.

Lemma drop_nth (s : nat) (l : list nat) : NoDup l -> (s < length l)%nat ->
  NoDup (firstn s l ++ skipn (S s) l) /\
  (forall x, In x (firstn s l ++ skipn (S s) l) <-> In x l /\ x <> nth s l 0%nat).
Proof.
  intros Hn Hs.
  assert (E : l = firstn s l ++ nth s l 0%nat :: skipn (S s) l).
  { rewrite <- (firstn_skipn s l) at 1. f_equal. clear Hn. revert s Hs.
    induction l as [|a l IH]; intros s Hs; simpl in *; [lia|]. destruct s; simpl; auto. apply IH; lia. }
  rewrite E in Hn. pose proof (NoDup_remove_1 _ _ _ Hn) as H1. pose proof (NoDup_remove_2 _ _ _ Hn) as H2.
  split; auto. intros x. rewrite E at 3. rewrite !in_app_iff in *. simpl. split.
  - intros H. split; [tauto|]. intros ->. tauto.
  - intros [[H|[H|H]] Hx]; auto. congruence.
Qed.

Lemma fill_inv_step sites out done s : fill_inv sites out done -> (s < length sites)%nat ->
  let j := nth s sites O in
  let out' := upd out j (nth j out 0 + step) in
  fill_inv (if full (nth j out' 0) then firstn s sites ++ skipn (S s) sites else sites) out' (done + 1).
Proof.
  intros (Hn & L & Hs & Hc & Hi) Hlt j out'.
  assert (Hj : In j sites) by (apply nth_In; auto).
  pose proof (Hi j Hj) as HjN. destruct (Hc j HjN) as (c & Hcr & Ec & Ei). apply Ei in Hj as Hlt'.
  assert (En : nth j out' 0 = lo + step * (c + 1)).
  { unfold out'. rewrite nth_upd_same by lia. rewrite Ec. lia. }
  assert (Sum : zsum out' = lo * Z.of_nat N + step * (done + 1)).
  { unfold out'. rewrite zsum_upd by lia. rewrite Hs. lia. }
  assert (Lo : length out' = N) by (unfold out'; rewrite upd_length; auto).
  assert (Oth : forall i, i <> j -> nth i out' 0 = nth i out 0).
  { intros i Hij. unfold out'. rewrite nth_upd_other; auto. }
  rewrite En. destruct (drop_nth s sites Hn Hlt) as [D1 D2]. fold j in D2.
  destruct (full (lo + step * (c + 1))) eqn:EF.
  - apply full_spec in EF; [|lia]. split; [auto|]. split; [auto|]. split; [auto|]. split.
    + intros i HiN. destruct (Nat.eq_dec i j) as [->|Hij].
      * exists (c + 1). split; [lia|]. split; [auto|]. rewrite D2. split; [tauto|lia].
      * destruct (Hc i HiN) as (c' & A & B & C). exists c'. rewrite Oth by auto. split; auto. split; auto.
        rewrite D2. tauto.
    + intros i Hin. apply D2 in Hin. apply Hi; tauto.
  - assert (c + 1 <> cap).
    { intros E. rewrite (proj2 (full_spec (c + 1) ltac:(lia)) E) in EF. discriminate. }
    split; [auto|]. split; [auto|]. split; [auto|]. split; auto.
    intros i HiN. destruct (Nat.eq_dec i j) as [->|Hij].
    + exists (c + 1). split; [lia|]. split; [auto|]. split; [lia|auto].
    + destruct (Hc i HiN) as (c' & A & B & C). exists c'. rewrite Oth by auto. auto.
Qed.

Lemma fill_loop_spec n : forall r sites out done, fill_inv sites out done ->
  done + Z.of_nat n <= cap * Z.of_nat N ->
  exists out', fill_loop step full n r sites out = Ok out' /\
    length out' = N /\ zsum out' = lo * Z.of_nat N + step * (done + Z.of_nat n) /\
    (forall x, In x out' -> exists c, 0 <= c <= cap /\ x = lo + step * c).
Proof.
  induction n as [|n IH]; intros r sites out done I Hb.
  - exists out. cbn [fill_loop]. destruct I as (Hn & L & Hs & Hc & Hi). split; auto. split; auto.
    split; [lia|]. intros x Hx. apply (In_nth _ _ 0) in Hx. destruct Hx as (j & Hj & <-).
    destruct (Hc j) as (c & A & B & _); [lia|]. eauto.
  - cbn [fill_loop]. destruct sites as [|s0 sites0] eqn:ES.
    + exfalso. destruct I as (Hn & L & Hs & Hc & Hi).
      assert (Z : zsum out = (lo + step * cap) * Z.of_nat (length out)).
      { apply zsum_const. intros j Hj. destruct (Hc j) as (c & A & B & C); [lia|].
        rewrite B. assert (~ c < cap) by (intros X; apply C in X; destruct X). f_equal. f_equal. lia. }
      rewrite L in Z. nia.
    + rewrite <- ES in *. cbv zeta.
      assert (Hs : (r n mod length sites < length sites)%nat).
      { apply Nat.mod_upper_bound. rewrite ES. discriminate. }
      pose proof (fill_inv_step _ _ _ _ I Hs) as I'. cbv zeta in I'.
      destruct (IH r _ _ _ I') as (o & E & A & B & C); [lia|]. exists o. split; [exact E|].
      split; auto. split; [rewrite B; lia|auto].
Qed.

(** every admissible target can be produced *)
Lemma fill_loop_onto n : forall sites out done tgt, fill_inv sites out done ->
  length tgt = N -> zsum tgt = lo * Z.of_nat N + step * (done + Z.of_nat n) ->
  (forall j, (j < N)%nat -> exists c, c <= cap /\ nth j tgt 0 = lo + step * c /\ nth j out 0 <= nth j tgt 0) ->
  exists r, fill_loop step full n r sites out = Ok tgt.
Proof.
  induction n as [|n IH]; intros sites out done tgt I Lt St Ht.
  - exists (fun _ => O). cbn [fill_loop]. f_equal. destruct I as (Hn & L & Hs & Hc & Hi).
    assert (G : forall a b : list Z, length a = length b -> (forall j, (j < length a)%nat -> nth j a 0 <= nth j b 0) ->
        zsum a <= zsum b /\ (zsum a = zsum b -> a = b)).
    { clear. induction a as [|x a IHa]; destruct b as [|y b]; simpl; intros HL H; try lia; auto; [split; [unfold zsum; simpl; lia|auto]|].
      change (zsum (x :: a)) with (x + zsum a). change (zsum (y :: b)) with (y + zsum b).
      pose proof (H 0%nat) as H0. simpl in H0. destruct (IHa b) as [G1 G2]; [lia| |].
      - intros j Hj. apply (H (S j)). lia.
      - specialize (H0 ltac:(lia)). split; [lia|]. intros E. assert (x = y) by lia. subst. f_equal. apply G2. lia. }
    destruct (G out tgt) as [_ G2]; [lia| |].
    + intros j Hj. destruct (Ht j) as (c & _ & _ & X); [lia|]. auto.
    + apply G2. rewrite Hs, St. f_equal. f_equal. lia.
  - (* some site is below its target *)
    assert (X : exists j, (j < N)%nat /\ nth j out 0 < nth j tgt 0).
    { destruct I as (Hn & L & Hs & Hc & Hi).
      assert (G : forall a b : list Z, length a = length b -> zsum a < zsum b -> exists j, (j < length a)%nat /\ nth j a 0 < nth j b 0).
      { clear. induction a as [|x a IHa]; destruct b as [|y b]; simpl; intros HL H; try discriminate; try (exfalso; lia).
        change (zsum (x :: a)) with (x + zsum a) in H. change (zsum (y :: b)) with (y + zsum b) in H.
        destruct (Z.ltb_spec x y).
        - exists 0%nat. simpl. split; [lia|auto].
        - destruct (IHa b) as (j & Hj & E); [lia|lia|]. exists (S j). simpl. split; [lia|auto]. }
      destruct (G out tgt) as (j & Hj & E); [lia| |exists j; split; [lia|auto]].
      rewrite Hs, St. nia. }
    destruct X as (j & HjN & Hlt).
    assert (Hin : In j sites).
    { destruct I as (Hn & L & Hs & Hc & Hi). destruct (Hc j HjN) as (c & A & B & C).
      destruct (Ht j HjN) as (c' & A' & B' & _). apply C. rewrite B, B' in Hlt. nia. }
    apply (In_nth _ _ O) in Hin. destruct Hin as (s & Hs & Es).
    pose proof (fill_inv_step _ _ _ _ I Hs) as I'. cbv zeta in I'. rewrite Es in I'.
    destruct (IH _ _ _ tgt I' Lt) as [r Er]; [lia| |].
    + intros i HiN. destruct (Ht i HiN) as (c & A & B & C). exists c. split; auto. split; auto.
      destruct I as (Hn & L & Hsm & Hc & Hi).
      destruct (Nat.eq_dec i j) as [->|Hij].
      * rewrite nth_upd_same by lia. destruct (Hc j HjN) as (c' & A' & B' & C'). rewrite B' in *. rewrite B in *. assert (c' < c) by nia. assert (step * (c' + 1) <= step * c) by nia. lia.
      * rewrite nth_upd_other by auto. auto.
    + exists (fun k => if Nat.eqb k n then s else r k). cbn [fill_loop].
      destruct sites as [|s0 sites0] eqn:ES; [simpl in Hs; lia|]. rewrite <- ES in *. cbv zeta.
      rewrite Nat.eqb_refl. rewrite Nat.mod_small by auto. rewrite Es.
      rewrite <- Er.
      assert (Ext : forall m r1 r2 st o, (forall k, (k < m)%nat -> r1 k = r2 k) ->
          fill_loop step full m r1 st o = fill_loop step full m r2 st o).
      { clear. induction m; intros r1 r2 st o H; cbn [fill_loop]; auto. destruct st as [|a st]; auto. cbv zeta.
        rewrite (H m) by lia. apply IHm. intros; apply H; lia. }
      apply Ext. intros k Hk. destruct (Nat.eqb_spec k n); auto. lia.
Qed.

Lemma fill_inv_init : 0 < cap -> fill_inv (seq 0 N) (repeat lo N) 0.
Proof.
  intros Hcap. split; [apply seq_NoDup|]. split; [apply repeat_length|].
  split; [rewrite zsum_repeat; lia|]. split.
  - intros j Hj. exists 0. split; [lia|]. split; [|rewrite in_seq; lia].
    rewrite (nth_indep _ 0 lo) by (rewrite repeat_length; auto). rewrite nth_repeat. lia.
  - intros j Hj. apply in_seq in Hj. lia.
Qed.

Lemma fill_from_start n r : 0 <= cap -> Z.of_nat n <= cap * Z.of_nat N ->
  exists out', fill_loop step full n r (seq 0 N) (repeat lo N) = Ok out' /\
    length out' = N /\ zsum out' = lo * Z.of_nat N + step * Z.of_nat n /\
    (forall x, In x out' -> exists c, 0 <= c <= cap /\ x = lo + step * c).
Proof.
  intros Hcap Hb. destruct (Z.eq_dec cap 0) as [E|].
  - assert (n = O) by nia. subst n. exists (repeat lo N). cbn [fill_loop]. split; auto.
    split; [apply repeat_length|]. split; [rewrite zsum_repeat; lia|].
    intros x Hx. apply repeat_spec in Hx. exists 0. lia.
  - destruct (fill_loop_spec n r _ _ 0 (fill_inv_init ltac:(lia))) as (o & A & B & C & D); [lia|].
    exists o. rewrite Z.add_0_l in C. auto.
Qed.

Lemma fill_onto_start n tgt : 0 <= cap -> length tgt = N ->
  zsum tgt = lo * Z.of_nat N + step * Z.of_nat n ->
  (forall x, In x tgt -> exists c, 0 <= c <= cap /\ x = lo + step * c) ->
  exists r, fill_loop step full n r (seq 0 N) (repeat lo N) = Ok tgt.
Proof.
  intros Hcap L Hs Hv. destruct (Z.eq_dec cap 0) as [E|].
  - assert (tgt = repeat lo N).
    { clear Hs. subst N. rename tgt into t. clear - Hv E. induction t; simpl; auto. f_equal.
      - destruct (Hv a) as (c & A & B); [left; auto|]. assert (c = 0) by lia. subst. lia.
      - apply IHt. intros; apply Hv; right; auto. }
    subst tgt. rewrite zsum_repeat in Hs. assert (n = O) by nia. subst. exists (fun _ => O). auto.
  - apply (fill_loop_onto n _ _ 0 tgt (fill_inv_init ltac:(lia))); auto.
    intros j Hj. destruct (Hv (nth j tgt 0)) as (c & A & B); [apply nth_In; lia|].
    exists c. split; [lia|]. split; auto.
    rewrite (nth_indep _ 0 lo) by (rewrite repeat_length; auto). rewrite nth_repeat. nia.
Qed.
End Fill.

Lemma mk_Fock_constrained n_max N p id h : mk_Fock n_max N (Some p) id = Ok h -> (0 < N)%nat ->
  exists m, h = Fock m true N (Some (p, id)) /\ 0 < p <= m * Z.of_nat N /\ 0 < m.
Proof.
  unfold mk_Fock. intros E HN. destruct (Z.ltb_spec 0 p); [|discriminate].
  destruct n_max as [m|]; cbn [bind] in E.
  - destruct (Z.ltb_spec (m * Z.of_nat N) p); [discriminate|]. cbn [bind] in E.
    destruct (max_ind <? m + 1); [discriminate|]. inversion E; subst. exists m. split; auto. nia.
  - destruct (max_ind <? p + 1); [discriminate|]. inversion E; subst. exists p. split; auto. nia.
Qed.

Lemma fock_random_ok n_max N p id h : mk_Fock n_max N (Some p) id = Ok h -> (0 < N)%nat ->
  exists m, h = Fock m true N (Some (p, id)) /\
   (forall r, exists s, fock_random_constrained m N p r = Ok s /\ config h s) /\
   (forall s, config h s -> exists r, fock_random_constrained m N p r = Ok s).
Proof.
  intros E HN. destruct (mk_Fock_constrained _ _ _ _ _ E HN) as (m & -> & Hp & Hm). exists m. split; auto.
  assert (FS : forall c, 0 <= c <= m -> ((0 + 1 * c =? m) = true <-> c = m)).
  { intros c Hc. rewrite Z.eqb_eq. lia. }
  split.
  - intros r. destruct (fill_from_start 1 0 m (fun x => x =? m) N ltac:(lia) FS (Z.to_nat p) r) as (o & A & B & C & D); [lia|lia|].
    exists o. split; auto. apply config_Fock_iff. split; auto. split.
    + intros x Hx. destruct (D x Hx) as (c & Hc & ->). lia.
    + intros p' id' EE. inversion EE; subst. lia.
  - intros s C. apply config_Fock_iff in C. destruct C as (L & V & Sm). specialize (Sm _ _ eq_refl).
    apply (fill_onto_start 1 0 m (fun x => x =? m) N ltac:(lia) FS (Z.to_nat p) s); auto; [lia|lia|].
    intros x Hx. exists x. specialize (V x Hx). lia.
Qed.

Lemma py_round_half s2N sz m : (2 * sz == inject_Z m)%Q -> (s2N + m) mod 2 = 0 ->
  py_round (inject_Z s2N / 2 + sz) = (s2N + m) / 2.
Proof.
  intros E P. apply py_round_int. 
  assert (X : (inject_Z (s2N + m) == 2 * inject_Z ((s2N + m) / 2))%Q).
  { change 2%Q with (inject_Z 2). rewrite <- inject_Z_mult. apply inject_Z_injective.
    pose proof (Z.div_mod (s2N + m) 2). lia. }
  rewrite inject_Z_plus, <- E in X.
  apply (Qmult_inj_l _ _ 2); [discriminate|]. rewrite <- X. field.
Qed.

Lemma check_total_sz_facts sz s2 N m u : (2 * sz == inject_Z m)%Q -> check_total_sz (Some sz) s2 N = Ok u ->
  Z.abs m <= Z.of_nat N * Z.of_nat s2 /\ (Z.of_nat s2 * Z.of_nat N + m) mod 2 = 0.
Proof.
  intros E. unfold check_total_sz. rewrite (py_round_int _ _ E).
  destruct (Z.ltb_spec (Z.of_nat N * Z.of_nat s2) (Z.abs m)); [discriminate|].
  intros C. split; [lia|].
  destruct (Z.eqb_spec ((Z.of_nat s2 + 1) mod 2) 0).
  - destruct (Z.eqb_spec ((Z.of_nat N + m) mod 2) 0) as [E2|]; [|discriminate].
    assert (Hs : exists q, Z.of_nat s2 = 2 * q + 1).
    { exists ((Z.of_nat s2 + 1) / 2 - 1). pose proof (Z.div_mod (Z.of_nat s2 + 1) 2). lia. }
    destruct Hs as [q ->]. replace ((2 * q + 1) * Z.of_nat N + m) with ((Z.of_nat N + m) + (q * Z.of_nat N) * 2) by ring.
    rewrite Z.mod_add by lia. auto.
  - destruct (Z.eqb_spec (m mod 2) 0) as [E2|]; [|discriminate].
    assert (Hs : exists q, Z.of_nat s2 = 2 * q).
    { exists (Z.of_nat s2 / 2). pose proof (Z.div_mod (Z.of_nat s2) 2).
      assert ((Z.of_nat s2 + 1) mod 2 = 1) by (pose proof (Z.mod_pos_bound (Z.of_nat s2 + 1) 2); lia).
      rewrite Z.add_mod in H1 by lia. pose proof (Z.mod_pos_bound (Z.of_nat s2) 2 ltac:(lia)).
      assert (Z.of_nat s2 mod 2 = 0 \/ Z.of_nat s2 mod 2 = 1) as [X|X] by lia; [lia|].
      rewrite X in H1. discriminate. }
    destruct Hs as [q ->]. replace (2 * q * Z.of_nat N + m) with (m + (q * Z.of_nat N) * 2) by ring.
    rewrite Z.mod_add by lia. auto.
Qed.

Lemma mk_Spin_constrained s2 N sz id h : mk_Spin s2 N (Some sz) id = Ok h ->
  h = Spin s2 N (Some (sz, id)) /\ exists u, check_total_sz (Some sz) s2 N = Ok u.
Proof.
  unfold mk_Spin. destruct (check_total_sz (Some sz) s2 N) eqn:E; [|discriminate].
  cbn [bind]. intros X; inversion X; subst. split; auto. eauto.
Qed.

Lemma spin_random_ok s2 N sz id h m : mk_Spin s2 N (Some sz) id = Ok h -> (2 * sz == inject_Z m)%Q ->
   (forall r, exists s, spin_random_constrained s2 N sz r = Ok s /\ config h s) /\
   (forall s, config h s -> exists r, spin_random_constrained s2 N sz r = Ok s).
Proof.
  intros E Em. destruct (mk_Spin_constrained _ _ _ _ _ E) as [-> [u C]].
  destruct (check_total_sz_facts _ _ _ _ _ Em C) as [Hb Hp].
  assert (FS : forall c, 0 <= c <= Z.of_nat s2 -> ((Z.of_nat s2 - 1 <? - Z.of_nat s2 + 2 * c) = true <-> c = Z.of_nat s2)).
  { intros c Hc. rewrite Z.ltb_lt. lia. }
  assert (R : py_round (inject_Z (Z.of_nat s2 * Z.of_nat N) / 2 + sz) = (Z.of_nat s2 * Z.of_nat N + m) / 2).
  { apply py_round_half; auto. }
  pose proof (Z.div_mod (Z.of_nat s2 * Z.of_nat N + m) 2 ltac:(lia)) as DM.
  unfold spin_random_constrained. rewrite R. split.
  - intros r. destruct (fill_from_start 2 (- Z.of_nat s2) (Z.of_nat s2) (fun x => Z.of_nat s2 - 1 <? x) N ltac:(lia) FS
        (Z.to_nat ((Z.of_nat s2 * Z.of_nat N + m) / 2)) r) as (o & A & B & D & F); [lia|lia|].
    exists o. split; auto. apply config_Spin_iff. split; auto. split; auto.
    intros sz' id' EE. inversion EE; subst. rewrite Em. apply inject_Z_injective. lia.
  - intros s Cs. apply config_Spin_iff in Cs. destruct Cs as (L & V & Sm). specialize (Sm _ _ eq_refl).
    rewrite Em in Sm. apply (proj1 (inject_Z_injective _ _)) in Sm.
    apply (fill_onto_start 2 (- Z.of_nat s2) (Z.of_nat s2) (fun x => Z.of_nat s2 - 1 <? x) N ltac:(lia) FS); auto; lia.
Qed.

Lemma py_int_int q m : (q == inject_Z m)%Q -> py_int q = m.
Proof.
  unfold Qeq, py_int. simpl. intros H. rewrite Z.mul_1_r in H. rewrite H. apply Z.quot_mul. lia.
Qed.

Lemma pm1_perm (s : list Z) : (forall x, In x s -> x = 1 \/ x = -1) ->
  Permutation (repeat 1 (Z.to_nat ((Z.of_nat (length s) + zsum s) / 2)) ++
               repeat (-1) (Z.to_nat ((Z.of_nat (length s) - zsum s) / 2))) s /\
  - Z.of_nat (length s) <= zsum s <= Z.of_nat (length s) /\ (Z.of_nat (length s) + zsum s) mod 2 = 0.
Proof.
  induction s as [|x s IH]; intros H; [unfold zsum; simpl; split; [constructor|]; split; [lia|reflexivity]|].
  destruct IH as (P & B & M); [intros; apply H; right; auto|].
  change (zsum (x :: s)) with (x + zsum s). simpl length.
  set (L := Z.of_nat (length s)) in *. replace (Z.of_nat (S (length s))) with (L + 1) by lia.
  pose proof (Z.div_mod (L + zsum s) 2 ltac:(lia)) as D.
  destruct (H x (or_introl eq_refl)) as [->| ->].
  - replace (L + 1 + (1 + zsum s)) with (L + zsum s + 1 * 2) by lia. replace (L + 1 - (1 + zsum s)) with (L - zsum s) by lia.
    rewrite Z.div_add, Z.mod_add by lia. split; [|split; [lia|auto]].
    replace (Z.to_nat ((L + zsum s) / 2 + 1)) with (S (Z.to_nat ((L + zsum s) / 2))) by lia.
    simpl. constructor. auto.
  - replace (L + 1 + (-1 + zsum s)) with (L + zsum s) by lia. replace (L + 1 - (-1 + zsum s)) with (L - zsum s + 1 * 2) by lia.
    rewrite Z.div_add by lia. split; [|split; [lia|auto]].
    assert ((L - zsum s) / 2 >= 0) by (apply Z.le_ge, Z.div_pos; lia).
    replace (Z.to_nat ((L - zsum s) / 2 + 1)) with (S (Z.to_nat ((L - zsum s) / 2))) by lia.
    simpl. apply Permutation_sym, Permutation_cons_app, Permutation_sym. auto.
Qed.

Lemma spin_half_random_ok N sz id h m : mk_Spin 1 N (Some sz) id = Ok h -> (2 * sz == inject_Z m)%Q ->
  forall s, config h s <-> Permutation (spin_half_unshuffled N sz) s.
Proof.
  intros E Em s. destruct (mk_Spin_constrained _ _ _ _ _ E) as [-> [u C]].
  destruct (check_total_sz_facts _ _ _ _ _ Em C) as [Hb Hp]. unfold spin_half_unshuffled.
  rewrite (py_int_int (sz * 2) m) by (rewrite Qmult_comm; auto). rewrite config_Spin_iff.
  assert (V : forall x, (exists k, 0 <= k <= Z.of_nat 1 /\ x = - Z.of_nat 1 + 2 * k) <-> (x = 1 \/ x = -1)).
  { intros x. split; [intros (k & Hk & ->); lia|]. intros [->| ->]; [exists 1|exists 0]; lia. }
  pose proof (Z.div_mod (Z.of_nat 1 * Z.of_nat N + m) 2 ltac:(lia)) as D.
  replace (Z.of_nat 1 * Z.of_nat N + m) with (Z.of_nat N + m) in * by lia.
  assert (D2 : 2 * ((Z.of_nat N - m) / 2) = Z.of_nat N - m).
  { replace (Z.of_nat N - m) with ((Z.of_nat N + m) + (- m) * 2) by lia. rewrite Z.div_add by lia. lia. }
  split.
  - intros (L & F & Sm). specialize (Sm _ _ eq_refl). rewrite Em in Sm. apply (proj1 (inject_Z_injective _ _)) in Sm.
    destruct (pm1_perm s) as (P & _ & _); [intros; apply V; auto|]. rewrite L, Sm in P. auto.
  - intros P. split; [|split].
    + apply Permutation_length in P. rewrite app_length, !repeat_length in P. lia.
    + intros x Hx. apply V. apply (Permutation_in _ (Permutation_sym P)) in Hx. apply in_app_iff in Hx.
      destruct Hx as [Hx|Hx]; apply repeat_spec in Hx; auto.
    + intros sz' id' EE. inversion EE; subst. rewrite Em. apply inject_Z_injective.
      rewrite <- (zsum_perm _ _ P), zsum_app, !zsum_repeat. lia.
Qed.

Lemma random_unconstrained_ok h ks : homogeneous h -> unconstrained h -> finite_space h ->
  length ks = n_sites h -> Forall (fun k => 0 <= k < n_local_values h) ks ->
  config h (random_unconstrained h ks).
Proof.
  intros H1 H2 H3 L F. apply config_unconstrained; auto.
  destruct h as [m fin N [[p id]|]|s2 N [[p id]|]|N|[ls|] N [[f id]|]|l|p]; simpl in *; try contradiction;
    rewrite ?map_length; split; auto; rewrite Forall_forall in *.
  - intros x Hx. apply F in Hx. destruct fin; [split; auto; lia|contradiction].
  - intros x Hx. apply in_map_iff in Hx. destruct Hx as (k & <- & Hk). apply F in Hk. exists k. lia.
  - intros x Hx. apply F in Hx. simpl. lia.
  - intros x Hx. apply in_map_iff in Hx. destruct Hx as (k & <- & Hk). apply F in Hk. apply nth_In. lia.
Qed.

Local Arguments Z.mul : simpl never.
Lemma random_unconstrained_onto h s : homogeneous h -> unconstrained h -> finite_space h -> config h s ->
  exists ks, length ks = n_sites h /\ Forall (fun k => 0 <= k < n_local_values h) ks /\ random_unconstrained h ks = s.
Proof.
  intros H1 H2 H3 C. apply config_unconstrained in C; auto. destruct C as [L F].
  rewrite <- L. clear L. induction F as [|x s Hx F IH].
  - exists []. destruct h as [| | |[|]| |]; simpl; auto.
  - destruct IH as (ks & A & B & C).
    assert (K : exists k, 0 <= k < n_local_values h /\ random_unconstrained h (k :: ks) = x :: random_unconstrained h ks).
    { destruct h as [m fin N [[p id]|]|s2 N [[p id]|]|N|[ls|] N [[f id]|]|l|p]; simpl in *; try contradiction.
      - exists x. split; auto. lia.
      - destruct Hx as (k & Hk & ->). exists k. split; [lia|]. f_equal. lia.
      - exists x. split; auto. lia.
      - destruct (In_nthZ _ _ Hx) as (k & Hk & <-). exists k. auto. }
    destruct K as (k & Hk & E). exists (k :: ks). simpl length. rewrite A, E, C. auto.
Qed.

(** ** Statements in the form used by the property file *)
Lemma hpow_concat h n h' : built h -> finite_space h -> hpow h n = Ok h' ->
  forall s, config h' s <-> exists parts, length parts = n /\ Forall (config h) parts /\ s = concat parts.
Proof. exact (hpow_config h n h'). Qed.

Lemma good_ne h : good h -> forall l, h = Tensor l -> l <> [].
Proof. intros G l ->. apply good_Tensor in G. tauto. Qed.

Lemma hmul_concat depth h1 h2 h : built h1 -> built h2 -> all_finite h1 -> all_finite h2 ->
  hmul depth h1 h2 = Ok h ->
  forall s, config h s <-> exists a b, s = a ++ b /\ config h1 a /\ config h2 b.
Proof.
  intros A B C D E s. assert (G1 : good h1) by (split; auto). assert (G2 : good h2) by (split; auto).
  destruct (hmul_config depth h1 h2 h G1 G2 (good_ne _ G1) E) as (_ & _ & X). apply X.
Qed.

Lemma equal_args_witness : exists h1 h2, mk_Fock (Some 2) 2 (Some 2) 1 = Ok h1 /\ mk_Fock (Some 2) 2 (Some 2) 2 = Ok h2 /\
    (forall s, config h1 s <-> config h2 s) /\ hilbert_eqb h1 h2 = false.
Proof.
  exists (Fock 2 true 2 (Some (2, 1%nat))), (Fock 2 true 2 (Some (2, 2%nat))).
  split; [reflexivity|]. split; [reflexivity|]. split; [|reflexivity].
  intros s. rewrite !config_Fock_iff. split; intros (A & B & C); split; auto; split; auto;
    intros p id E; inversion E; subst; eapply C; reflexivity.
Qed.

Lemma ptrace_removes depth h sites r : built h -> all_finite h -> (exists s, config h s) ->
  NoDup sites -> ptrace depth h sites = Ok r ->
  match r with
  | Some h' => forall t, config h' t <-> exists s, config h s /\ remove_sites sites 0 s = t
  | None => forall i, 0 <= i < Z.of_nat (n_sites h) -> In i sites
  end.
Proof.
  intros A B C D E. assert (G : good h) by (split; auto).
  pose proof (ptrace_spec depth h sites r G (good_ne _ G) C D E) as X.
  destruct r; simpl in X; [apply X|auto].
Qed.

Lemma ptrace_dup_witness : ptrace 30 (Qubit 3) [0; 0] = Ok (Some (Qubit 1)) /\
  (exists s, config (Qubit 3) s /\ ~ config (Qubit 1) (remove_sites [0; 0] 0 s)).
Proof.
  split; [reflexivity|]. exists [0; 0; 0]. split.
  - apply config_Qubit_iff. split; auto. simpl; intuition.
  - rewrite config_Qubit_iff. simpl. intros [H _]. discriminate.
Qed.

Lemma flip_unsorted_witness : let h := Custom (Some [2; 0; 1]) 1 None in
  config h [0] /\ 0 <= 0 < n_local_values h - 1 /\ flip_state h 0 [0] 0 = ([0], 0).
Proof.
  simpl. split; [|split; [lia|reflexivity]]. apply config_Custom_iff. split; auto. split; [simpl; intuition|discriminate].
Qed.

Lemma flip_doubled_tensor_witness : let h := Doubled (Tensor [Spin 1 1 None; Fock 1 true 1 None]) in
  config h [1; 0; 1; 0] /\ flip_state h 0 [1; 0; 1; 0] 3 = ([-1; 0; 1; 0], 1).
Proof.
  split; [|reflexivity].
  assert (C : config (Tensor [Spin 1 1 None; Fock 1 true 1 None]) [1; 0]).
  { apply (config_Tensor_cons _ _ [1] [0]); [|apply (config_Tensor_cons _ _ [0] []); [|constructor]].
    - apply config_Spin_iff. split; auto. split; [|discriminate]. intros x [<-|[]]. exists 1. lia.
    - apply config_Fock_iff. split; auto. split; [|discriminate]. simpl; intuition lia. }
  apply (config_Doubled _ [1; 0] [1; 0]); auto.
Qed.
