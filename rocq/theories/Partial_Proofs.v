From Coq Require Import List Arith ZArith Bool Permutation Lia.
From Verif Require Import Base Partial_Model Partial_Spec.
Import ListNotations.
Open Scope Z_scope.

Lemma veqb_refl v : veqb v v = true.
Proof. destruct v; cbn; [apply Z.eqb_refl|apply Z.eqb_refl|apply Nat.eqb_refl]. Qed.
Lemma veqb_sym a b : veqb a b = veqb b a.
Proof. destruct a, b; cbn; auto using Z.eqb_sym, Nat.eqb_sym. Qed.
Lemma veqb_trans a b c : veqb a b = true -> veqb b c = true -> veqb a c = true.
Proof.
  destruct a, b, c; cbn; rewrite ?Z.eqb_eq, ?Nat.eqb_eq; congruence.
Qed.
Lemma leqb_refl l : leqb l l = true.
Proof. induction l; cbn [leqb]; [reflexivity|]. now rewrite veqb_refl. Qed.
Lemma leqb_sym a : forall b, leqb a b = leqb b a.
Proof. induction a; destruct b; cbn [leqb]; auto. now rewrite veqb_sym, IHa. Qed.
Lemma leqb_trans a : forall b c, leqb a b = true -> leqb b c = true -> leqb a c = true.
Proof.
  induction a; destruct b, c; cbn [leqb]; try congruence. rewrite !andb_true_iff. intros [H1 H2] [H3 H4].
  split; eauto using veqb_trans.
Qed.
Lemma leqb_app a a' b : leqb a a' = true -> leqb (a ++ b) (a' ++ b) = true.
Proof.
  revert a'. induction a; destruct a'; cbn [leqb app]; try congruence; [intros; apply leqb_refl|].
  rewrite !andb_true_iff. intros [H1 H2]. auto.
Qed.

Lemma dget_in k d v : dget k d = Some v -> In (k, v) d.
Proof.
  induction d as [|[k' v'] d IH]; cbn [dget]; [discriminate|]. destruct (Nat.eqb_spec k k') as [->|]; intros E.
  - injection E as ->. now left.
  - right. auto.
Qed.
Lemma dget_none k d : dget k d = None <-> ~ In k (map fst d).
Proof.
  induction d as [|[k' v'] d IH]; cbn [dget map fst In]; [tauto|]. destruct (Nat.eqb_spec k k') as [->|N].
  - split; [discriminate|]. intros H. exfalso. auto.
  - rewrite IH. split; [intros H [E|E]; auto|tauto].
Qed.
Lemma dget_nodup k v d : NoDup (map fst d) -> In (k, v) d -> dget k d = Some v.
Proof.
  induction d as [|[k' v'] d IH]; cbn [dget map fst]; [easy|]. intros ND [E|E].
  - injection E as -> ->. now rewrite Nat.eqb_refl.
  - inversion_clear ND. destruct (Nat.eqb_spec k k') as [->|N]; [|auto].
    exfalso. apply H. now apply (in_map fst) in E.
Qed.

Lemma deqb_same a b : NoDup (map fst a) -> NoDup (map fst b) -> (deqb a b = true <-> same_dict a b).
Proof.
  intros NA NB. unfold deqb. rewrite andb_true_iff, Nat.eqb_eq, forallb_forall. split.
  - intros [L F] k.
    assert (I : incl (map fst a) (map fst b)).
    { intros x Hx. apply in_map_iff in Hx. destruct Hx as ([x' v] & <- & Hx). specialize (F _ Hx). cbn [fst snd] in *.
      destruct (dget x' b) eqn:E; [|discriminate]. apply dget_in in E. now apply (in_map fst) in E. }
    assert (J : incl (map fst b) (map fst a)).
    { apply NoDup_length_incl; [exact NA|rewrite !map_length; lia|exact I]. }
    destruct (dget k a) as [v|] eqn:E.
    + pose proof (dget_in _ _ _ E) as Hx. specialize (F _ Hx). cbn [fst snd] in F. now destruct (dget k b).
    + apply dget_none in E. destruct (dget k b) as [v|] eqn:E2; [|exact Logic.I].
      apply E, J. apply dget_in in E2. now apply (in_map fst) in E2.
  - intros S. split.
    + rewrite <- (map_length fst a), <- (map_length fst b). apply Permutation_length, NoDup_Permutation; auto.
      intros k. specialize (S k). destruct (dget k a) eqn:E1, (dget k b) eqn:E2; try easy.
      * apply dget_in, (in_map fst) in E1. apply dget_in, (in_map fst) in E2. cbn [fst] in *. tauto.
      * apply dget_none in E1. apply dget_none in E2. tauto.
    + intros [k v] Hx. specialize (S k). rewrite (dget_nodup k v a NA Hx) in S. cbn [fst snd]. destruct (dget k b); easy.
Qed.
Lemma same_keys a b : NoDup (map fst a) -> NoDup (map fst b) -> same_dict a b -> Permutation (map fst a) (map fst b).
Proof.
  intros NA NB S. apply NoDup_Permutation; auto.
  intros k. specialize (S k). destruct (dget k a) eqn:E1, (dget k b) eqn:E2; try easy.
  * apply dget_in, (in_map fst) in E1. apply dget_in, (in_map fst) in E2. cbn [fst] in *. tauto.
  * apply dget_none in E1. apply dget_none in E2. tauto.
Qed.

Lemma equal_iff a b : proper a -> proper b -> (equal a b <->
  f_code (p_func a) = f_code (p_func b) /\ leqb (p_args a) (p_args b) = true /\ same_dict (p_kw a) (p_kw b)).
Proof.
  intros [CA NA] [CB NB]. unfold equal, hp_eq. rewrite <- (deqb_same _ _ NA NB).
  destruct (f_code (p_func a)) as [c|]; [|congruence]. destruct (f_code (p_func b)) as [c'|]; [|congruence].
  split.
  - intros E. injection E as E. rewrite !andb_true_iff, Nat.eqb_eq in E. destruct E as [[-> E1] E2]. auto.
  - intros (E & E1 & E2). injection E as ->. now rewrite E1, E2, Nat.eqb_refl.
Qed.

Lemma equal_equivalence :
  (forall a, proper a -> equal a a) /\
  (forall a b, proper a -> proper b -> equal a b -> equal b a) /\
  (forall a b c, proper a -> proper b -> proper c -> equal a b -> equal b c -> equal a c).
Proof.
  split; [|split].
  - intros a P. apply equal_iff; auto. repeat split; [apply leqb_refl|]. intros k. destruct (dget k (p_kw a)); [apply veqb_refl|exact I].
  - intros a b PA PB. rewrite !equal_iff by auto. intros (E & E1 & E2). repeat split; [auto|now rewrite leqb_sym|].
    intros k. specialize (E2 k). destruct (dget k (p_kw a)), (dget k (p_kw b)); auto. now rewrite veqb_sym.
  - intros a b c PA PB PC. rewrite !equal_iff by auto. intros (E & E1 & E2) (F & F1 & F2).
    repeat split; [congruence|eauto using leqb_trans|]. intros k. specialize (E2 k). specialize (F2 k).
    destruct (dget k (p_kw a)), (dget k (p_kw b)), (dget k (p_kw c)); try easy. eauto using veqb_trans.
Qed.

Lemma hash_main hv hcode htuple hitem hset a b : hash_rules hv hset -> proper a -> proper b -> equal a b ->
  hp_hash hv hcode htuple hitem hset a = hp_hash hv hcode htuple hitem hset b.
Proof.
  intros [HV HS] PA PB E. pose proof E as E0. apply (equal_iff a b PA PB) in E. destruct E as (EC & EL & ED).
  destruct PA as [CA NA], PB as [CB NB]. unfold hp_hash. rewrite <- EC.
  destruct (f_code (p_func a)) as [c|]; [|reflexivity]. do 2 f_equal.
  assert (L : map hv (p_args a) = map hv (p_args b)).
  { revert EL. generalize (p_args a) (p_args b). induction l as [|x l IHl]; intros [|y l0]; cbn [leqb map]; try discriminate; auto.
    rewrite andb_true_iff. intros [H1 H2]. rewrite (HV _ _ H1). f_equal. auto. }
  assert (S : hset (map (fun e => hitem (fst e) (hv (snd e))) (p_kw a)) = hset (map (fun e => hitem (fst e) (hv (snd e))) (p_kw b))).
  { apply HS. set (g := fun d k => hitem k (match dget k d with Some v => hv v | None => 0 end)).
    assert (R : forall d, NoDup (map fst d) -> map (fun e => hitem (fst e) (hv (snd e))) d = map (g d) (map fst d)).
    { intros d ND. rewrite map_map. apply map_ext_in. intros [k v] Hx. unfold g. cbn [fst snd]. now rewrite (dget_nodup k v d ND Hx). }
    rewrite (R _ NA), (R _ NB).
    transitivity (map (g (p_kw b)) (map fst (p_kw a))).
    - apply Permutation_refl'. apply map_ext. intros k. unfold g. specialize (ED k).
      destruct (dget k (p_kw a)), (dget k (p_kw b)); try easy. now rewrite (HV _ _ ED).
    - apply Permutation_map, same_keys; auto. }
  now rewrite L, S.
Qed.

Lemma dget_app k a b : dget k (a ++ b) = match dget k a with Some v => Some v | None => dget k b end.
Proof. induction a as [|[k' v] a IH]; cbn [app dget]; [reflexivity|]. now destruct (Nat.eqb k k'). Qed.
Lemma dget_filter k kw a : dget k kw = None ->
  dget k (filter (fun e : nat * value => match dget (fst e) kw with None => true | Some _ => false end) a) = dget k a.
Proof.
  intros N. induction a as [|[k' v] a IH]; cbn [filter dget]; [reflexivity|]. cbn [fst].
  destruct (Nat.eqb_spec k k') as [<-|D].
  - rewrite N. cbn [dget]. now rewrite Nat.eqb_refl.
  - destruct (dget k' kw); [exact IH|]. cbn [dget]. destruct (Nat.eqb_spec k k'); [congruence|exact IH].
Qed.
Lemma dupdate_same a b kw : same_dict a b -> same_dict (dupdate a kw) (dupdate b kw).
Proof.
  intros S k. unfold dupdate. rewrite !dget_app. destruct (dget k kw) eqn:E; [apply veqb_refl|].
  rewrite !dget_filter by exact E. apply S.
Qed.

Lemma same_main result (run_code : option nat -> list value -> list value -> dict -> result) a b :
  respects run_code -> proper a -> proper b -> equal a b -> f_captured (p_func a) = f_captured (p_func b) ->
  same_function run_code a b.
Proof.
  intros R PA PB E EC args kw. apply (equal_iff a b PA PB) in E. destruct E as (E & EL & ED).
  unfold hp_call. rewrite E, EC. apply R; [now apply leqb_app|now apply dupdate_same].
Qed.

Lemma lookup_some c k f : lookup c k = Some f -> exists k', In (k', f) c /\ equal k' k.
Proof.
  induction c as [|[k' f'] c IH]; cbn [lookup]; [discriminate|]. unfold is_eq. destruct (hp_eq k' k) as [[|]|] eqn:E.
  - intros H. injection H as <-. exists k'. split; [now left|exact E].
  - intros H. destruct (IH H) as (k2 & I & E2). exists k2. split; [now right|exact E2].
  - intros H. destruct (IH H) as (k2 & I & E2). exists k2. split; [now right|exact E2].
Qed.

Lemma jit_main result (run_code : option nat -> list value -> list value -> dict -> result) ks :
  respects run_code -> Forall proper ks -> consistent ks ->
  forall l c, (forall k f, In (k, f) c -> f = k /\ In k ks) -> (forall k args kw, In (k, args, kw) l -> In k ks) ->
  jit_calls result run_code c l = map (fun x => hp_call result run_code (fst (fst x)) (snd (fst x)) (snd x)) l.
Proof.
  intros R P CO. rewrite Forall_forall in P. induction l as [|[[k args] kw] l IH]; intros c HC HL; [reflexivity|].
  cbn [jit_calls map fst snd]. assert (Hk : In k ks) by (apply (HL k args kw); now left).
  unfold jit_call. destruct (lookup c k) as [f|] eqn:E.
  - destruct (lookup_some c k f E) as (k' & Hin & Eq). destruct (HC k' f Hin) as [-> Hk'].
    rewrite IH by (auto; intros; eapply HL; right; eassumption). f_equal.
    apply (same_main result run_code k' k R (P _ Hk') (P _ Hk) Eq). now apply CO.
  - rewrite IH; [reflexivity| |intros; eapply HL; right; eassumption].
    intros k2 f2 Hin. apply in_app_or in Hin. destruct Hin as [Hin|[Hin|[]]]; [auto|]. now injection Hin as <- <-.
Qed.

Lemma jit_closed result (run_code : option nat -> list value -> list value -> dict -> result) l :
  respects run_code -> (forall k args kw, In (k, args, kw) l -> proper k /\ captures_nothing k) ->
  jit_calls result run_code [] l = map (fun x => hp_call result run_code (fst (fst x)) (snd (fst x)) (snd x)) l.
Proof.
  intros R P. apply (jit_main result run_code (map (fun x => fst (fst x)) l) R).
  - apply Forall_forall. intros k Hk. apply in_map_iff in Hk. destruct Hk as ([[k' a] kw] & <- & Hk). apply (P _ _ _ Hk).
  - intros a b Ha Hb _. apply in_map_iff in Ha. apply in_map_iff in Hb.
    destruct Ha as ([[a' x] y] & <- & Ha), Hb as ([[b' x'] y'] & <- & Hb). cbn [fst].
    destruct (P _ _ _ Ha) as [_ Ea], (P _ _ _ Hb) as [_ Eb]. unfold captures_nothing in *. congruence.
  - intros k f [].
  - intros k a kw Hk. apply (in_map (fun x => fst (fst x))) in Hk. exact Hk.
Qed.

Lemma library_main m m' :
  (equal (state_init_fun m) (state_init_fun m') <-> m = m') /\ (equal (state_apply_fun m) (state_apply_fun m') <-> m = m') /\
  (equal (state_diagonal_fun m) (state_diagonal_fun m') <-> m = m') /\
  ~ equal (state_init_fun m) (state_apply_fun m') /\
  Forall (fun f => proper f /\ captures_nothing f) [state_init_fun m; state_apply_fun m; state_diagonal_fun m].
Proof.
  assert (E : forall c, equal (HPartial (PyFun (Some c) []) [VObj m] []) (HPartial (PyFun (Some c) []) [VObj m'] []) <-> m = m').
  { intros c. unfold equal, hp_eq. cbn. rewrite Nat.eqb_refl. destruct (Nat.eqb_spec m m') as [->|]; cbn; split; congruence. }
  repeat split; try apply E; try (intros H; now apply E).
  - unfold equal, hp_eq. cbn. congruence.
  - repeat constructor; cbn; congruence.
Qed.

Lemma log_pdf_main log_amp p f args :
  hp_call Z (run_log_pdf log_amp) (sampler_log_pdf p f) args [] = p * log_amp f args.
Proof. reflexivity. Qed.
Lemma log_pdf_equal p p' f : equal (sampler_log_pdf p f) (sampler_log_pdf p' f).
Proof. unfold equal, hp_eq. cbn. now rewrite Nat.eqb_refl. Qed.

Lemma log_pdf_stale log_amp p p' f args :
  jit_calls Z (run_log_pdf log_amp) [] [(sampler_log_pdf p f, args, []); (sampler_log_pdf p' f, args, [])]
  = [p * log_amp f args; p * log_amp f args].
Proof.
  pose proof (log_pdf_equal p p' f) as E. unfold equal in E.
  cbn [jit_calls]. unfold jit_call. cbn [lookup app jit_calls]. unfold is_eq. rewrite E. reflexivity.
Qed.

Definition halve (c : option nat) (cap args : list value) (kw : dict) : value :=
  match args with VInt z :: _ => VInt (z / 2) | VFloat z :: _ => VFloat z | _ => VInt 0 end.
Lemma numbers_refuted : exists a b run_code, proper a /\ proper b /\ captures_nothing a /\ captures_nothing b /\
  equal a b /\ hp_call value run_code a [] [] <> hp_call value run_code b [] [].
Proof.
  exists (HPartial (PyFun (Some 7%nat) []) [VInt 2] []), (HPartial (PyFun (Some 7%nat) []) [VFloat 2] []), halve.
  repeat split; try (cbn; congruence); constructor.
Qed.

Lemma no_code a b : f_code (p_func a) = None -> hp_eq a b = Err AttributeError /\
  forall hv hcode htuple hitem hset, hp_hash hv hcode htuple hitem hset a = Err AttributeError.
Proof. intros E. unfold hp_eq, hp_hash. rewrite E. split; reflexivity. Qed.

Lemma log_pdf_refuted log_amp f args p p' : p <> p' -> log_amp f args <> 0 ->
  equal (sampler_log_pdf p f) (sampler_log_pdf p' f) /\
  hp_call Z (run_log_pdf log_amp) (sampler_log_pdf p f) args [] = p * log_amp f args /\
  hp_call Z (run_log_pdf log_amp) (sampler_log_pdf p f) args [] <> hp_call Z (run_log_pdf log_amp) (sampler_log_pdf p' f) args [].
Proof.
  intros N Z0. split; [apply log_pdf_equal|split; [reflexivity|]]. rewrite !log_pdf_main. nia.
Qed.
