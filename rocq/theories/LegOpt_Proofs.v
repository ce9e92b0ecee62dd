(** * Proofs about the numpy optimizers: what one update and a history of updates do *)
From Coq Require Import List Arith ZArith Bool Reals Lia Lra.
From Verif Require Import Base LegOpt_Model LegOpt_Spec.
Import ListNotations.
Open Scope R_scope.
Open Scope nat_scope.

Lemma map2_length f : forall a b, length a = length b -> length (map2 f a b) = length a.
Proof. induction a; destruct b; cbn; intros; try discriminate; auto. Qed.
Lemma map2_entry f : forall a b k, length a = length b -> k < length a ->
  entry (map2 f a b) k = f (entry a k) (entry b k).
Proof.
  unfold entry. induction a; destruct b; cbn; intros k H HK; try discriminate; try lia.
  destruct k; cbn; [reflexivity|]. apply IHa; lia.
Qed.
Lemma map_entry f : forall a k, k < length a -> entry (map f a) k = f (entry a k).
Proof. unfold entry. induction a; cbn; intros k H; [lia|]. destruct k; cbn; [reflexivity|]. apply IHa; lia. Qed.
Lemma repeat_entry n k : entry (repeat (0, 0)%R n) k = (0, 0)%R.
Proof. unfold entry. revert k. induction n; destruct k; cbn; auto. Qed.
Lemma vals_ext (a b : list num) : length a = length b -> (forall k, k < length a -> entry a k = entry b k) -> a = b.
Proof. intros HL H. apply (nth_ext _ _ (0, 0)%R (0, 0)%R HL). exact H. Qed.

Lemma bop_eq f a b : size a = size b -> bop f a b = Ok (Arr (join (a_dt a) (a_dt b)) (map2 f (a_vals a) (a_vals b))).
Proof. intros H. unfold bop. rewrite (proj2 (Nat.eqb_eq _ _) H). reflexivity. Qed.
Lemma join_le a b c : rank a <= rank c -> rank b <= rank c -> rank (join a b) <= rank c.
Proof. unfold join. destruct (rank a <=? rank b); auto. Qed.
Lemma rank_join_l a b : rank b <= rank a -> join a b = a.
Proof. destruct a, b; cbn; intros; try reflexivity; lia. Qed.
Lemma rank_inj a b : rank a = rank b -> a = b.
Proof. destruct a, b; cbn; intros; try reflexivity; lia. Qed.
Lemma iop_eq f a b : size a = size b -> rank (a_dt b) <= rank (a_dt a) ->
  iop f a b = Ok (Arr (a_dt a) (map2 f (a_vals a) (a_vals b))).
Proof.
  intros H HR. unfold iop. rewrite (rank_join_l _ _ HR), Nat.leb_refl. cbn [negb].
  rewrite (bop_eq _ _ _ H), (rank_join_l _ _ HR). cbn [bind]. unfold size in *. cbn [a_vals].
  rewrite (map2_length _ _ _ H), Nat.eqb_refl. reflexivity.
Qed.

(** Sizes of everything that is formed. *)
Lemma size_scale r a : size (scale r a) = size a.
Proof. unfold size, scale, floats. cbn. apply map_length. Qed.
Lemma size_reals f a : size (reals f a) = size a.
Proof. unfold size, reals. cbn. apply map_length. Qed.
Lemma size_map2 d f a b : size a = size b -> size (Arr d (map2 f (a_vals a) (a_vals b))) = size a.
Proof. intros H. unfold size in *. cbn. apply map2_length. exact H. Qed.
Lemma size_map2' d f a b n : length a = n -> length b = n -> size (Arr d (map2 f a b)) = n.
Proof. intros H H'. unfold size. cbn. rewrite map2_length; congruence. Qed.

(** ** One coordinate *)
Definition cs := (num * num)%type.
Definition bias (b1 : R) (t : nat) : R := (1 - b1 ^ S t)%R.
Definition stepA (o : opt) (a b g : num) : num :=
  match o with
  | Sgd _ _ _ _ => a
  | Momentum _ beta _ _ => nadd (nscale beta a) (nscale (1 - beta) g)
  | AdaGrad _ _ _ => nadd a (mag2 g, 0%R)
  | RmsProp _ beta _ _ => nadd (nscale beta a) (nscale (1 - beta) (mag2 g, 0%R))
  | AdaDelta rho _ _ _ => nadd (nscale rho a) (nscale (1 - rho) (mag2 g, 0%R))
  | AmsGrad _ b1 _ _ _ => nadd (nscale b1 a) (nscale (1 - b1) g)
  | AdaMax _ b1 _ _ _ _ => nadd (nscale b1 a) (nscale (1 - b1) g)
  end.
(** what is subtracted, given the coordinates before the update *)
Definition stepD (o : opt) (t : nat) (a b g p : num) : num :=
  let a' := stepA o a b g in
  match o with
  | Sgd lr l2 decay _ => nscale (lr * decay ^ S t) (nadd g (nscale l2 p))
  | Momentum l2 _ eta _ => nscale eta (nadd a' (nscale l2 p))
  | AdaGrad eta eps _ => nover (nscale eta g) (sqrt (fst a' + eps), 0%R)
  | RmsProp eta _ eps _ => nover (nscale eta g) (sqrt (fst a' + eps), 0%R)
  | AdaDelta _ eps _ _ => nover (ntimes g (sqrt (fst b + eps), 0%R)) (sqrt (fst a' + eps), 0%R)
  | AmsGrad eta _ b2 eps _ =>
    nover (nscale eta a') (sqrt (fst (nmax b (nadd (nscale b2 b) (nscale (1 - b2) (mag2 g, 0%R)))) + eps), 0%R)
  | AdaMax alpha b1 b2 eps _ _ =>
    nover (nscale (alpha / bias b1 t) a') (Rmax (fst (nmax (mag g, 0%R) (nscale b2 b))) eps, 0%R)
  end.
Definition stepB (o : opt) (t : nat) (a b g p : num) : num :=
  match o with
  | Sgd _ _ _ _ | Momentum _ _ _ _ | AdaGrad _ _ _ | RmsProp _ _ _ _ => b
  | AdaDelta rho _ _ _ => nadd (nscale rho b) (nscale (1 - rho) (mag2 (stepD o t a b g p), 0%R))
  | AmsGrad _ _ b2 _ _ => nmax b (nadd (nscale b2 b) (nscale (1 - b2) (mag2 g, 0%R)))
  | AdaMax _ _ b2 eps _ _ => (Rmax (fst (nmax (mag g, 0%R) (nscale b2 b))) eps, 0%R)
  end.

(** ** The optimizer after [t] updates *)
Definition at_time (o : opt) (t : nat) (A B : arr) : opt :=
  match o with
  | Sgd lr l2 decay _ => Sgd lr l2 decay (lr * decay ^ t)%R
  | Momentum l2 beta eta _ => Momentum l2 beta eta (Some A)
  | AdaGrad eta eps _ => AdaGrad eta eps (Some A)
  | RmsProp eta beta eps _ => RmsProp eta beta eps (Some A)
  | AdaDelta rho eps l2 _ => AdaDelta rho eps l2 (Some (A, B))
  | AmsGrad eta b1 b2 eps _ => AmsGrad eta b1 b2 eps (Some (A, B))
  | AdaMax alpha b1 b2 eps _ _ => AdaMax alpha b1 b2 eps (Some (A, B)) t
  end.
Definition blank (o : opt) : opt :=
  match o with
  | Sgd lr l2 decay _ => Sgd lr l2 decay lr
  | Momentum l2 beta eta _ => Momentum l2 beta eta None
  | AdaGrad eta eps _ => AdaGrad eta eps None
  | RmsProp eta beta eps _ => RmsProp eta beta eps None
  | AdaDelta rho eps l2 _ => AdaDelta rho eps l2 None
  | AmsGrad eta b1 b2 eps _ => AmsGrad eta b1 b2 eps None
  | AdaMax alpha b1 b2 eps _ _ => AdaMax alpha b1 b2 eps None 0
  end.
Definition real_a (o : opt) : bool := match o with AdaGrad _ _ _ | RmsProp _ _ _ _ | AdaDelta _ _ _ _ => true | _ => false end.
Definition rep (o0 : opt) (d : dtype) (n t : nat) (A B : arr) (o : opt) : Prop :=
  size A = n /\ size B = n /\ 1 <= rank (a_dt A) <= rank d /\ (real_a o0 = true -> a_dt A = DReal) /\ a_dt B = DReal /\
  (o = at_time o0 t A B \/
   t = 0 /\ o = blank o0 /\ a_vals A = repeat (0, 0)%R n /\ a_vals B = repeat (0, 0)%R n).
Definition biased (o : opt) : Prop := match o with AdaMax _ b1 _ _ _ _ => (0 <= b1 < 1)%R | _ => True end.

Lemma bias_pos b1 t : (0 <= b1 < 1)%R -> (0 < bias b1 t)%R.
Proof.
  intros H. unfold bias. enough (b1 ^ S t < 1)%R by lra.
  cbn [pow]. assert (H1 : (b1 ^ t <= 1)%R).
  { rewrite <- (pow1 t). apply pow_incr. lra. }
  assert (H0 : (0 <= b1 ^ t)%R) by (apply pow_le; lra). nra.
Qed.

Ltac sizes := repeat rewrite ?size_scale, ?size_reals, ?size_map2'; auto;
  unfold size in *; cbn [a_vals scale floats reals np_abs np_abs2 sqrt_eps zeros]; rewrite ?map_length, ?repeat_length; auto.
Ltac bopr := match goal with
  | |- context [bop ?f ?a ?b] => rewrite (bop_eq f a b) by (unfold np_abs, np_abs2, sqrt_eps; sizes)
  end; cbn [andthen].
Lemma rank_max1 d : 1 <= rank d -> join DReal d = d.
Proof. destruct d; cbn; intros; try reflexivity; lia. Qed.

Definition zeros_of (o : opt) (d : dtype) : dtype := match o with Momentum _ _ _ _ => d | _ => DReal end.
Lemma rep_start o0 d n t A B o g p :
  rep o0 d n t A B o -> a_dt p = d -> size p = n -> 1 <= rank d ->
  exists A' B', a_vals A' = a_vals A /\ a_vals B' = a_vals B /\ rep o0 d n t A' B' (at_time o0 t A' B') /\
    update o g p = update (at_time o0 t A' B') g p.
Proof.
  intros (SA & SB & RA & QA & DB & H) HD HS H1.
  destruct H as [H|(HT & H & VA & VB)].
  - exists A, B. repeat split; auto; try apply RA; subst; auto.
  - exists (zeros n (zeros_of o0 d)), (zeros n DReal).
    split; [symmetry; exact VA|]. split; [symmetry; exact VB|]. split.
    + repeat split; try (unfold size; cbn [zeros a_vals]; apply repeat_length).
      * destruct o0; cbn; auto.
      * destruct o0; cbn; auto.
      * destruct o0; cbn; intros; try reflexivity; discriminate.
      * left. reflexivity.
    + subst t o d. destruct o0; cbn [blank at_time update or_zeros or_zeros2 zeros_of]; rewrite ?HS; try reflexivity.
      cbn [pow]. rewrite Rmult_1_r. reflexivity.
Qed.

Lemma entry_map2_ f a b k n : length a = n -> length b = n -> k < n -> entry (map2 f a b) k = f (entry a k) (entry b k).
Proof. intros. apply map2_entry; congruence. Qed.
Lemma entry_map_ f a k n : length a = n -> k < n -> entry (map f a) k = f (entry a k).
Proof. intros. apply map_entry; congruence. Qed.

Ltac lens := repeat (rewrite ?map2_length, ?map_length; auto; try congruence).
Ltac ents := repeat first
  [ rewrite map_entry by (lens; lia) | rewrite map2_entry by (lens; lia) ].

Lemma step_main o0 d n t A B o g p :
  rep o0 d n t A B o -> a_dt p = d -> size p = n -> 1 <= rank d -> fits p g -> biased o0 ->
  exists A' B' o' P', update o g p = (o', Arr d P', Ok (Arr d P')) /\ rep o0 d n (S t) A' B' o' /\ length P' = n /\
    forall k, k < n ->
      let a := entry (a_vals A) k in let b := entry (a_vals B) k in
      let y := entry (a_vals g) k in let x := entry (a_vals p) k in
      entry (a_vals A') k = stepA o0 a b y /\ entry (a_vals B') k = stepB o0 t a b y x /\
      entry P' k = nsub x (stepD o0 t a b y x).
Proof.
  intros HR HD HS H1 (FS & FD) HB.
  destruct (rep_start _ _ _ _ _ _ _ g p HR HD HS H1) as (A1 & B1 & VA & VB & HR1 & EU).
  rewrite EU. clear EU.
  assert (HG : rank (a_dt g) <= rank d).
  { destruct (a_dt g); cbn; try lia. rewrite <- HD, FD by reflexivity. cbn. lia. }
  destruct HR1 as (SA & SB & RA & QA & DB & _). clear HR.
  destruct A1 as [da va], B1 as [db vb], p as [dp vp], g as [dg vg].
  unfold size in *. cbn [a_vals a_dt] in *. subst dp db.
  rewrite <- VA, <- VB. clear A B o VA VB.
  assert (LG : length vg = n) by congruence.
  destruct o0; cbn [at_time update or_zeros or_zeros2 real_a biased] in *.
  - (* Sgd *)
    rewrite bop_eq by (unfold size; cbn; rewrite map_length; congruence). cbn [andthen].
    unfold subtract. rewrite iop_eq.
    2:{ unfold size. cbn. lens. }
    2:{ cbn [a_dt scale floats]. repeat apply join_le; auto. }
    cbn [andthen a_dt a_vals scale floats].
    exists (Arr da va), (Arr DReal vb). do 2 eexists. split; [reflexivity|]. split.
    { repeat split; auto; try apply RA. left. cbn [at_time]. f_equal. cbn [pow]. ring. }
    split; [lens|]. intros k HK. cbn [stepA stepB stepD a_vals]. repeat split.
    ents. do 2 f_equal. cbn [pow]. ring.
  - (* Momentum *)
    rewrite bop_eq by (unfold size; cbn; lens). cbn [andthen].
    rewrite bop_eq by (unfold size; cbn; lens). cbn [andthen].
    unfold subtract. rewrite iop_eq.
    2:{ unfold size. cbn. lens. }
    2:{ cbn [a_dt scale floats]. repeat apply join_le; auto; apply RA. }
    cbn [andthen a_dt a_vals scale floats].
    eexists _, (Arr DReal vb). do 2 eexists. split; [reflexivity|]. split.
    { split; [|split; [|split; [|split; [|split; [|left; cbn [at_time]; reflexivity]]]]]; auto; try discriminate.
      - unfold size. cbn. lens.
      - cbn [a_dt]. split; [|repeat apply join_le; auto; apply RA].
        destruct da, dg; cbn; lia. }
    split; [lens|]. intros k HK. cbn [stepA stepB stepD a_vals]. repeat split; ents; reflexivity.
  - (* AdaGrad *)
    specialize (QA eq_refl). subst da.
    rewrite iop_eq by (try (unfold size; cbn; lens); cbn; lia). cbn [andthen].
    rewrite bop_eq by (unfold size; cbn; lens). cbn [andthen].
    unfold subtract. rewrite iop_eq.
    2:{ unfold size. cbn. lens. }
    2:{ cbn [a_dt scale floats sqrt_eps reals]. repeat apply join_le; auto; apply RA. }
    cbn [andthen a_dt a_vals scale floats np_abs2 reals sqrt_eps].
    eexists _, (Arr DReal vb). do 2 eexists. split; [reflexivity|]. split.
    { split; [|split; [|split; [|split; [|split; [|left; cbn [at_time]; reflexivity]]]]]; auto.
      unfold size. cbn. lens. }
    split; [lens|]. intros k HK. cbn [stepA stepB stepD a_vals]. repeat split; ents; reflexivity.
  - (* RmsProp *)
    specialize (QA eq_refl). subst da.
    rewrite bop_eq by (unfold size; cbn; lens). cbn [andthen].
    rewrite bop_eq by (unfold size; cbn; lens). cbn [andthen].
    unfold subtract. rewrite iop_eq.
    2:{ unfold size. cbn. lens. }
    2:{ cbn [a_dt scale floats sqrt_eps reals]. repeat apply join_le; auto; apply RA. }
    cbn [andthen a_dt a_vals scale floats np_abs2 reals sqrt_eps].
    eexists _, (Arr DReal vb). do 2 eexists. split; [reflexivity|]. split.
    { split; [|split; [|split; [|split; [|split; [|left; cbn [at_time]; reflexivity]]]]]; auto.
      unfold size. cbn. lens. }
    split; [lens|]. intros k HK. cbn [stepA stepB stepD a_vals]. repeat split; ents; reflexivity.
  - (* AdaDelta *)
    specialize (QA eq_refl). subst da.
    rewrite bop_eq by (unfold size; cbn; lens). cbn [andthen].
    rewrite bop_eq by (unfold size; cbn; lens). cbn [andthen].
    rewrite iop_eq.
    2:{ unfold size. cbn. lens. }
    2:{ cbn [a_dt scale floats sqrt_eps reals]. destruct dg; cbn; lia. }
    cbn [andthen]. rewrite iop_eq.
    2:{ unfold size. cbn. lens. }
    2:{ cbn [a_dt scale floats sqrt_eps reals]. repeat apply join_le; auto; apply RA. }
    cbn [andthen]. rewrite bop_eq by (unfold size; cbn; lens).
    cbn [andthen a_dt a_vals scale floats np_abs2 reals sqrt_eps].
    do 4 eexists. split; [reflexivity|]. split.
    { split; [|split; [|split; [|split; [|split; [|left; cbn [at_time]; reflexivity]]]]]; auto;
      unfold size; cbn; lens. }
    split; [lens|]. intros k HK. cbn [stepA stepB stepD a_vals]. repeat split; ents; reflexivity.
  - (* AmsGrad *)
    rewrite bop_eq by (unfold size; cbn; lens). cbn [andthen].
    rewrite bop_eq by (unfold size; cbn; lens). cbn [andthen].
    rewrite bop_eq by (unfold size; cbn; lens). cbn [andthen].
    rewrite bop_eq by (unfold size; cbn; lens). cbn [andthen].
    unfold subtract. rewrite iop_eq.
    2:{ unfold size. cbn. lens. }
    2:{ cbn [a_dt scale floats sqrt_eps reals]. repeat apply join_le; auto; apply RA. }
    cbn [andthen a_dt a_vals scale floats np_abs2 reals sqrt_eps].
    do 4 eexists. split; [reflexivity|]. split.
    { split; [|split; [|split; [|split; [|split; [|left; cbn [at_time]; reflexivity]]]]]; auto; try discriminate;
      try (unfold size; cbn; lens).
      cbn [a_dt]. split; [|repeat apply join_le; auto; apply RA].
      destruct da, dg; cbn; lia. }
    split; [lens|]. intros k HK. cbn [stepA stepB stepD a_vals]. repeat split; ents; reflexivity.
  - (* AdaMax *)
    rewrite bop_eq by (unfold size; cbn; lens). cbn [andthen].
    rewrite bop_eq by (unfold size; cbn; lens). cbn [andthen].
    destruct (Req_EM_T _ _) as [E|_].
    { exfalso. pose proof (bias_pos b1 t HB) as HP. unfold bias in HP. lra. }
    rewrite bop_eq by (unfold size; cbn; lens). cbn [andthen].
    unfold subtract. rewrite iop_eq.
    2:{ unfold size. cbn. lens. }
    2:{ cbn [a_dt scale floats sqrt_eps reals]. repeat apply join_le; auto; apply RA. }
    cbn [andthen a_dt a_vals scale floats np_abs np_abs2 reals sqrt_eps].
    do 4 eexists. split; [reflexivity|]. split.
    { split; [|split; [|split; [|split; [|split; [|left; cbn [at_time]; reflexivity]]]]]; auto; try discriminate;
      try (unfold size; cbn; lens).
      cbn [a_dt]. split; [|repeat apply join_le; auto; apply RA].
      destruct da, dg; cbn; lia. }
    split; [lens|]. intros k HK. cbn [stepA stepB stepD a_vals reals np_abs scale floats]. repeat split; ents; reflexivity.
Qed.
