(** The groups of the plane (for C89). *)
From Coq Require Import List Arith Bool ZArith QArith Qreals Reals Lra Lia Nsatz.
From Verif Require Import Base Axial_Model Axial_Spec Axial_Alg Axial_Grp.
Import ListNotations.
Open Scope list_scope.
Open Scope R_scope.

Ltac t2 := repeat match goal with A : m2 |- _ => destruct A | A : v2 |- _ => destruct A end;
  cbv [mul2 sub2 apply2 eye2 zero2 add2 rot2 refl2 a11 a12 a21 a22 px py] in *; try match goal with |- @eq m2 _ _ => f_equal | |- @eq v2 _ _ => f_equal end.
Lemma mul2_assoc A B D : mul2 A (mul2 B D) = mul2 (mul2 A B) D.
Proof. t2; ring. Qed.
Lemma mul2_1_l A : mul2 eye2 A = A.
Proof. t2; ring. Qed.
Lemma mul2_1_r A : mul2 A eye2 = A.
Proof. t2; ring. Qed.
Lemma apply2_mul A B x : apply2 (mul2 A B) x = apply2 A (apply2 B x).
Proof. t2; ring. Qed.
Lemma apply2_1 x : apply2 eye2 x = x.
Proof. t2; ring. Qed.
Lemma apply2_ext A B : (forall x, apply2 A x = apply2 B x) -> A = B.
Proof.
  intros H. pose proof (H (V2 1 0)) as H1. pose proof (H (V2 0 1)) as H2. clear H.
  t2; injection H1; injection H2; intros; lra.
Qed.

Definition rep2 (e : pelem) : m2 := match e with PId => eye2 | PSym s => p_W s end.
Definition ispure2 (e : pelem) : Prop := match e with PId => True | PSym s => p_w s = zero2 end.
Lemma act_pure2 e x : ispure2 e -> act2 e x = apply2 (rep2 e) x.
Proof. destruct e as [|[W w]]; cbn; [now rewrite apply2_1|]. intros ->. t2; ring. Qed.
Lemma pure_prod2 a b : ispure2 a -> ispure2 b -> ispure2 (prod2 a b) /\ rep2 (prod2 a b) = mul2 (rep2 a) (rep2 b).
Proof.
  destruct a as [|[W w]], b as [|[W' w']]; cbn; intros Ha Hb; subst; split; trivial; try (now rewrite mul2_1_l); try (now rewrite mul2_1_r). t2; ring.
Qed.
Notation mgrp2 := (mgrp mul2 eye2).
Lemma hd_map2 {A B} (f : A -> B) l : hd_error (map f l) = option_map f (hd_error l).
Proof. now destruct l. Qed.
(** from matrices to maps *)
Lemma lift2 l : Forall ispure2 l -> hd_error l = Some PId -> mgrp2 (map rep2 l) -> finite_group act2 eq l.
Proof.
  intros P Hd [O C I N]. rewrite Forall_forall in P. constructor.
  - exists PId. split; [exact Hd|reflexivity].
  - intros a b Ha Hb. pose proof (C _ _ (in_map rep2 _ _ Ha) (in_map rep2 _ _ Hb)) as H. apply in_map_iff in H. destruct H as (c & E & Hc). exists c. split; [exact Hc|].
    intros x. rewrite !act_pure2, E, apply2_mul by auto. reflexivity.
  - intros a Ha. destruct (I _ (in_map rep2 _ _ Ha)) as (B & HB & E & E'). apply in_map_iff in HB. destruct HB as (b & <- & Hb). exists b. split; [exact Hb|].
    split; intros x; rewrite !act_pure2, <- apply2_mul by auto; rewrite ?E, ?E'; apply apply2_1.
  - clear - P N. induction l as [|a l IH]; constructor.
    + apply Forall_forall. intros b Hb Q. inversion N as [|? ? X _]; subst. apply X.
      replace (rep2 a) with (rep2 b); [now apply in_map|]. symmetry. apply apply2_ext. intros x. rewrite <- !act_pure2 by (apply P; cbn; auto). apply Q.
    + apply IH; [intros b Hb; apply P; now right|now inversion N].
Qed.
Lemma lift_gen2 gens l : Forall ispure2 l -> Forall ispure2 gens -> mgrp2 (map rep2 l) -> (forall g, In g gens -> In (rep2 g) (map rep2 l)) ->
  (forall a, In a l -> exists w, (forall g, In g w -> In g gens) /\ rep2 a = fold_right mul2 eye2 (map rep2 w)) -> generated_by act2 eq gens l.
Proof.
  intros P Pg [O C I N] G W. rewrite Forall_forall in *.
  assert (X : forall w, (forall g, In g w -> In g gens) -> forall x, act_word act2 w x = apply2 (fold_right mul2 eye2 (map rep2 w)) x).
  { induction w as [|g w IH]; intros H x; [cbn; now rewrite apply2_1|]. cbn [act_word fold_right map]. rewrite apply2_mul. change (fold_right (fun g y => act2 g y) x w) with (act_word act2 w x).
    rewrite IH by (intros h Hh; apply H; now right). apply act_pure2, Pg, H. now left. }
  split.
  - intros a Ha. destruct (W a Ha) as (w & Hw & E). exists w. split; [exact Hw|]. intros x. rewrite X, act_pure2, E by auto. reflexivity.
  - intros w Hw. assert (Y : In (fold_right mul2 eye2 (map rep2 w)) (map rep2 l)).
    { induction w as [|g w IH]; [exact O|]. cbn. apply C; [apply G, Hw; now left|]. apply IH. intros h Hh. apply Hw. now right. }
    apply in_map_iff in Y. destruct Y as (a & E & Ha). exists a. split; [exact Ha|]. intros x. rewrite X, <- E by exact Hw. now apply act_pure2, P.
Qed.
(** products with two elements *)
Lemma pprod2_rep a H : ispure2 a -> Forall ispure2 H ->
  Forall ispure2 (prod_group2 [PId; a] H) /\ map rep2 (prod_group2 [PId; a] H) = map rep2 H ++ map (mul2 (rep2 a)) (map rep2 H) /\
  length (prod_group2 [PId; a] H) = (2 * length H)%nat.
Proof.
  intros Pa PH. unfold prod_group2. cbn [list_prod]. rewrite app_nil_r, !map_app, !map_map. cbn [fst snd prod2].
  assert (X : map (fun x => prod2 PId x) H = H) by (cbn; apply map_id). cbn [prod2] in X. rewrite Forall_forall in PH. repeat split.
  - apply Forall_app. split; apply Forall_forall; intros e He; apply in_map_iff in He; destruct He as (h & <- & Hh); [auto|]. apply pure_prod2; auto.
  - f_equal. apply map_ext_in. intros h Hh. apply pure_prod2; auto.
  - rewrite app_length, !map_length. lia.
Qed.
Lemma pprod2_hd a H : hd_error H = Some PId -> hd_error (prod_group2 [PId; a] H) = Some PId.
Proof. destruct H as [|h H]; [discriminate|]. cbn. congruence. Qed.
(** a product of a group with two elements *)
Lemma pprod2_grp a H : ispure2 a -> Forall ispure2 H -> mgrp2 (map rep2 H) -> mul2 (rep2 a) (rep2 a) = eye2 ->
  (forall h, In h H -> In (mul2 (rep2 a) (mul2 (rep2 h) (rep2 a))) (map rep2 H)) -> ~ In (rep2 a) (map rep2 H) ->
  mgrp2 (map rep2 (prod_group2 [PId; a] H)).
Proof.
  intros Pa PH G Q X N. destruct (pprod2_rep a H Pa PH) as (_ & -> & _). apply extend; auto using mul2_assoc, mul2_1_l, mul2_1_r.
  - rewrite Q. apply G.
  - intros h Hh. apply in_map_iff in Hh. destruct Hh as (h' & <- & Hh). exists (mul2 (rep2 a) (mul2 (rep2 h') (rep2 a))). split; [now apply X|].
    rewrite mul2_assoc, Q, mul2_1_l. reflexivity.
Qed.

Lemma fold_app2 l l' : fold_right mul2 eye2 (l ++ l') = mul2 (fold_right mul2 eye2 l) (fold_right mul2 eye2 l').
Proof. induction l as [|a l IH]; cbn; [now rewrite mul2_1_l|]. now rewrite IH, mul2_assoc. Qed.
Definition wordsof2 (gens : list pelem) (M : m2) : Prop := exists w, (forall g, In g w -> In g gens) /\ M = fold_right mul2 eye2 (map rep2 w).
Record family2 (gens l : list pelem) (n : nat) : Prop := {
  fm_pure2 : Forall ispure2 l;
  fm_hd2 : hd_error l = Some PId;
  fm_grp2 : mgrp2 (map rep2 l);
  fm_len2 : length l = n;
  fm_gens2 : forall g, In g gens -> ispure2 g /\ In (rep2 g) (map rep2 l);
  fm_words2 : forall M, In M (map rep2 l) -> wordsof2 gens M
}.
Lemma family_group2 gens l n : family2 gens l n -> finite_group act2 eq l /\ length l = n /\ generated_by act2 eq gens l.
Proof.
  intros [P H G L X W]. split; [now apply lift2|]. split; [exact L|]. apply lift_gen2; auto.
  - apply Forall_forall. intros g Hg. apply X, Hg.
  - intros g Hg. apply X, Hg.
  - intros a Ha. apply W, in_map, Ha.
Qed.
Lemma words_mono2 gens gens' M : (forall g, In g gens -> In g gens') -> wordsof2 gens M -> wordsof2 gens' M.
Proof. intros H (w & Hw & E). exists w. auto. Qed.
Lemma words_mul2 gens A B : wordsof2 gens A -> wordsof2 gens B -> wordsof2 gens (mul2 A B).
Proof.
  intros (w & Hw & ->) (w' & Hw' & ->). exists (w ++ w'). split; [intros g; rewrite in_app_iff; intros [H|H]; auto|]. now rewrite map_app, fold_app2.
Qed.
Lemma words_gen2 gens g : In g gens -> wordsof2 gens (rep2 g).
Proof. intros H. exists [g]. split; [intros h [<-|[]]; exact H|]. cbn. now rewrite mul2_1_r. Qed.
Lemma family_ext2 a gens H n : family2 gens H n -> ispure2 a -> mul2 (rep2 a) (rep2 a) = eye2 ->
  (forall h, In h (map rep2 H) -> In (mul2 (rep2 a) (mul2 h (rep2 a))) (map rep2 H)) -> ~ In (rep2 a) (map rep2 H) -> family2 (a :: gens) (prod_group2 [PId; a] H) (2 * n).
Proof.
  intros [P Hd G L X W] Pa Q Y N. destruct (pprod2_rep a H Pa P) as (P' & R' & L'). constructor.
  - exact P'.
  - now apply pprod2_hd.
  - apply pprod2_grp; auto. intros h Hh. apply Y. now apply in_map.
  - now rewrite L', L.
  - rewrite R'. intros g [<-|Hg].
    + split; [exact Pa|]. apply in_or_app. right. apply in_map_iff. exists eye2. split; [apply mul2_1_r|]. apply G.
    + destruct (X g Hg). split; [assumption|]. apply in_or_app. now left.
  - rewrite R'. intros M HM. apply in_app_or in HM. destruct HM as [HM|HM].
    + apply (words_mono2 gens); [intros; now right|]. auto.
    + apply in_map_iff in HM. destruct HM as (h & <- & Hh). apply words_mul2; [apply words_gen2; now left|]. apply (words_mono2 gens); [intros; now right|]. auto.
Qed.

(** ** rotations and reflections *)
Lemma rot2_add a b : mul2 (rot2 a) (rot2 b) = rot2 (a + b).
Proof. unfold rot2. rewrite cos_plus, sin_plus. t2; ring. Qed.
Lemma rot2_0 : rot2 0 = eye2.
Proof. unfold rot2. rewrite cos_0, sin_0. t2; ring. Qed.
Lemma rot2_2pi : rot2 (2 * PI) = eye2.
Proof. unfold rot2. rewrite cos_2PI, sin_2PI. t2; ring. Qed.
Lemma refl2_sq t : mul2 (refl2 t) (refl2 t) = eye2.
Proof. pose proof (sin2_cos2 t) as E. unfold Rsqr in E. unfold refl2. t2; lra. Qed.
Lemma rot2_refl2 s t : mul2 (rot2 s) (refl2 t) = mul2 (refl2 t) (rot2 (- s)).
Proof. unfold rot2. rewrite cos_neg, sin_neg. t2; ring. Qed.
Definition det2 (A : m2) : R := a11 A * a22 A - a12 A * a21 A.
Lemma rot2_det t : det2 (rot2 t) = 1.
Proof. pose proof (sin2_cos2 t) as E. unfold Rsqr in E. unfold det2, rot2. cbn. lra. Qed.
Lemma refl2_det t : det2 (refl2 t) = -1.
Proof. pose proof (sin2_cos2 t) as E. unfold Rsqr in E. unfold det2, refl2. cbn. lra. Qed.
Section N2.
Context (n : Z) (Hn : (1 <= n)%Z).
Notation N := (Z.to_nat n).
Definition Pm (i : nat) : m2 := rot2 (ang n i).
Lemma Pm_mul i j : mul2 (Pm i) (Pm j) = Pm (i + j).
Proof. unfold Pm. now rewrite rot2_add, ang_add. Qed.
Lemma Pm_0 : Pm 0 = eye2.
Proof. unfold Pm, ang. cbn [INR]. replace (2 * PI * 0 / IZR n) with 0 by (unfold Rdiv; ring). apply rot2_0. Qed.
Lemma Pm_pow i : pow mul2 eye2 (Pm 1) i = Pm i.
Proof. induction i as [|i IH]; cbn [pow]; [now rewrite Pm_0|]. now rewrite IH, Pm_mul. Qed.
Lemma Pm_N : Pm N = eye2.
Proof. unfold Pm. rewrite ang_n by exact Hn. apply rot2_2pi. Qed.
Lemma Pm_1 i : (0 < i < N)%nat -> Pm i <> eye2.
Proof. intros Hi E. apply (f_equal a11) in E. exact (ang_cos _ _ Hn Hi E). Qed.
Lemma Pm_neg i : (i <= N)%nat -> rot2 (- ang n i) = Pm (N - i).
Proof.
  intros Hi. rewrite <- (mul2_1_r (rot2 _)), <- Pm_N. replace N with (i + (N - i))%nat at 1 by lia. rewrite <- Pm_mul, mul2_assoc. unfold Pm at 1. rewrite rot2_add.
  replace (- ang n i + ang n i) with 0 by ring. now rewrite rot2_0, mul2_1_l.
Qed.
Lemma pC_pure : Forall ispure2 (pC n).
Proof. constructor; [exact I|]. apply Forall_forall. intros e He. apply in_map_iff in He. destruct He as (i & <- & _). reflexivity. Qed.
Lemma pC_rep : map rep2 (pC n) = map Pm (seq 0 N).
Proof.
  unfold pC, range1. replace N with (S (Z.to_nat (n - 1))) by lia. cbn [map seq rep2]. rewrite !map_map. f_equal; [now rewrite Pm_0|].
  apply map_ext_in. intros i _. cbn [protation rep2 p_W]. now rewrite radians_ang.
Qed.
Lemma pC_grp : mgrp2 (map rep2 (pC n)).
Proof.
  rewrite pC_rep, <- (map_ext _ _ Pm_pow). apply cyclic; auto using mul2_assoc, mul2_1_l, mul2_1_r; [lia| |].
  - rewrite Pm_pow. apply Pm_N.
  - intros i Hi. rewrite Pm_pow. now apply Pm_1.
Qed.
Lemma pC_in W : In W (map rep2 (pC n)) <-> exists i, (i < N)%nat /\ W = Pm i.
Proof.
  rewrite pC_rep, in_map_iff. split; [intros (i & <- & Hi%in_seq); exists i; split; [lia|reflexivity]|]. intros (i & Hi & ->). exists i. split; [reflexivity|]. apply in_seq. lia.
Qed.
Lemma pC_all i : In (Pm i) (map rep2 (pC n)).
Proof.
  pose proof (mg_closed _ _ _ pC_grp) as X. rewrite <- Pm_pow. induction i as [|i IH]; cbn [pow]; [apply (mg_one _ _ _ pC_grp)|]. apply X; [|exact IH].
  apply pC_in. destruct (Nat.eq_dec N 1) as [E|E]; [exists 0%nat; split; [lia|]; rewrite Pm_0, <- Pm_N, E; reflexivity|]. exists 1%nat. split; [lia|reflexivity].
Qed.
Lemma protation_rep : rep2 (protation (360 / IZR n)) = Pm 1.
Proof. cbn. unfold Pm. rewrite <- (radians_ang n 1) by exact Hn. change (Z.of_nat 1) with 1%Z. now rewrite Rmult_1_r. Qed.
Lemma pC_family : family2 [protation (360 / IZR n)] (pC n) N.
Proof.
  constructor.
  - apply pC_pure.
  - reflexivity.
  - apply pC_grp.
  - rewrite <- (map_length rep2), pC_rep, map_length, seq_length. reflexivity.
  - intros g [<-|[]]. split; [reflexivity|]. rewrite protation_rep. apply pC_all.
  - intros M HM. apply pC_in in HM. destruct HM as (i & _ & ->). exists (repeat (protation (360 / IZR n)) i). split.
    + intros g Hg. left. symmetry. exact (repeat_spec _ _ _ Hg).
    + rewrite <- Pm_pow. induction i as [|i IH]; [reflexivity|]. cbn [pow repeat map fold_right]. now rewrite protation_rep, IH.
Qed.
Lemma pD_family axis : family2 [preflection axis; protation (360 / IZR n)] (pD n axis) (2 * N).
Proof.
  apply family_ext2.
  - apply pC_family.
  - reflexivity.
  - apply refl2_sq.
  - intros M HM. apply pC_in in HM. destruct HM as (i & Hi & ->). cbn [preflection rep2 p_W]. unfold Pm. rewrite rot2_refl2, mul2_assoc, refl2_sq, mul2_1_l, Pm_neg by lia. apply pC_all.
  - intros HM. apply pC_in in HM. destruct HM as (i & _ & E). apply (f_equal det2) in E. cbn [preflection rep2 p_W] in E. unfold Pm in E. rewrite refl2_det, rot2_det in E. lra.
Qed.
End N2.
Lemma protation_ok angle : is_rotation2 (radians angle) (act2 (protation angle)).
Proof. intros r s. rewrite act_pure2 by reflexivity. cbn [protation rep2 p_W]. set (t := radians angle). rewrite cos_plus, sin_plus. t2; ring. Qed.
Lemma preflection_ok angle : is_reflection2 (radians angle) (act2 (preflection angle)).
Proof.
  intros r s. rewrite act_pure2 by reflexivity. cbn [preflection rep2 p_W]. set (t := radians angle). replace (t * 2) with (t + t) by ring. unfold refl2. rewrite !cos_plus, !sin_plus, cos_minus, sin_minus.
  pose proof (sin2_cos2 t) as E. unfold Rsqr in E. set (c := cos t) in *. set (d := sin t) in *. set (c' := cos s). set (d' := sin s). clearbody c d c' d'. t2; nsatz.
Qed.
(** glides *)
Lemma refl2_dir phi r : apply2 (refl2 (phi * 2)) (V2 (r * cos phi) (r * sin phi)) = V2 (r * cos phi) (r * sin phi).
Proof.
  replace (phi * 2) with (phi + phi) by ring. unfold refl2. rewrite cos_plus, sin_plus. pose proof (sin2_cos2 phi) as E. unfold Rsqr in E. set (c := cos phi) in *. set (d := sin phi) in *. clearbody c d. t2; nsatz.
Qed.
Lemma refl2_perp phi : apply2 (refl2 (phi * 2)) (V2 (- sin phi) (cos phi)) = V2 (sin phi) (- cos phi).
Proof.
  replace (phi * 2) with (phi + phi) by ring. unfold refl2. rewrite cos_plus, sin_plus. pose proof (sin2_cos2 phi) as E. unfold Rsqr in E. set (c := cos phi) in *. set (d := sin phi) in *. clearbody c d. t2; nsatz.
Qed.
Lemma pglide_ok phi r trans origin : trans = V2 (r * cos phi) (r * sin phi) ->
  let g := pglide phi trans origin in
  pglide_group phi trans origin = [PId; g] /\
  (forall a b, act2 g (add2 origin (V2 (a * cos phi - b * sin phi) (a * sin phi + b * cos phi))) = add2 origin (V2 ((a + r) * cos phi + b * sin phi) ((a + r) * sin phi - b * cos phi))) /\
  (forall x, act2 g (act2 g x) = add2 x (V2 (2 * px trans) (2 * py trans))) /\
  finite_group act2 (mod_trans2 (V2 (2 * px trans) (2 * py trans))) [PId; g].
Proof.
  intros E g. set (M := refl2 (phi * 2)).
  assert (A : forall x, act2 g x = add2 trans (add2 origin (apply2 M (V2 (px x - px origin) (py x - py origin))))).
  { intros x. unfold g, pglide. fold M. cbn [act2 p_W p_w]. clearbody M. clear E g. t2; ring. }
  assert (MT : apply2 M trans = trans) by (rewrite E; apply refl2_dir).
  assert (MM : forall x, apply2 M (apply2 M x) = x) by (intros x; rewrite <- apply2_mul; unfold M; rewrite refl2_sq; apply apply2_1).
  assert (ML : forall x y, apply2 M (add2 x y) = add2 (apply2 M x) (apply2 M y)) by (intros x y; clearbody M; clear; t2; ring).
  assert (B : forall x, act2 g (act2 g x) = add2 x (V2 (2 * px trans) (2 * py trans))).
  { intros x. rewrite !A. set (y := apply2 M (V2 (px x - px origin) (py x - py origin))).
    replace (V2 (px (add2 trans (add2 origin y)) - px origin) (py (add2 trans (add2 origin y)) - py origin)) with (add2 trans y) by (clearbody y; clear; t2; ring).
    rewrite ML, MT. unfold y. rewrite MM. clear. t2; ring. }
  split; [reflexivity|]. split; [|split; [exact B|]].
  - intros a b. rewrite A. 
    replace (V2 _ _) with (add2 (V2 (a * cos phi) (a * sin phi)) (V2 (b * - sin phi) (b * cos phi))) by (clear; t2; ring).
    rewrite ML. unfold M. rewrite refl2_dir. replace (apply2 (refl2 (phi * 2)) (V2 (b * - sin phi) (b * cos phi))) with (V2 (b * sin phi) (b * - cos phi)).
    + rewrite E. clear. t2; ring.
    + pose proof (refl2_perp phi) as P. unfold M. revert P. generalize (refl2 (phi * 2)) (sin phi) (cos phi). clear. intros W s c P. t2; injection P; intros; nsatz.
  - clearbody g. clear MT MM ML. constructor.
    + exists PId. split; [reflexivity|]. intros x. exists 0%Z. cbn [act2]. clear. t2; ring.
    + intros a b Ha Hb. assert (R : forall y, mod_trans2 (V2 (2 * px trans) (2 * py trans)) y y) by (intros y; exists 0%Z; clear; t2; ring).
      destruct Ha as [<-|[<-|[]]], Hb as [<-|[<-|[]]].
      * exists PId. split; [now left|]. intros x. apply R.
      * exists g. split; [right; now left|]. intros x. apply R.
      * exists g. split; [right; now left|]. intros x. apply R.
      * exists PId. split; [now left|]. intros x. rewrite B. exists 1%Z. cbn [act2]. clear. t2; ring.
    + intros a [<-|[<-|[]]].
      * exists PId. split; [now left|]. split; intros x; exists 0%Z; cbn [act2]; clear; t2; ring.
      * exists g. split; [right; now left|]. split; intros x; rewrite B; exists 1%Z; clear; t2; ring.
    + constructor; [|constructor; constructor]. constructor; [|constructor]. intros S0. destruct (S0 (add2 origin (V2 (- sin phi) (cos phi)))) as (k & X). cbn [act2] in X. rewrite A in X.
      assert (Z0 : forall v, V2 (px (add2 origin v) - px origin) (py (add2 origin v) - py origin) = v) by (clear; intros v; t2; ring).
      rewrite Z0 in X. unfold M in X. rewrite refl2_perp, E in X.
      pose proof (sin2_cos2 phi) as Y. unfold Rsqr in Y. revert X Y. generalize (IZR k) (sin phi) (cos phi). clear. intros c s d X Y. t2. injection X. intros X1 X2. assert (A : s * s + d * d = - (s * s + d * d)) by nsatz. lra.
Qed.
