(** * Proofs: distribution of random states *)
From Coq Require Import ZArith QArith List Bool Reals Permutation Lra Lia.
From Verif Require Import Base BaseFacts Hilbert_Model Hilbert_Spec HilbertOps_Model HilbertOps_Spec Balance_Spec Balance_Proofs Rules_Spec Unif_Model Unif_Spec.
Import ListNotations.
Open Scope R_scope.

(** ** Expectations *)
Fixpoint all_out {A} (p : prog A) (P : A -> Prop) : Prop :=
  match p with
  | Ret a => P a
  | Fail _ => False
  | Draw n k => (0 < n)%nat /\ forall i, (i < n)%nat -> all_out (k i) P
  end.

Lemma all_out_never {A} (p : prog A) P : all_out p P -> never_fails p.
Proof. induction p as [a|e|n k IH]; cbn; auto. intros [H1 H2]. split; [exact H1|]. intros i Hi. apply IH, H2, Hi. Qed.
Lemma all_out_impl {A} (p : prog A) (P Q : A -> Prop) : (forall a, P a -> Q a) -> all_out p P -> all_out p Q.
Proof. intros H. induction p as [a|e|n k IH]; cbn; auto. intros [H1 H2]. split; [exact H1|]. intros i Hi. apply IH, H2, Hi. Qed.
Lemma all_out_bind {A B} (p : prog A) (f : A -> prog B) P Q : all_out p P -> (forall a, P a -> all_out (f a) Q) -> all_out (pbind p f) Q.
Proof. intros H Hf. induction p as [a|e|n k IH]; cbn in *; auto. destruct H as [H1 H2]. split; [exact H1|]. intros i Hi. apply IH, H2, Hi. Qed.

Lemma expect_bind {A B} (p : prog A) (f : A -> prog B) g : expect (pbind p f) g = expect p (fun a => expect (f a) g).
Proof. induction p as [a|e|n k IH]; cbn; auto. f_equal. apply rsum_ext. intros i _. apply IH. Qed.
Lemma expect_ext {A} (p : prog A) P f g : all_out p P -> (forall a, P a -> f a = g a) -> expect p f = expect p g.
Proof.
  intros H E. induction p as [a|e|n k IH]; cbn in *; auto. destruct H as [H1 H2]. f_equal. apply rsum_ext.
  intros i Hi. apply IH, H2. apply in_seq in Hi. lia.
Qed.
Lemma expect_ext_all {A} (p : prog A) f g : (forall a, f a = g a) -> expect p f = expect p g.
Proof. intros E. induction p as [a|e|n k IH]; cbn in *; auto. f_equal. apply rsum_ext. intros i Hi. apply IH. Qed.
Lemma expect_scal {A} (p : prog A) c f : expect p (fun a => c * f a) = c * expect p f.
Proof.
  induction p as [a|e|n k IH]; cbn; [reflexivity|ring|]. rewrite (rsum_ext _ (fun i => c * expect (k i) f)) by (intros; apply IH).
  rewrite rsum_scal. ring.
Qed.
Lemma rsum_const {A} (c : R) (l : list A) : rsum (fun _ => c) l = INR (length l) * c.
Proof. induction l as [|x l IH]; [cbn; ring|]. cbn [rsum length]. rewrite S_INR, IH. ring. Qed.
Lemma expect_const {A} (p : prog A) c : never_fails p -> expect p (fun _ => c) = c.
Proof.
  intros H. induction p as [a|e|n k IH]; cbn in *; [reflexivity|contradiction|]. destruct H as [H1 H2].
  rewrite (rsum_ext _ (fun _ => c)) by (intros i Hi; apply IH, H2; apply in_seq in Hi; lia).
  rewrite rsum_const, seq_length. field. apply not_0_INR. lia.
Qed.
Lemma expect_zero {A} (p : prog A) : expect p (fun _ => 0) = 0.
Proof. induction p as [a|e|n k IH]; cbn; [reflexivity|reflexivity|]. rewrite rsum_zero by (intros; apply IH). ring. Qed.
Lemma rsum_nonneg {A} (f : A -> R) l : (forall x, In x l -> 0 <= f x) -> 0 <= rsum f l.
Proof. induction l as [|x l IH]; intros H; cbn; [lra|]. pose proof (H x (or_introl eq_refl)). pose proof (IH (fun y Hy => H y (or_intror Hy))). lra. Qed.
Lemma rsum_one_pos {A} (f : A -> R) l z : (forall x, In x l -> 0 <= f x) -> In z l -> 0 < f z -> 0 < rsum f l.
Proof.
  induction l as [|x l IH]; intros H Hin Hz; [destruct Hin|]. cbn. destruct Hin as [->|Hin].
  - pose proof (rsum_nonneg f l (fun y Hy => H y (or_intror Hy))). lra.
  - pose proof (H x (or_introl eq_refl)). pose proof (IH (fun y Hy => H y (or_intror Hy)) Hin Hz). lra.
Qed.
Lemma inv_nonneg n : 0 <= / INR n.
Proof. destruct n; [cbn; rewrite Rinv_0; lra|]. left. apply Rinv_0_lt_compat. apply lt_0_INR. lia. Qed.
Lemma expect_nonneg {A} (p : prog A) f : (forall a, 0 <= f a) -> 0 <= expect p f.
Proof.
  intros H. induction p as [a|e|n k IH]; cbn; [apply H|lra|]. apply Rmult_le_pos; [apply inv_nonneg|].
  apply rsum_nonneg. intros i _. apply IH.
Qed.
Lemma rsum_nonzero {A} (f : A -> R) l : rsum f l <> 0 -> exists x, In x l /\ f x <> 0.
Proof.
  induction l as [|x l IH]; cbn; [congruence|]. intros H. destruct (Req_EM_T (f x) 0) as [E|E].
  - destruct IH as (y & Hy & Hn); [intros E2; apply H; lra|]. exists y. auto.
  - exists x. auto.
Qed.
Lemma expect_path {A} (p : prog A) P f : all_out p P -> expect p f <> 0 -> exists a, P a /\ f a <> 0.
Proof.
  induction p as [a|e|n k IH]; cbn; [eauto|contradiction|]. intros [H1 H2] H.
  destruct (rsum_nonzero (fun i => expect (k i) f) (seq 0 n)) as (i & Hi & Hn).
  { intros E. rewrite E in H. apply H. ring. }
  apply (IH i); [|exact Hn]. apply H2. apply in_seq in Hi. lia.
Qed.

Definition ind (x : list Z) (y : list Z) : R := if cfg_eqd y x then 1 else 0.
Lemma ind_nonneg x y : 0 <= ind x y.
Proof. unfold ind. destruct (cfg_eqd y x); lra. Qed.
Lemma prob_nonneg p x : 0 <= prob p x.
Proof. apply expect_nonneg. apply ind_nonneg. Qed.

(** ** Support and uniformity *)
Definition good (p : prog (list Z)) (P : list Z -> Prop) : Prop := all_out p P /\ forall x, P x -> 0 < prob p x.
Definition flat (p : prog (list Z)) (P : list Z -> Prop) : Prop := exists c, forall x, P x -> prob p x = c.

Lemma good_supported p P : good p P -> supported_on p P.
Proof.
  intros [H1 H2]. split; [eapply all_out_never, H1|]. intros x. split; [|intros H; apply H2, H].
  intros H. destruct (expect_path p P (fun y => if cfg_eqd y x then 1 else 0) H1) as (a & Ha & Hn).
  { change (prob p x <> 0). lra. }
  destruct (cfg_eqd a x) as [<-|]; [exact Ha|congruence].
Qed.

Lemma prob_total p P l : all_out p P -> NoDup l -> (forall x, P x -> In x l) -> rsum (prob p) l = 1.
Proof.
  intros Hp Hnd Hl.
  assert (E : rsum (prob p) l = expect p (fun y => rsum (fun x => ind x y) l)).
  { clear. unfold prob. fold (ind). induction l as [|x l IH]; cbn; [rewrite expect_zero; reflexivity|].
    rewrite IH. clear IH. induction p as [a|e|n k IH]; cbn; [reflexivity|ring|].
    rewrite (rsum_ext (fun i => expect (k i) (fun y => ind x y + rsum (fun x0 => ind x0 y) l))
      (fun i => expect (k i) (fun y => if cfg_eqd y x then 1 else 0) + expect (k i) (fun y => rsum (fun x0 => ind x0 y) l)))
      by (intros i _; symmetry; apply IH).
    rewrite rsum_plus. ring. }
  rewrite E. rewrite (expect_ext p P _ (fun _ => 1) Hp).
  - apply expect_const. eapply all_out_never, Hp.
  - intros y Hy. rewrite (rsum_ext _ (fun x => 1 * (if cfg_eqd x y then 1 else 0))).
    + apply (rsum_delta cfg_eqd (fun _ => 1)); [exact Hnd|apply Hl, Hy].
    + intros x _. unfold ind. destruct (cfg_eqd y x), (cfg_eqd x y); congruence || ring.
Qed.

Lemma good_uniform p P : good p P -> flat p P -> uniform_on p P.
Proof.
  intros [H1 H2] [c Hc]. split; [eapply all_out_never, H1|]. split.
  - intros x Hx. destruct (Req_EM_T (prob p x) 0) as [|Hn]; [assumption|]. exfalso. apply Hx.
    apply (proj2 (good_supported p P (conj H1 H2))). pose proof (prob_nonneg p x). lra.
  - intros l Hnd Hl x Hx. assert (E : rsum (prob p) l = 1) by (apply (prob_total p P); [exact H1|exact Hnd|intros; apply Hl; assumption]).
    rewrite (rsum_ext _ (fun _ => c)) in E by (intros y Hy; apply Hc, Hl, Hy).
    rewrite rsum_const in E. rewrite (Hc x) by (apply Hl, Hx).
    assert (INR (length l) <> 0) by (intros E0; rewrite E0 in E; lra).
    apply (Rmult_eq_reg_l (INR (length l))); [|assumption]. rewrite E, Rinv_r by assumption. reflexivity.
Qed.

(** ** Concatenation *)
Definition pcat (p q : prog (list Z)) : prog (list Z) := pbind p (fun a => pbind q (fun b => Ret (a ++ b))).

Lemma prob_cat p q P n a b : all_out p P -> (forall x, P x -> length x = n) -> length a = n ->
  prob (pcat p q) (a ++ b) = prob p a * prob q b.
Proof.
  intros Hp Hn Ha. unfold prob, pcat. rewrite expect_bind.
  rewrite (expect_ext p P _ (fun a' => expect q (fun y => if cfg_eqd y b then 1 else 0) * (if cfg_eqd a' a then 1 else 0)) Hp).
  - rewrite expect_scal. ring.
  - intros a' Ha'. rewrite expect_bind. cbn [expect]. rewrite Rmult_comm, <- expect_scal. apply expect_ext_all. intros b'.
    specialize (Hn a' Ha').
    destruct (cfg_eqd (a' ++ b') (a ++ b)) as [E|E].
    + assert (a' = a /\ b' = b) as [-> ->].
      { clear -E Ha Hn. rewrite <- Ha in Hn. clear Ha. revert a E Hn. induction a' as [|u a' IH]; intros [|v a] E Hn; cbn in *; try lia; [auto|].
        injection E as -> E. destruct (IH a E) as [-> ->]; [lia|auto]. }
      destruct (cfg_eqd a a), (cfg_eqd b b); try congruence. ring.
    + destruct (cfg_eqd a' a) as [->|], (cfg_eqd b' b) as [->|]; congruence || ring.
Qed.

Lemma good_cat p q (P Q : list Z -> Prop) n : (forall x, P x -> length x = n) -> good p P -> good q Q ->
  good (pcat p q) (fun x => exists a b, x = a ++ b /\ P a /\ Q b).
Proof.
  intros Hn [H1 H2] [G1 G2]. split.
  - apply (all_out_bind p _ P); [exact H1|]. intros a Ha. apply (all_out_bind q _ Q); [exact G1|]. intros b Hb. cbn. eauto.
  - intros x (a & b & -> & Ha & Hb). rewrite (prob_cat p q P n) by auto. apply Rmult_lt_0_compat; auto.
Qed.
Lemma flat_cat p q (P Q : list Z -> Prop) n : (forall x, P x -> length x = n) -> all_out p P -> flat p P -> flat q Q ->
  flat (pcat p q) (fun x => exists a b, x = a ++ b /\ P a /\ Q b).
Proof.
  intros Hn H [c Hc] [d Hd]. exists (c * d). intros x (a & b & -> & Ha & Hb).
  rewrite (prob_cat p q P n) by auto. rewrite Hc, Hd by assumption. reflexivity.
Qed.

(** ** Independent draws *)
Lemma below_out n : (0 < n)%nat -> all_out (below n) (fun i => (i < n)%nat).
Proof. intros H. unfold below. destruct (Nat.eqb_spec n 0); [lia|]. cbn. split; auto. Qed.
Lemma expect_below n f : (0 < n)%nat -> expect (below n) f = / INR n * rsum f (seq 0 n).
Proof. intros H. unfold below. destruct (Nat.eqb_spec n 0); [lia|]. reflexivity. Qed.

Definition values (n : nat) (g : nat -> Z) (z : Z) : Prop := exists i, (i < n)%nat /\ g i = z.

Lemma iid_out n g : (0 < n)%nat -> forall N, all_out (iid n g N) (fun x => length x = N /\ Forall (values n g) x).
Proof.
  intros Hn. induction N as [|N IH]; [cbn; auto|]. cbn [iid]. apply (all_out_bind _ _ _ _ (below_out n Hn)). intros i Hi.
  apply (all_out_bind _ _ _ _ IH). intros l [Hl Hf]. cbn. split; [lia|]. apply Forall_cons; [exists i; auto|exact Hf].
Qed.

Lemma rsum_inj n (g : nat -> Z) z : (forall i j, (i < n)%nat -> (j < n)%nat -> g i = g j -> i = j) -> values n g z ->
  rsum (fun i => if Z.eq_dec (g i) z then 1 else 0) (seq 0 n) = 1.
Proof.
  intros Hg (k & Hk & E). rewrite (rsum_ext _ (fun i => 1 * (if Nat.eq_dec i k then 1 else 0))).
  - apply (rsum_delta Nat.eq_dec (fun _ => 1)); [apply seq_NoDup|apply in_seq; lia].
  - intros i Hi. apply in_seq in Hi. destruct (Z.eq_dec (g i) z) as [E1|E1], (Nat.eq_dec i k) as [E2|E2]; try ring.
    + exfalso. apply E2, Hg; [lia|lia|congruence].
    + subst i. congruence.
Qed.

Lemma iid_prob n g : (0 < n)%nat -> (forall i j, (i < n)%nat -> (j < n)%nat -> g i = g j -> i = j) ->
  forall N x, length x = N -> Forall (values n g) x -> prob (iid n g N) x = (/ INR n) ^ N.
Proof.
  intros Hn Hg. induction N as [|N IH]; intros x Hl Hf.
  - destruct x; [|discriminate]. unfold prob. cbn. destruct (cfg_eqd [] []); [reflexivity|congruence].
  - destruct x as [|z x]; [discriminate|]. inversion Hf as [|? ? Hz Hx]; subst. unfold prob. cbn [iid]. rewrite expect_bind.
    rewrite expect_below by exact Hn.
    rewrite (rsum_ext _ (fun i => (/ INR n) ^ N * (if Z.eq_dec (g i) z then 1 else 0))).
    + rewrite rsum_scal, rsum_inj by assumption. cbn [pow]. ring.
    + intros i _. rewrite expect_bind. cbn [expect]. rewrite <- (IH x) by (cbn in Hl; auto; lia).
      unfold prob. rewrite Rmult_comm, <- expect_scal. apply expect_ext_all. intros l.
      destruct (cfg_eqd (g i :: l) (z :: x)) as [E|E], (Z.eq_dec (g i) z) as [E1|E1], (cfg_eqd l x) as [E2|E2]; try congruence; ring.
Qed.

Lemma iid_good n g N : (0 < n)%nat -> (forall i j, (i < n)%nat -> (j < n)%nat -> g i = g j -> i = j) ->
  let P := fun x => length x = N /\ Forall (values n g) x in good (iid n g N) P /\ flat (iid n g N) P.
Proof.
  intros Hn Hg P. split; [split|].
  - apply iid_out, Hn.
  - intros x [H1 H2]. rewrite (iid_prob n g Hn Hg N x H1 H2). apply pow_lt. apply Rinv_0_lt_compat, lt_0_INR, Hn.
  - exists ((/ INR n) ^ N). intros x [H1 H2]. apply iid_prob; assumption.
Qed.

Lemma good_ext p P Q : (forall x, P x <-> Q x) -> good p P -> good p Q.
Proof. intros E [H1 H2]. split; [eapply all_out_impl; [|exact H1]; intros; apply E; assumption|]. intros x Hx. apply H2, E, Hx. Qed.
Lemma flat_ext p P Q : (forall x, P x <-> Q x) -> flat p P -> flat p Q.
Proof. intros E [c Hc]. exists c. intros x Hx. apply Hc, E, Hx. Qed.

(** ** Filling *)
Lemma fill_loop_ext step full n : forall r r' sites out, (forall j, (j < n)%nat -> r j = r' j) ->
  fill_loop step full n r sites out = fill_loop step full n r' sites out.
Proof.
  induction n as [|n IH]; intros r r' sites out H; cbn [fill_loop]; auto. destruct sites as [|a sites]; auto. cbv zeta.
  rewrite (H n) by lia. apply IH. intros j Hj. apply H. lia.
Qed.

Lemma fill_step_prog step full n s0 sites out : fill_prog step full (S n) (s0 :: sites) out =
  Draw (length (s0 :: sites)) (fun s =>
    let l := s0 :: sites in
    let j := nth s l O in
    let out' := upd out j (nth j out 0 + step)%Z in
    fill_prog step full n (if full (nth j out' 0%Z) then del s l else l) out').
Proof. reflexivity. Qed.

Lemma fill_all step full P n : forall sites out,
  (forall r, exists s, fill_loop step full n r sites out = Ok s /\ P s) -> all_out (fill_prog step full n sites out) P.
Proof.
  induction n as [|n IH]; intros sites out H.
  - destruct (H (fun _ => O)) as (s & E & Hs). cbn in *. congruence.
  - destruct sites as [|s0 sites]; [destruct (H (fun _ => O)) as (s & E & _); discriminate E|].
    rewrite fill_step_prog. cbn [all_out]. split; [cbn; lia|]. intros i Hi. cbn zeta. apply IH. intros r.
    destruct (H (fun j => if (j =? n)%nat then i else r j)) as (s & E & Hs). exists s. split; [|exact Hs].
    rewrite <- E. cbn [fill_loop]. cbv zeta. rewrite Nat.eqb_refl, (Nat.mod_small i) by exact Hi.
    apply fill_loop_ext. intros j Hj. destruct (Nat.eqb_spec j n); [lia|reflexivity].
Qed.

Lemma fill_pos step full n : forall r sites out s, fill_loop step full n r sites out = Ok s ->
  0 < prob (fill_prog step full n sites out) s.
Proof.
  induction n as [|n IH]; intros r sites out s E.
  - cbn in E. injection E as ->. unfold prob. cbn. destruct (cfg_eqd s s); [lra|congruence].
  - destruct sites as [|s0 sites]; [discriminate E|]. cbn [fill_loop] in E. cbv zeta in E.
    rewrite fill_step_prog. unfold prob. cbn [expect].
    set (i := (r n mod length (s0 :: sites))%nat) in *.
    assert (Hi : (i < length (s0 :: sites))%nat) by (apply Nat.mod_upper_bound; discriminate).
    apply Rmult_lt_0_compat; [apply Rinv_0_lt_compat, lt_0_INR; cbn; lia|].
    apply (rsum_one_pos _ _ i); [intros; apply expect_nonneg; apply ind_nonneg|apply in_seq; lia|].
    apply (IH r). exact E.
Qed.
