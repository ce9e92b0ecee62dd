(** Linear algebra over the rationals behind C86. *)
From Coq Require Import List Arith Bool ZArith QArith Qcanon Qabs Lia.
From Verif Require Import Base Rings FloatCmp_Model FloatCmp_Spec LatGen_Model PointGp_Model PointGp_Spec.
Import ListNotations.
Open Scope nat_scope.

Lemma qC_laws : cring_laws qC.
Proof. constructor; cbn; intros; auto. exact Qcrt. Qed.

Lemma qs_ext n (f g : nat -> Qc) : (forall i, i < n -> f i = g i) -> qs n f = qs n g :> Qc.
Proof. apply (fsum_ext qC). Qed.
Lemma qs_zero n (f : nat -> Qc) : (forall i, i < n -> f i = 0%Qc) -> qs n f = 0%Qc :> Qc.
Proof. apply (fsum_zero qC qC_laws). Qed.
Lemma qs_add n (f g : nat -> Qc) : qs n (fun i => f i + g i)%Qc = (qs n f + qs n g)%Qc :> Qc.
Proof. apply (fsum_add qC qC_laws). Qed.
Lemma qs_sub n (f g : nat -> Qc) : qs n (fun i => f i - g i)%Qc = (qs n f - qs n g)%Qc :> Qc.
Proof. apply (fsum_sub qC qC_laws). Qed.
Lemma qs_scal n (c : Qc) (f : nat -> Qc) : qs n (fun i => c * f i)%Qc = (c * qs n f)%Qc :> Qc.
Proof. apply (fsum_scal qC qC_laws). Qed.
Lemma qs_scal_r n (c : Qc) (f : nat -> Qc) : qs n (fun i => f i * c)%Qc = (qs n f * c)%Qc :> Qc.
Proof. apply (fsum_scal_r qC qC_laws). Qed.
Lemma qs_swap n m (f : nat -> nat -> Qc) : qs n (fun i => qs m (f i)) = qs m (fun j => qs n (fun i => f i j)) :> Qc.
Proof. apply (fsum_swap qC qC_laws). Qed.
Lemma qs_S n (f : nat -> Qc) : qs (S n) f = (qs n f + f n)%Qc :> Qc.
Proof. reflexivity. Qed.
Lemma qs_opp n (f : nat -> Qc) : qs n (fun i => - f i)%Qc = (- qs n f)%Qc :> Qc.
Proof. rewrite (qs_ext n _ (fun i => - (1) * f i)%Qc) by (intros; ring). rewrite qs_scal. ring. Qed.
(** one entry taken out *)
Lemma qs_single n (f : nat -> Qc) p : p < n -> (forall i, i < n -> i <> p -> f i = 0%Qc) -> qs n f = f p :> Qc.
Proof.
  induction n as [|n IH]; intros Hp H; [lia|]. rewrite qs_S. destruct (Nat.eq_dec p n) as [->|Ne].
  - rewrite qs_zero by (intros; apply H; lia). ring.
  - rewrite IH, (H n) by (try lia; intros; apply H; lia). ring.
Qed.
Lemma qs_skip n p (f : nat -> Qc) : p <= n -> qs (S n) f = (qs n (fun i => f (if Nat.ltb i p then i else S i)) + f p)%Qc :> Qc.
Proof.
  induction n as [|n IH]; intros Hp.
  - assert (p = 0) by lia. subst. reflexivity.
  - rewrite qs_S. destruct (Nat.eq_dec p (S n)) as [->|Ne].
    + f_equal. apply qs_ext. intros i Hi. assert (E : Nat.ltb i (S n) = true) by now apply Nat.ltb_lt. now rewrite E.
    + rewrite IH by lia. rewrite qs_S.
      assert (E : Nat.ltb n p = false) by (apply Nat.ltb_ge; lia). rewrite E. ring.
Qed.

Lemma eye_l n i (f : nat -> Qc) : i < n -> qs n (fun k => eye i k * f k)%Qc = f i :> Qc.
Proof.
  intros H. rewrite (qs_single n _ i) ; [|exact H|intros k _ Ne; unfold eye; destruct (Nat.eqb_spec i k); [congruence|ring]].
  unfold eye. rewrite Nat.eqb_refl. ring.
Qed.
Lemma eye_r n j (f : nat -> Qc) : j < n -> qs n (fun k => f k * eye k j)%Qc = f j :> Qc.
Proof.
  intros H. rewrite (qs_single n _ j) ; [|exact H|intros k _ Ne; unfold eye; destruct (Nat.eqb_spec k j); [congruence|ring]].
  unfold eye. rewrite Nat.eqb_refl. ring.
Qed.

(** ** more vectors than coordinates are dependent *)
Lemma dependent n : forall v : nat -> nat -> Qc, exists c : nat -> Qc,
  (exists i, i <= n /\ c i <> 0%Qc) /\ forall k, k < n -> qs (S n) (fun i => c i * v i k)%Qc = 0%Qc :> Qc.
Proof.
  induction n as [|n IH]; intros v.
  - exists (fun _ => 1%Qc). split; [exists 0; split; [lia|discriminate]|intros; lia].
  - assert (D : (exists p, p <= S n /\ v p n <> 0%Qc) \/ forall i, i <= S n -> v i n = 0%Qc).
    { clear. assert (G : forall m, (exists p, p < m /\ v p n <> 0%Qc) \/ forall i, i < m -> v i n = 0%Qc).
      { induction m as [|m [(p & A & B)|A]]; [right; intros; lia|left; exists p; split; [lia|auto]|].
        destruct (Qc_eq_dec (v m n) 0%Qc) as [E|E]; [right|left; exists m; split; [lia|auto]].
        intros i Hi. destruct (Nat.eq_dec i m) as [->|]; [auto|apply A; lia]. }
      destruct (G (S (S n))) as [(p & A & B)|A]; [left; exists p; split; [lia|auto]|right; intros; apply A; lia]. }
    destruct D as [(p & Hp & Np)|Z].
    + pose (sk := fun i => if Nat.ltb i p then i else S i).
      pose (a := fun i => (v (sk i) n / v p n)%Qc).
      destruct (IH (fun i k => v (sk i) k - a i * v p k)%Qc) as (c & (i0 & Hi0 & Nc) & C).
      pose (un := fun j => if Nat.ltb j p then j else j - 1).
      pose (c' := fun j => if Nat.eqb j p then (- qs (S n) (fun i => c i * a i))%Qc else c (un j)).
      assert (Csk : forall i, c' (sk i) = c i).
      { intros i. unfold c', sk, un. destruct (Nat.ltb_spec i p).
        - destruct (Nat.eqb_spec i p); [lia|]. destruct (Nat.ltb_spec i p); [reflexivity|lia].
        - destruct (Nat.eqb_spec (S i) p); [lia|]. destruct (Nat.ltb_spec (S i) p); [lia|]. f_equal. lia. }
      exists c'. split.
      * exists (sk i0). split; [unfold sk; destruct (Nat.ltb i0 p); lia|]. now rewrite Csk.
      * intros k Hk. rewrite (qs_skip (S n) p _ Hp). fold sk.
        rewrite (qs_ext (S n) (fun i => c' (if Nat.ltb i p then i else S i) * v (if Nat.ltb i p then i else S i) k)%Qc (fun i => c i * (v (sk i) k - a i * v p k) + c i * a i * v p k)%Qc).
        2:{ intros i _. fold (sk i). rewrite Csk. ring. }
        rewrite qs_add, qs_scal_r. assert (Cp : c' p = (- qs (S n) (fun i => c i * a i))%Qc) by (unfold c'; now rewrite Nat.eqb_refl).
        rewrite Cp. destruct (Nat.eq_dec k n) as [->|Ne].
        -- rewrite qs_zero; [ring|]. intros i _. unfold a. field. exact Np.
        -- rewrite C by lia. ring.
    + destruct (IH v) as (c & (i0 & Hi0 & Nc) & C).
      exists (fun i => if Nat.eqb i (S n) then 0%Qc else c i). split.
      * exists i0. split; [lia|]. destruct (Nat.eqb_spec i0 (S n)); [lia|auto].
      * intros k Hk. rewrite qs_S, Nat.eqb_refl. destruct (Nat.eq_dec k n) as [->|Ne].
        -- rewrite qs_zero; [ring|]. intros i Hi. rewrite Z by lia. ring.
        -- rewrite (qs_ext (S n) _ (fun i => c i * v i k)%Qc).
           ++ rewrite C by lia. ring.
           ++ intros i Hi. destruct (Nat.eqb_spec i (S n)); [lia|reflexivity].
Qed.

(** ** matrices *)
Lemma mvec_ext n A B x y i : i < n -> meq n A B -> veq n x y -> mvec n A x i = mvec n B y i.
Proof. intros Hi HA Hx. apply qs_ext. intros k Hk. rewrite (HA i k Hi Hk), (Hx k Hk). reflexivity. Qed.
Lemma mvec_mmul n A B x i : mvec n (mmul n A B) x i = mvec n A (mvec n B x) i.
Proof.
  unfold mvec, mmul. rewrite (qs_ext n (fun k => qs n _ * x k)%Qc (fun k => qs n (fun l => A i l * B l k * x k)%Qc)) by (intros; now rewrite qs_scal_r).
  rewrite qs_swap. apply qs_ext. intros l _. rewrite <- qs_scal. apply qs_ext. intros. ring.
Qed.
Lemma mmul_assoc n A B C i j : mmul n (mmul n A B) C i j = mmul n A (mmul n B C) i j.
Proof. exact (mvec_mmul n A B (fun k => C k j) i). Qed.
Lemma mmul_ext n A A' B B' : meq n A A' -> meq n B B' -> meq n (mmul n A B) (mmul n A' B').
Proof. intros HA HB i j Hi Hj. apply qs_ext. intros k Hk. now rewrite (HA i k), (HB k j). Qed.
Lemma mvec_eye n x i : i < n -> mvec n eye x i = x i.
Proof. apply eye_l. Qed.
Lemma mmul_eye_l n A : meq n (mmul n eye A) A.
Proof. intros i j Hi Hj. apply (eye_l n i (fun k => A k j) Hi). Qed.
Lemma mmul_eye_r n A : meq n (mmul n A eye) A.
Proof. intros i j Hi Hj. apply (eye_r n j (fun k => A i k) Hj). Qed.
Lemma mvec_add n A x y i : mvec n A (fun k => x k + y k)%Qc i = (mvec n A x i + mvec n A y i)%Qc.
Proof. unfold mvec. rewrite <- qs_add. apply qs_ext. intros. ring. Qed.
Lemma mvec_sub n A x y i : mvec n A (fun k => x k - y k)%Qc i = (mvec n A x i - mvec n A y i)%Qc.
Proof. unfold mvec. rewrite <- qs_sub. apply qs_ext. intros. ring. Qed.
Lemma mvec_opp n A x i : mvec n A (fun k => - x k)%Qc i = (- mvec n A x i)%Qc.
Proof. unfold mvec. rewrite <- qs_opp. apply qs_ext. intros. ring. Qed.
Lemma meq_sym n A B : meq n A B -> meq n B A.
Proof. intros H i j Hi Hj. symmetry. auto. Qed.
Lemma meq_trans n A B C : meq n A B -> meq n B C -> meq n A C.
Proof. intros H K i j Hi Hj. rewrite H, K; auto. Qed.

(** a left inverse of a square matrix is a right inverse *)
Lemma left_right n A B : meq n (mmul n B A) eye -> meq n (mmul n A B) eye.
Proof.
  intros H.
  assert (Surj : forall y : vec, exists x : vec, veq n (mvec n A x) y).
  { intros y. destruct (dependent n (fun i k => if Nat.eqb i n then y k else A k i)) as (c & (i0 & Hi0 & Nc) & C).
    assert (C' : forall k, k < n -> (mvec n A c k + c n * y k)%Qc = 0%Qc).
    { intros k Hk. rewrite <- (C k Hk), qs_S, Nat.eqb_refl. f_equal. apply qs_ext. intros i Hi.
      destruct (Nat.eqb_spec i n); [lia|]. ring. }
    destruct (Qc_eq_dec (c n) 0%Qc) as [Z|NZ].
    - exfalso. apply Nc. destruct (Nat.eq_dec i0 n) as [->|]; [exact Z|].
      assert (Hi : i0 < n) by lia. rewrite <- (mvec_eye n c i0 Hi).
      rewrite <- (mvec_ext n (mmul n B A) eye c c i0 Hi H ltac:(intros ? ?; reflexivity)).
      rewrite mvec_mmul. apply qs_zero. intros k Hk. specialize (C' k Hk). rewrite Z in C'.
      assert (mvec n A c k = 0)%Qc as -> by (rewrite <- C'; ring). ring.
    - exists (fun i => - c i / c n)%Qc. intros k Hk. specialize (C' k Hk).
      assert (E : mvec n A (fun i => - c i / c n)%Qc k = (- mvec n A c k / c n)%Qc).
      { unfold mvec. rewrite (qs_ext n _ (fun i => (- (1) / c n) * (A k i * c i))%Qc) by (intros; field; auto).
        rewrite qs_scal. field. auto. }
      rewrite E. assert (mvec n A c k = - (c n * y k))%Qc as ->. { rewrite <- (Qcplus_0_l (- _)), <- C'. ring. } field. auto. }
  intros i j Hi Hj.
  destruct (Surj (fun k => eye k j)) as (x & X).
  assert (E : mmul n A B i j = mvec n (mmul n A B) (fun k => eye k j) i) by (symmetry; apply (eye_r n j (fun k => mmul n A B i k) Hj)).
  rewrite E.
  rewrite (mvec_ext n _ (mmul n A B) _ (mvec n A x) i Hi) by (try (intros ? ? ? ?; reflexivity); intros k Hk; symmetry; now apply X).
  rewrite mvec_mmul. rewrite <- (X i Hi).
  apply mvec_ext; [auto|intros ? ? ? ?; reflexivity|]. intros k Hk. rewrite <- mvec_mmul.
  rewrite (mvec_ext n _ eye x x k Hk H) by (intros ? ?; reflexivity). now apply mvec_eye.
Qed.
