(** Concrete cases for the examples and refutations of C88. *)
From Coq Require Import List Arith Bool ZArith QArith Qreals Qcanon Qabs Reals Lia Lra Ring Field Permutation.
From Verif Require Import Base BaseFacts Rings FloatCmp_Model LatGen_Model PointGp_Model PointGp_Lin PointGp_Tables PointGp_Ex ARNN_Model ARNN_Proofs ToArray_Model
  Estim_Model Estim_Proofs SpaceGp_Model SpaceGp_Proofs Little_Model Little_Spec Little_Proofs Little_Phase Little_Char.
Import ListNotations.
Open Scope nat_scope.

Lemma zc_1 : zc 1 = 1%Qc.
Proof. qcv. Qed.
Lemma symmorphic_fit D G y : symmorphic D G -> phases_fit D G y.
Proof.
  intros S p q g Hp Hq Hg _. assert (Z : forall v, kdot D (k_w (sym G g)) v = 0%Q).
  { intros v. unfold kdot. rewrite (qs_zero D (fun d => k_w (sym G g) d * v d)%Qc); [reflexivity|]. intros d Hd. rewrite S by assumption. ring. }
  now rewrite !Z.
Qed.
Lemma diag_waves B G : (forall p d, p < length G -> d < b_dim B -> exists s : Z, forall y, moved_k (b_dim B) G p y d = (zc s * y d)%Qc) -> keeps_waves B G.
Proof.
  intros H p y Hp W d Hd. destruct (H p d Hp Hd) as (s & E). destruct (W d Hd) as (z & Ez & O). exists (s * z)%Z. rewrite E, zc_mul, <- Ez. split; [ring|].
  intros P. rewrite (O P). apply Z.mul_0_r.
Qed.

(** the chain of four sites with its reflection *)
Definition chain_box := KB [4%Z] [true].
Definition m1 (a : Z) : mat := fun _ _ => zc a.
Definition chain := [KS (m1 1) (fun _ => 0%Qc); KS (m1 (-1)) (fun _ => 0%Qc)].
Definition flip_first := [KS (m1 (-1)) (fun _ => 0%Qc); KS (m1 1) (fun _ => 0%Qc)].
Definition k4 : vec := fun _ => Q2Qc (1 # 4).
Definition at_one (g : nat) : cpx := if Nat.eqb g 0 then (1, 0)%R else (0, 0)%R.
Lemma chain_at p y d : p < 2 -> d < 1 -> moved_k 1 chain p y d = (zc (if Nat.eqb p 0 then 1 else -1) * y d)%Qc.
Proof. intros Hp Hd. unfold moved_k, mvec. cbn [fsum qC T r0 radd]. small; cbn [chain sym nth k_mat Nat.eqb]; unfold m1; ring. Qed.
Lemma chain_box_ok : proper_box chain_box.
Proof. repeat split; [repeat constructor; lia|discriminate]. Qed.
Lemma chain_first : first_is_identity 1 chain.
Proof. intros y d Hd. rewrite chain_at by lia. cbn [Nat.eqb]. rewrite zc_1. ring. Qed.
Lemma chain_waves : keeps_waves chain_box chain.
Proof. apply diag_waves. intros p d Hp Hd. exists (if Nat.eqb p 0 then 1 else -1)%Z. intros y. now apply chain_at. Qed.
Lemma k4_wave : wave chain_box k4.
Proof. intros d Hd. cbn in Hd. small. exists 1%Z. split; [qcv|discriminate]. Qed.
Lemma chain_group : group_table 2 Nat.lxor (fun p => p).
Proof. constructor; try lia; intros; small; cbn; repeat split; lia. Qed.
Lemma chain_acting : acting 1 chain Nat.lxor.
Proof.
  split; [exact chain_first|]. split.
  - intros p q y d Hp Hq Hd. cbn [length chain] in Hp, Hq. rewrite !chain_at by (assumption || (small; cbn; lia)). rewrite Qcmult_assoc, <- zc_mul. f_equal. small; reflexivity.
  - intros p y Hp H d Hd. destruct (H d Hd) as (z & E). rewrite chain_at, E by assumption. exists ((if Nat.eqb p 0 then 1 else -1) * z)%Z. rewrite zc_mul. ring.
Qed.
Lemma quarter_not_int z : Q2Qc (1 # 4) <> zc z /\ Q2Qc (1 # 2) <> zc z.
Proof.
  split; intros E; apply (f_equal this) in E; pose proof (zc_this z) as X; rewrite <- E in X; unfold Qeq, inject_Z in X; cbn -[Z.mul] in X; lia.
Qed.
Lemma chain_little p : in_little 1 chain k4 p <-> p = 0.
Proof.
  split.
  - intros [Hp H]. cbn in Hp. destruct p as [|[|p]]; [reflexivity| |lia]. exfalso. destruct (H 0 ltac:(lia)) as (z & E). rewrite chain_at in E by lia. cbn [Nat.eqb] in E.
    apply (proj2 (quarter_not_int (- z))). rewrite zc_opp. assert (X : zc z = (zc (-1) * k4 0%nat - k4 0%nat)%Qc) by (rewrite E; ring). rewrite X. qcv.
  - intros ->. split; [cbn; lia|]. intros d Hd. exists 0%Z. rewrite chain_at by (cbn; lia). cbn [Nat.eqb]. rewrite zc_1, zc_0. ring.
Qed.
Lemma chain_class : class_function 1 chain Nat.lxor (fun p => p) k4 at_one.
Proof.
  split.
  - intros g H. unfold at_one. destruct (Nat.eqb_spec g 0) as [->|]; [exfalso; apply H, chain_little; reflexivity|reflexivity].
  - intros g h Hg Hh. apply chain_little in Hg, Hh. now subst.
Qed.
Lemma chain_symmorphic : symmorphic 1 chain.
Proof. intros g d Hg Hd. cbn in Hg. small; reflexivity. Qed.
Lemma chain_index : little_index chain_box chain k4 = Ok [0] /\ little_index chain_box chain (fun _ => Q2Qc (1 # 2)) = Ok [0; 1].
Proof. split; vm_compute; reflexivity. Qed.
Lemma chain_far : far_from_waves chain_box (fun _ => Q2Qc (1 # 8)).
Proof.
  exists 0. split; [cbn; lia|]. left. intros z H. assert (X : (this (zc (b_ext chain_box 0) * Q2Qc (1 # 8))%Qc == 1 # 2)%Q) by (vm_compute; reflexivity). rewrite X in H.
  apply Qabs_Qle_condition in H. destruct H as [H H']. unfold Qle, Qminus, Qplus, Qopp, inject_Z, default_atol in H, H'. cbn -[Z.add Z.mul Z.opp] in H, H'. lia.
Qed.
Lemma chain_continued : continued [0] [(1, 0)%R] at_one.
Proof. split; [intros j Hj; cbn in Hj; small; reflexivity|]. intros g H. unfold at_one. destruct (Nat.eqb_spec g 0) as [->|]; [exfalso; apply H; now left|reflexivity]. Qed.
Lemma little_refuted : exists B G y idx, proper_box B /\ keeps_waves B G /\ wave B y /\ little_index B G y = Ok idx /\
  (exists p, p < length G /\ (forall v d, d < b_dim B -> moved_k (b_dim B) G p v d = v d) /\ ~ In p idx) /\ (exists p, In p idx /\ ~ in_little (b_dim B) G y p).
Proof.
  assert (A : forall p y d, p < 2 -> d < 1 -> moved_k 1 flip_first p y d = (zc (if Nat.eqb p 0 then -1 else 1) * y d)%Qc).
  { intros p y d Hp Hd. unfold moved_k, mvec. cbn [fsum qC T r0 radd]. small; cbn [flip_first sym nth k_mat Nat.eqb]; unfold m1; ring. }
  exists chain_box, flip_first, k4, [0]. split; [exact chain_box_ok|]. split; [|split; [exact k4_wave|split; [vm_compute; reflexivity|split]]].
  - apply diag_waves. intros p d Hp Hd. exists (if Nat.eqb p 0 then -1 else 1)%Z. intros y. now apply A.
  - exists 1. split; [cbn; lia|]. split; [|cbn; intros [H|[]]; discriminate]. intros v d Hd. change (b_dim chain_box) with 1 in *. rewrite A by lia. cbn [Nat.eqb]. rewrite zc_1. ring.
  - exists 0. split; [now left|]. intros [_ H]. destruct (H 0 ltac:(cbn; lia)) as (z & E). change (b_dim chain_box) with 1 in *. rewrite A in E by lia. cbn [Nat.eqb] in E.
    apply (proj2 (quarter_not_int (- z))). rewrite zc_opp. assert (X : zc z = (zc (-1) * k4 0%nat - k4 0%nat)%Qc) by (rewrite E; ring). rewrite X. qcv.
Qed.

(** rotations by a quarter turn of the square, at k = 0 *)
Definition sq_box := KB [2; 2]%Z [true; true].
Definition m2 (a b c d : Z) : mat := fun i j => zc (nth j (nth i [[a; b]; [c; d]]%Z []) 0%Z).
Definition turns := map (fun m => KS m (fun _ => 0%Qc)) [m2 1 0 0 1; m2 0 (-1) 1 0; m2 (-1) 0 0 (-1); m2 0 1 (-1) 0].
Definition mul4 (p q : nat) := (p + q) mod 4.
Definition inv4 (p : nat) := (4 - p) mod 4.
Definition k0 : vec := fun _ => 0%Qc.
Definition turn_row : list cpx := [(1, 0); (0, 1); (-1, 0); (0, -1)]%R.
Definition turn_X (g : nat) : cpx := nth g turn_row (0, 0)%R.
Lemma turns_at p v : p < 4 -> moved_k 2 turns p v 0 = (nth p [v 0%nat; - v 1%nat; - v 0%nat; v 1%nat] 0)%Qc /\ moved_k 2 turns p v 1 = (nth p [v 1%nat; v 0%nat; - v 1%nat; - v 0%nat] 0)%Qc.
Proof.
  intros Hp. unfold moved_k, mvec, turns, m2, sym. cbn [fsum qC T r0 radd].
  do 4 (destruct p as [|p]; [cbn [map nth k_mat]; rewrite ?zc_0, ?zc_1; change (zc (-1)) with (- (1))%Qc; split; ring|]). lia.
Qed.
Lemma turns_first : first_is_identity 2 turns.
Proof. intros y d Hd. destruct (turns_at 0 y ltac:(lia)) as [A C]. small; [exact A|exact C]. Qed.
Lemma turns_waves : keeps_waves sq_box turns.
Proof.
  intros p y Hp W d Hd. change (b_dim sq_box) with 2 in *. change (length turns) with 4 in Hp. destruct (turns_at p y Hp) as [A C].
  destruct (W 0 ltac:(cbn; lia)) as (z & Ez & _), (W 1 ltac:(cbn; lia)) as (z' & Ez' & _). change (b_ext sq_box 0) with 2%Z in *. change (b_ext sq_box 1) with 2%Z in *.
  assert (N : forall v, (zc 2 * - v = - (zc 2 * v))%Qc) by (intros; ring).
  destruct d as [|[|d]]; [| |cbn in Hd; lia]; change (b_ext sq_box 0) with 2%Z; change (b_ext sq_box 1) with 2%Z; [rewrite A|rewrite C];
    (do 4 (destruct p as [|p]; [cbn [nth]; rewrite ?N, ?Ez, ?Ez', <- ?zc_opp; eexists; split; [reflexivity|discriminate]|])); lia.
Qed.
Lemma k0_wave B : wave B k0.
Proof. intros d Hd. exists 0%Z. split; [unfold k0; rewrite zc_0; ring|reflexivity]. Qed.
Lemma turns_index : little_index sq_box turns k0 = Ok [0; 1; 2; 3].
Proof. vm_compute. reflexivity. Qed.
Lemma turn_continued : continued [0; 1; 2; 3] turn_row turn_X.
Proof.
  split; [intros j Hj; cbn in Hj; small; reflexivity|]. intros g H. unfold turn_X. rewrite nth_overflow; [reflexivity|]. cbn. destruct (Nat.lt_ge_cases g 4) as [L|L]; [|exact L].
  exfalso. apply H. cbn. lia.
Qed.
Lemma imag_refuted : exists B G mul inv CT y idx M row X out, proper_box B /\ G <> [] /\ first_is_identity (b_dim B) G /\ keeps_waves B G /\ wave B y /\
  group_table (length G) mul inv /\ little_index B G y = Ok idx /\ irreps B G (conjugated mul inv) CT y = Ok M /\
  nth_error CT 0 = Some row /\ length row = length idx /\ continued idx row X /\ nth_error M 0 = Some out /\
  ~ Forall2 (fun z tg => rounded_off z (induced (b_dim B) G (conjugated mul inv) (length idx) X y (fst tg) (snd tg))) out
      (list_prod (trans_tuples B (seq 0 (b_dim B))) (seq 0 (length G))).
Proof.
  exists sq_box, turns, mul4, inv4, [turn_row], k0, [0; 1; 2; 3]. do 2 eexists. exists turn_X. eexists.
  split; [repeat split; [repeat constructor; lia|discriminate]|]. split; [discriminate|]. split; [exact turns_first|]. split; [exact turns_waves|]. split; [apply k0_wave|].
  split; [constructor; [cbn; lia|..]; intros; change (length turns) with 4 in *; small; vm_compute; repeat split; lia|].
  split; [exact turns_index|]. split; [unfold irreps; rewrite turns_index; cbn [bind]; rewrite (recip_ok sq_box _ (star_waves sq_box turns k0 turns_waves (k0_wave _))); cbn [bind]; reflexivity|].
  split; [reflexivity|]. split; [reflexivity|]. split; [exact turn_continued|]. split; [reflexivity|].
  change (b_dim sq_box) with 2. change (length turns) with 4. change (list_prod (trans_tuples sq_box (seq 0 2)) (seq 0 4)) with
   (([0; 0]%Z, 0) :: ([0; 0]%Z, 1) :: ([0; 0]%Z, 2) :: ([0; 0]%Z, 3) :: list_prod (tl (trans_tuples sq_box (seq 0 2))) (seq 0 4)).
  cbn [map]. intros F. inversion F as [|? ? ? ? _ F1]; subst. inversion F1 as [|? ? ? ? H _]; subst. clear F F1. cbn [fst snd] in H. destruct H as [_ H]. revert H.
  assert (Z0 : forall u p, p < 4 -> kdot 2 u (moved_k 2 turns p k0) = 0%Q).
  { intros u p Hp. unfold kdot. rewrite (qs_zero 2 (fun d => u d * moved_k 2 turns p k0 d)%Qc); [reflexivity|]. intros d Hd. destruct (turns_at p k0 Hp) as [A C].
    assert (E : moved_k 2 turns p k0 d = 0%Qc); [|rewrite E; ring]. small; rewrite ?A, ?C; reflexivity. }
  unfold induced. change (length turns) with 4.
  rewrite (fsum_ext cC 4 (fun p => rmul cC (turn_X (conjugated mul4 inv4 1 p)) (phase (kdot 2 (moves_by turns [0; 0]%Z 1) (moved_k 2 turns p k0)))) (fun _ => (0, 1)%R)).
  2:{ intros p Hp. rewrite Z0, phase_0 by exact Hp. assert (E : conjugated mul4 inv4 1 p = 1) by (small; reflexivity). rewrite E. unfold turn_X. cbn [nth turn_row]. ring. }
  unfold rounded, prune_c. cbn [snd]. intros H. 
  assert (V : snd (rscal (/ INR (length [0; 1; 2; 3])) (fsum cC 4 (fun _ => (0, 1)%R))) = 1%R).
  { unfold rscal. cbn [length INR fsum cC radd r0 fst snd]. lra. }
  rewrite V in H. rewrite Rabs_R1 in H. destruct H as [[H _]|[_ H]]; [lra|].
  match type of H with prune_r ?s = _ => assert (E : s = 0%R) end.
  { cbn [fsum cC radd rmul r0 fst snd]. unfold Rdiv. ring. }
  rewrite E in H. unfold prune_r in H. rewrite Rabs_R0 in H. destruct (Rle_dec 0 (1 / 100000000)) as [L|L]; lra.
Qed.

(** the plane group pgg at k = (1/2, 0) *)
Definition half (i : nat) : Qc := Q2Qc (1 # 2).
Definition pgg := [KS (m2 1 0 0 1) k0; KS (m2 (-1) 0 0 (-1)) k0; KS (m2 1 0 0 (-1)) half; KS (m2 (-1) 0 0 1) half].
Definition kX : vec := fun d => if Nat.eqb d 0 then Q2Qc (1 # 2) else 0%Qc.
Definition sx (p : nat) : Z := nth p [1; -1; 1; -1]%Z 0%Z.
Definition sy (p : nat) : Z := nth p [1; -1; -1; 1]%Z 0%Z.
Lemma pgg_at p v : p < 4 -> moved_k 2 pgg p v 0 = (zc (sx p) * v 0%nat)%Qc /\ moved_k 2 pgg p v 1 = (zc (sy p) * v 1%nat)%Qc.
Proof.
  intros Hp. unfold moved_k, mvec, pgg, m2, sym. cbn [fsum qC T r0 radd].
  do 4 (destruct p as [|p]; [cbn [nth k_mat sx sy]; rewrite ?zc_0; split; ring|]). lia.
Qed.
Definition sxy (p d : nat) : Z := if Nat.eqb d 0 then sx p else sy p.
Lemma pgg_d p v d : p < 4 -> d < 2 -> moved_k 2 pgg p v d = (zc (sxy p d) * v d)%Qc.
Proof. intros Hp Hd. destruct (pgg_at p v Hp) as [A C]. destruct d as [|[|d]]; [exact A|exact C|lia]. Qed.
Lemma pgg_first : first_is_identity 2 pgg.
Proof. intros y d Hd. rewrite pgg_d by lia. assert (E : sxy 0 d = 1%Z) by (small; reflexivity). rewrite E, zc_1. ring. Qed.
Lemma pgg_waves : keeps_waves sq_box pgg.
Proof. apply diag_waves. intros p d Hp Hd. exists (sxy p d). intros y. now apply pgg_d. Qed.
Lemma four_group : group_table 4 Nat.lxor (fun p => p).
Proof. constructor; try lia; intros; small; cbn; repeat split; lia. Qed.
Lemma pgg_acting : acting 2 pgg Nat.lxor.
Proof.
  split; [exact pgg_first|]. split.
  - intros p q y d Hp Hq Hd. change (length pgg) with 4 in *. assert (L : Nat.lxor p q < 4) by (now apply (gt_mul _ _ _ four_group)). rewrite !pgg_d by assumption.
    rewrite Qcmult_assoc, <- zc_mul. f_equal. clear L. small; reflexivity.
  - intros p y Hp H d Hd. destruct (H d Hd) as (z & E). rewrite pgg_d, E by assumption. exists (sxy p d * z)%Z. rewrite zc_mul. ring.
Qed.
Lemma pgg_composes : composes 2 pgg Nat.lxor.
Proof.
  intros p q d Hp Hq Hd. change (length pgg) with 4 in *. rewrite pgg_d by assumption.
  exists (if Nat.ltb q 2 then 0 else if Nat.ltb p 2 then (if Z.eqb (sxy p d) 1 then 0 else -1) else (if Z.eqb (sxy p d) 1 then 1 else 0))%Z. small; qcv.
Qed.
Lemma kX_wave : wave sq_box kX.
Proof. intros d Hd. cbn in Hd. exists (if Nat.eqb d 0 then 1 else 0)%Z. small; split; try discriminate; qcv. Qed.
Lemma pgg_little p : In p [0; 1; 2; 3] <-> in_little 2 pgg kX p.
Proof.
  split.
  - intros H. assert (Hp : p < 4) by (cbn in H; lia). split; [exact Hp|]. intros d Hd. rewrite pgg_d by assumption. exists (if Nat.eqb d 0 then (if Z.eqb (sx p) 1 then 0 else -1) else 0)%Z. clear H. small; qcv.
  - intros [Hp _]. change (length pgg) with 4 in Hp. cbn. lia.
Qed.
Definition all_one (g : nat) : cpx := if Nat.ltb g 4 then (1, 0)%R else (0, 0)%R.
Lemma all_one_class : class_function 2 pgg Nat.lxor (fun p => p) kX all_one.
Proof.
  split.
  - intros g H. unfold all_one. destruct (Nat.ltb_spec g 4) as [L|]; [|reflexivity]. exfalso. apply H, pgg_little. cbn. lia.
  - intros g h [Hg _] [Hh _]. change (length pgg) with 4 in *. unfold all_one. small; reflexivity.
Qed.
Ltac tonat := repeat match goal with |- context [Z.to_nat ?a] => let b := eval vm_compute in (Z.to_nat a) in change (Z.to_nat a) with b end.
Lemma phase_quarter k : phase (k # 4) = nth (Z.to_nat (k mod 4)) [(1, 0); (0, -1); (-1, 0); (0, 1)]%R (0, 0)%R.
Proof.
  assert (M : (0 <= k mod 4 < 4)%Z) by (apply Z.mod_pos_bound; lia). pose proof (Z.div_mod k 4 ltac:(lia)) as E.
  set (r := (k mod 4)%Z) in *. assert (P : phase (k # 4) = phase (r # 4)).
  { rewrite (phase_ext (k # 4) (inject_Z (k / 4) + (r # 4))); [rewrite phase_add, phase_int; generalize (phase (r # 4)); intros x; change (r1 cC * x = x)%C; ring|]. unfold Qeq, Qplus, inject_Z. cbn -[Z.mul Z.add Z.div]. lia. }
  rewrite P. unfold phase. assert (Q : forall z, Q2R (z # 4) = (IZR z / 4)%R) by (intros; unfold Q2R; cbn [Qnum Qden]; reflexivity). rewrite Q.
  assert (C : r = 0%Z \/ r = 1%Z \/ r = 2%Z \/ r = 3%Z) by lia. clear - C. destruct C as [-> |[-> |[-> | ->]]]; tonat; cbn [nth].
  - replace (2 * PI * (0 / 4))%R with 0%R by field. rewrite cos_0, sin_0. f_equal; ring.
  - replace (2 * PI * (1 / 4))%R with (PI / 2)%R by field. rewrite cos_PI2, sin_PI2. f_equal; ring.
  - replace (2 * PI * (2 / 4))%R with PI by field. rewrite cos_PI, sin_PI. f_equal; ring.
  - replace (2 * PI * (3 / 4))%R with (3 * (PI / 2))%R by field. rewrite cos_3PI2, sin_3PI2. f_equal; ring.
Qed.
Lemma pgg_sum : lsum cC (map (fun t => fsum cC 4 (fun g => induced 2 pgg (conjugated Nat.lxor (fun p => p)) 4 all_one kX t g * conj (induced 2 pgg (conjugated Nat.lxor (fun p => p)) 4 all_one kX t g))%C)
  (trans_tuples sq_box (seq 0 2))) = (8, 0)%R.
Proof.
  assert (H : forall t g, In t (trans_tuples sq_box (seq 0 2)) -> g < 4 ->
    induced 2 pgg (conjugated Nat.lxor (fun p => p)) 4 all_one kX t g = if Nat.ltb g 2 then (if Z.eqb (nth 0 t 0%Z) 0 then (1, 0)%R else (-1, 0)%R) else (0, 0)%R).
  { intros t g Ht Hg. unfold induced. change (length pgg) with 4.
    rewrite (fsum_ext cC 4 _ (fun p => phase ((sx p * ((if Nat.ltb g 2 then 0 else 1) + 2 * nth 0 t 0%Z)) # 4))).
    2:{ intros p Hp. assert (E : all_one (conjugated Nat.lxor (fun p => p) g p) = r1 cC) by (clear Ht; small; reflexivity). rewrite E.
      transitivity (phase (kdot 2 (moves_by pgg t g) (moved_k 2 pgg p kX))); [ring|]. apply phase_ext.
      cbn in Ht. clear E. destruct Ht as [<-|[<-|[<-|[<-|[]]]]]; small; vm_compute; reflexivity. }
    cbn [fsum]. rewrite !phase_quarter. cbn in Ht.
    destruct Ht as [<-|[<-|[<-|[<-|[]]]]]; small; tonat; cbn [nth fsum cC radd r0 Nat.ltb Nat.leb Z.eqb Z.of_nat Pos.of_succ_nat]; unfold rscal; cbn [fst snd INR]; f_equal; lra. }
  rewrite (lsum_ext _ (fun t => (2, 0)%R)).
  - change (trans_tuples sq_box (seq 0 2)) with [[0; 0]; [0; 1]; [1; 0]; [1; 1]]%Z. cbn [map lsum]. cpx; ring.
  - intros t Ht. rewrite (fsum_ext cC 4 _ (fun g => if Nat.ltb g 2 then (1, 0)%R else (0, 0)%R)).
    + cbn [fsum Nat.ltb Nat.leb]. cpx; ring.
    + intros g Hg. rewrite (H t g Ht Hg). destruct (Nat.ltb g 2); [destruct (Z.eqb _ _)|]; cpx; ring.
Qed.
Lemma nonsymmorphic_refuted : exists B G mul inv y X idx, proper_box B /\ group_table (length G) mul inv /\ acting (b_dim B) G mul /\ composes (b_dim B) G mul /\ keeps_waves B G /\ wave B y /\
  little_index B G y = Ok idx /\ NoDup idx /\ (forall p, In p idx <-> in_little (b_dim B) G y p) /\ class_function (b_dim B) G mul inv y X /\
  fsum cC (length G) (fun h => X h * conj (X h))%C = rscal (INR (length idx)) (r1 cC) /\
  lsum cC (map (fun t => fsum cC (length G) (fun g => induced (b_dim B) G (conjugated mul inv) (length idx) X y t g * conj (induced (b_dim B) G (conjugated mul inv) (length idx) X y t g))%C)
    (trans_tuples B (seq 0 (b_dim B)))) <> rscal (INR (n_trans B) * INR (length G)) (r1 cC).
Proof.
  exists sq_box, pgg, Nat.lxor, (fun p => p), kX, all_one, [0; 1; 2; 3]. split; [repeat split; [repeat constructor; lia|discriminate]|].
  split; [exact four_group|]. split; [exact pgg_acting|]. split; [exact pgg_composes|]. split; [exact pgg_waves|]. split; [exact kX_wave|]. split; [vm_compute; reflexivity|].
  split; [repeat constructor; cbn; lia|]. split; [exact pgg_little|]. split; [exact all_one_class|]. split.
  - unfold rscal. change (length pgg) with 4. unfold all_one. cbn [fsum length INR Nat.ltb Nat.leb]. cpx; ring.
  - change (length pgg) with 4. change (b_dim sq_box) with 2. change (length [0; 1; 2; 3]) with 4. rewrite pgg_sum. intros E. apply (f_equal fst) in E. change (n_trans sq_box) with 4 in E. unfold rscal in E. cbn [fst snd INR cC r1] in E. lra.
Qed.

(** ** statements *)
Lemma little_group_thm : forall B G y, proper_box B -> G <> [] -> first_is_identity (b_dim B) G -> keeps_waves B G -> wave B y ->
  exists idx, little_index B G y = Ok idx /\ NoDup idx /\ (forall p, In p idx <-> in_little (b_dim B) G y p).
Proof. exact little_main. Qed.
Lemma subgroup_thm : forall D G mul inv, group_table (length G) mul inv -> acting D G mul -> forall y,
  in_little D G y 0 /\ (forall p q, in_little D G y p -> in_little D G y q -> in_little D G y (mul p q)) /\ (forall p, in_little D G y p -> in_little D G y (inv p)).
Proof.
  intros D G mul inv GT AC y. split; [eapply little_one; eassumption|]. split; [intros p q; now apply (little_mul D G mul inv GT AC)|intros p; now apply (little_inv D G mul inv GT AC)].
Qed.
Lemma invalid_thm : forall B G ct CT y p, p < length G -> far_from_waves B (moved_k (b_dim B) G p y) -> little_index B G y = Err Exception_ /\ irreps B G ct CT y = Err Exception_.
Proof. intros B G ct CT y p Hp F. pose proof (little_far B G y p Hp F) as E. split; [exact E|]. unfold irreps. now rewrite E. Qed.
Lemma ortho_thm : forall B G mul inv y X X' idx, proper_box B -> group_table (length G) mul inv -> acting (b_dim B) G mul -> keeps_waves B G -> wave B y ->
  NoDup idx -> (forall p, In p idx <-> in_little (b_dim B) G y p) -> class_function (b_dim B) G mul inv y X -> class_function (b_dim B) G mul inv y X' ->
  phases_fit (b_dim B) G y ->
  overlap B G (conjugated mul inv) (length idx) X y (length idx) X' y = rscal (INR (n_trans B) * INR (length G) / INR (length idx)) (inner (length G) X X').
Proof. exact ortho. Qed.
Lemma stars_thm : forall B G mul inv cj y y' X X' l l', proper_box B -> group_table (length G) mul inv -> acting (b_dim B) G mul -> keeps_waves B G -> wave B y -> wave B y' ->
  (forall p, p < length G -> ~ equal_waves (b_dim B) (moved_k (b_dim B) G p y) y') -> overlap B G cj l X y l' X' y' = r0 cC.
Proof. exact stars. Qed.
Lemma pgg_thm : exists B G mul inv y X idx, proper_box B /\ group_table (length G) mul inv /\ acting (b_dim B) G mul /\ composes (b_dim B) G mul /\ keeps_waves B G /\ wave B y /\
  little_index B G y = Ok idx /\ NoDup idx /\ (forall p, In p idx <-> in_little (b_dim B) G y p) /\ class_function (b_dim B) G mul inv y X /\
  inner (length G) X X = rscal (INR (length idx)) (r1 cC) /\
  overlap B G (conjugated mul inv) (length idx) X y (length idx) X y <> rscal (INR (n_trans B) * INR (length G)) (r1 cC).
Proof. exact nonsymmorphic_refuted. Qed.
Lemma chain_stars : wave chain_box k0 /\ (forall p, p < length chain -> ~ equal_waves 1 (moved_k 1 chain p k4) k0).
Proof.
  split; [apply k0_wave|]. intros p Hp H. destruct (H 0 ltac:(lia)) as (z & E). cbn in Hp. rewrite chain_at in E by lia. unfold k0 in E.
  assert (X : Q2Qc (1 # 4) = zc (if Nat.eqb p 0 then z else - z)).
  { assert (E' : zc z = (zc (if Nat.eqb p 0 then 1 else -1) * k4 0%nat)%Qc) by (rewrite E; ring). destruct (Nat.eqb p 0); rewrite ?zc_opp, E'; qcv. }
  now apply quarter_not_int in X.
Qed.
