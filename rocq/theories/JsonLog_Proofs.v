From Coq Require Import List ZArith QArith Bool String Lia.
From Verif Require Import Base JsonLog_Model JsonLog_Spec.
Import ListNotations.
Open Scope Z_scope.

Section P.
  Variables A V : Type.
  Variable ser : list (Z * A) -> bool.
  Variables (we spe : Z) (sp : bool) (cost : Q) (d0 : disk A V).
  Hypothesis Hwe : 0 < we.
  Hypothesis Hspe : 0 < spe.
  Notation jop := (jop A V).
  Notation jlog := (jlog A).

  Lemma logged_app (a b : list jop) : logged (a ++ b) = logged a ++ logged b.
  Proof. apply flat_map_app. Qed.

  Definition log_inv (nw : Z) (d : disk A V) (pre : list jop) : Prop :=
    (pre = [] /\ f_log d = f_log d0 /\ nw = 0) \/
    exists r, f_log d = Full r /\ record_of r pre (Z.max 0 (nw - 1)) /\ 0 <= nw <= we.
  Definition pars_inv (np : Z) (d : disk A V) (pre : list jop) : Prop :=
    sp = true -> (n_calls pre = 0%nat /\ np = 0) \/
      exists v, f_pars d = Full v /\ recent v pre (Z.max 0 (np - 1)) /\ 0 <= np <= spe.
  Definition inv (s : jlog) (d : disk A V) (pre : list jop) : Prop :=
    write_every A s = we /\ save_params_every A s = spe /\ save_params A s = sp /\ data s = logged pre /\
    log_inv (notflushed_write A s) d pre /\ pars_inv (notflushed_pars A s) d pre.

  Definition snap_ok (d : disk A V) (pre : list jop) (o : jop) : Prop :=
    f_log d = Torn \/ (pre = [] /\ f_log d = f_log d0) \/
    exists r, f_log d = Full r /\ (record_of r pre (we - 1) \/ record_of r (pre ++ [o]) 0).

  Lemma inv_snap s d pre o : inv s d pre -> snap_ok d pre o.
  Proof.
    intros (_ & _ & _ & _ & [(H1 & H2 & _)|(r & H1 & (rest & H2 & H3) & H4)] & _); [right; left; auto|].
    right; right. exists r. split; [exact H1|]. left. exists rest. split; [exact H2|]. lia.
  Qed.
  Lemma snap_log d d' pre o : f_log d = f_log d' -> snap_ok d pre o -> snap_ok d' pre o.
  Proof. unfold snap_ok. intros ->. auto. Qed.
  Lemma record_all (pre : list jop) : record_of (logged pre) pre 0.
  Proof. exists []. rewrite app_nil_r. split; [reflexivity|cbn; lia]. Qed.
  Lemma recent_more v (pre : list jop) n n' : n <= n' -> recent v pre n -> recent v pre n'.
  Proof. intros H (b & o & a & E & Hm & Hn). exists b, o, a. split; [exact E|]. split; [exact Hm|lia]. Qed.
  Lemma recent_snoc v (pre : list jop) n o : recent v pre n -> recent v (pre ++ [o]) (n + Z.of_nat (n_calls [o])).
  Proof.
    intros (b & o' & a & -> & Hm & Hn). exists b, o', (a ++ [o]). split; [rewrite <- app_assoc; reflexivity|].
    split; [exact Hm|]. unfold n_calls in *. rewrite logged_app, app_length. lia.
  Qed.

  (** flush_log *)
  Lemma flush_log_spec s d t2 t3 e s' d' l : flush_log A V ser s d t2 t3 = (e, s', d', l) ->
    Forall (fun x => f_log x = f_log d \/ f_log x = Torn \/ f_log x = Full (data s)) l /\
    (e = None -> ser (data s) = true /\ f_log d' = Full (data s) /\ f_pars d' = f_pars d /\
       write_every A s' = write_every A s /\ save_params_every A s' = save_params_every A s /\
       save_params A s' = save_params A s /\ data s' = data s /\ notflushed_write A s' = 0 /\
       notflushed_pars A s' = notflushed_pars A s).
  Proof.
    unfold flush_log. cbn [data]. destruct (ser (data s)); intros E; injection E as <- <- <- <-.
    - split; [repeat apply Forall_cons; try apply Forall_nil; cbn; auto|]. intros _. cbn. auto 12.
    - split; [repeat apply Forall_cons; try apply Forall_nil; cbn; auto|]. discriminate.
  Qed.
  Lemma flush_params_spec s d v e s' d' l : flush_params A V s d v = (e, s', d', l) ->
    Forall (fun x => f_log x = f_log d) l /\ e = None /\ f_log d' = f_log d /\
       (save_params A s = true -> f_pars d' = Full v /\ notflushed_pars A s' = 0) /\
       write_every A s' = write_every A s /\ save_params_every A s' = save_params_every A s /\
       save_params A s' = save_params A s /\ data s' = data s /\ notflushed_write A s' = notflushed_write A s.
  Proof.
    unfold flush_params. destruct (save_params A s) eqn:Es; cbn [negb]; intros E; injection E as <- <- <- <-.
    - split; [repeat constructor|]. cbn. auto 14.
    - split; [repeat constructor|]. repeat split; auto; discriminate.
  Qed.
  Lemma and_then_spec (r : step_result A V) f e s d l : and_then A V r f = (e, s, d, l) ->
    (exists e', r = (Some e', s, d, l) /\ e = Some e') \/
    exists s1 d1 l1 l2, r = (None, s1, d1, l1) /\ f s1 d1 = (e, s, d, l2) /\ l = l1 ++ l2.
  Proof.
    destruct r as [[[[e'|] s1] d1] l1]; cbn [and_then].
    - intros E. injection E as <- <- <- <-. left. exists e'. auto.
    - destruct (f s1 d1) as [[[e2 s2] d2] l2] eqn:Ef. intros E. injection E as <- <- <- <-. right. eauto 8.
  Qed.

  Lemma exec_call s d pre step x v t1 t2 t3 e s' d' l : inv s d pre ->
    let o := JCall step x v t1 t2 t3 in
    jcall A V ser s d step x v t1 t2 t3 = (e, s', d', l) ->
    Forall (fun y => snap_ok y pre o) l /\ (e = None -> inv s' d' (pre ++ [o])).
  Proof.
    intros Hi o. assert (Hs := inv_snap _ _ _ o Hi). destruct Hi as (Hw & Hsp & Hb & Hd & Hl & Hp).
    unfold jcall. cbn [write_every save_params_every save_params data notflushed_write notflushed_pars autoflush_cost last_flush_time last_flush_runtime].
    set (s1 := JLog A (write_every A s) (save_params_every A s) (save_params A s) (autoflush_cost A s)
         (data s ++ [(step, x)]) step (notflushed_write A s) (notflushed_pars A s) (last_flush_time A s) (last_flush_runtime A s)).
    destruct (t1 - last_flush_time A s =? 0).
    { intros E. injection E as <- <- <- <-. split; [constructor; [exact Hs|constructor]|discriminate]. }
    set (fa := negb _). destruct (write_every A s =? 0).
    { intros E. injection E as <- <- <- <-. split; [constructor; [exact Hs|constructor]|discriminate]. }
    assert (Hlo : logged (pre ++ [o]) = data s1).
    { rewrite logged_app. cbn [s1 data]. rewrite Hd. reflexivity. }
    assert (SF : forall y, f_log y = Full (data s1) -> snap_ok y pre o).
    { intros y Hy. right; right. exists (data s1). split; [exact Hy|]. right. rewrite <- Hlo. apply record_all. }
    set (c1 := (_ || _ || fa)).
    intros E. apply and_then_spec in E.
    (* state after the log part *)
    assert (First : forall e1 s2 d2 l1,
      (if c1 then flush_log A V ser s1 d t2 t3 else (None, s1, d, [d])) = (e1, s2, d2, l1) ->
      Forall (fun y => snap_ok y pre o) l1 /\
      (e1 = None -> snap_ok d2 pre o /\ f_pars d2 = f_pars d /\ write_every A s2 = we /\ save_params_every A s2 = spe /\ save_params A s2 = sp /\
        data s2 = data s1 /\ notflushed_pars A s2 = notflushed_pars A s /\
        (exists r, f_log d2 = Full r /\ record_of r (pre ++ [o]) (notflushed_write A s2) /\ 0 <= notflushed_write A s2 < we))).
    { intros e1 s2 d2 l1. destruct c1 eqn:Ec.
      - intros E1. apply flush_log_spec in E1. destruct E1 as (Hf & Hn). split.
        + eapply Forall_impl; [|exact Hf]. intros y [Hy|[Hy|Hy]]; [exact (snap_log _ _ _ _ (eq_sym Hy) Hs)|left; exact Hy|apply SF, Hy].
        + intros E0. destruct (Hn E0) as (_ & G1 & G2 & G3 & G4 & G5 & G6 & G7 & G8).
          split; [apply SF, G1|]. split; [exact G2|]. split; [rewrite G3; exact Hw|]. split; [rewrite G4; exact Hsp|].
          split; [rewrite G5; exact Hb|]. split; [exact G6|]. split; [exact G8|].
          exists (data s1). split; [exact G1|]. rewrite G7. split; [rewrite <- Hlo; apply record_all|lia].
      - intros E1. injection E1 as <- <- <- <-. split; [constructor; [exact Hs|constructor]|]. intros _.
        split; [exact Hs|]. split; [reflexivity|]. split; [exact Hw|]. split; [exact Hsp|]. split; [exact Hb|]. split; [reflexivity|].
        split; [reflexivity|]. cbn [s1 notflushed_write].
        unfold c1 in Ec. apply orb_false_iff in Ec. destruct Ec as [Ec _]. apply orb_false_iff in Ec. destruct Ec as [Ec _].
        rewrite Hw in Ec. cbn [s1 notflushed_write] in Ec. apply Z.eqb_neq in Ec.
        destruct Hl as [(_ & _ & H0)|(r & H1 & (rest & H2 & H3) & H4)].
        + rewrite H0, Z.mod_0_l in Ec by lia. congruence.
        + exists r. split; [exact H1|].
          assert (notflushed_write A s <> 0) by (intros H0; rewrite H0, Z.mod_0_l in Ec by lia; congruence).
          assert (notflushed_write A s <> we) by (intros H0; rewrite H0, Z.mod_same in Ec by lia; congruence).
          split; [|lia]. exists (rest ++ [(step, x)]). rewrite Hlo. cbn [s1 data]. rewrite Hd, H2, app_assoc.
          split; [reflexivity|]. rewrite app_length. cbn [List.length]. lia. }
    destruct E as [(e' & E & ->)|(s2 & d2 & l1 & l2 & E1 & E2 & ->)].
    { destruct (First _ _ _ _ E) as (F1 & _). split; [exact F1|discriminate]. }
    destruct (First _ _ _ _ E1) as (F1 & F2). specialize (F2 eq_refl).
    destruct F2 as (F2 & F3 & F4 & F5 & F6 & F7 & F8 & (r & F9 & F10 & F11)).
    clear First E1. rewrite F5 in E2. destruct (spe =? 0).
    { injection E2 as <- <- <- <-. split; [apply Forall_app; split; [exact F1|constructor; [exact F2|constructor]]|discriminate]. }
    apply and_then_spec in E2.
    assert (Second : forall e3 s3 d3 l3,
      (if (notflushed_pars A s2 mod spe =? 0) || (step =? old_step A s - 1) then flush_params A V s2 d2 v else (None, s2, d2, [d2]))
        = (e3, s3, d3, l3) ->
      Forall (fun y => f_log y = f_log d2) l3 /\ e3 = None /\ f_log d3 = f_log d2 /\ write_every A s3 = we /\ save_params_every A s3 = spe /\
        save_params A s3 = sp /\ data s3 = data s1 /\ notflushed_write A s3 = notflushed_write A s2 /\
        (sp = true -> exists w, f_pars d3 = Full w /\ recent w (pre ++ [o]) (notflushed_pars A s3) /\ 0 <= notflushed_pars A s3 < spe)).
    { intros e3 s3 d3 l3. destruct ((notflushed_pars A s2 mod spe =? 0) || (step =? old_step A s - 1)) eqn:Ec.
      - intros E3. apply flush_params_spec in E3. destruct E3 as (G1 & G2 & G3 & G4 & G5 & G6 & G7 & G8 & G9).
        split; [exact G1|]. split; [exact G2|]. split; [exact G3|]. split; [congruence|]. split; [congruence|]. split; [congruence|].
        split; [congruence|]. split; [exact G9|]. intros Ht. rewrite F6 in G4. destruct (G4 Ht) as (G10 & G11).
        exists v. split; [exact G10|]. rewrite G11. split; [|lia].
        exists pre, o, []. cbn. split; [reflexivity|]. split; [reflexivity|lia].
      - intros E3. injection E3 as <- <- <- <-. split; [repeat constructor|]. repeat (split; [solve [auto]|]). intros Ht.
        apply orb_false_iff in Ec. destruct Ec as [Ec _]. rewrite F8 in Ec. apply Z.eqb_neq in Ec.
        destruct (Hp Ht) as [(_ & H0)|(w & H1 & H2 & H3)].
        + rewrite H0, Z.mod_0_l in Ec by lia. congruence.
        + assert (notflushed_pars A s <> 0) by (intros H0; rewrite H0, Z.mod_0_l in Ec by lia; congruence).
          assert (notflushed_pars A s <> spe) by (intros H0; rewrite H0, Z.mod_same in Ec by lia; congruence).
          exists w. split; [rewrite F3; exact H1|]. rewrite F8. split; [|lia].
          eapply recent_more; [|apply recent_snoc; exact H2]. change (n_calls [o]) with 1%nat. lia. }
    destruct E2 as [(e' & E & ->)|(s3 & d3 & l3 & l4 & E3 & E4 & ->)].
    { destruct (Second _ _ _ _ E) as (S1 & S2 & _). discriminate. }
    destruct (Second _ _ _ _ E3) as (S1 & _ & S3 & S4 & S5 & S6 & S7 & S8 & S9).
    injection E4 as <- <- <- <-.
    split.
    - apply Forall_app; split; [exact F1|]. apply Forall_app; split.
      + eapply Forall_impl; [|exact S1]. intros y Hy. exact (snap_log _ _ _ _ (eq_sym Hy) F2).
      + constructor; [exact (snap_log _ _ _ _ (eq_sym S3) F2)|constructor].
    - intros _. unfold inv. cbn [write_every save_params_every save_params data notflushed_write notflushed_pars].
      split; [exact S4|]. split; [exact S5|]. split; [exact S6|]. split; [rewrite Hlo; exact S7|]. split.
      + right. exists r. split; [rewrite S3; exact F9|]. rewrite S8. split; [|lia].
        destruct F10 as (rest & R1 & R2). exists rest. split; [exact R1|lia].
      + intros Ht. right. destruct (S9 Ht) as (w & W1 & W2 & W3). exists w. split; [exact W1|]. split; [|lia].
        eapply recent_more; [|exact W2]. lia.
  Qed.

  Lemma exec_flush s d pre v t2 t3 e s' d' l : inv s d pre ->
    let o := JFlush v t2 t3 in
    jflush A V ser s d v t2 t3 = (e, s', d', l) ->
    Forall (fun y => snap_ok y pre o) l /\
    (e = None -> inv s' d' (pre ++ [o]) /\ f_log d' = Full (logged (pre ++ [o])) /\
       (forall w, v = Some w -> sp = true -> f_pars d' = Full w)).
  Proof.
    intros Hi o. assert (Hs := inv_snap _ _ _ o Hi). destruct Hi as (Hw & Hsp & Hb & Hd & Hl & Hp).
    assert (Hlo : logged (pre ++ [o]) = data s) by (rewrite logged_app, Hd; cbn; apply app_nil_r).
    assert (SF : forall y, f_log y = Full (data s) -> snap_ok y pre o).
    { intros y Hy. right; right. exists (data s). split; [exact Hy|]. right. rewrite <- Hlo. apply record_all. }
    unfold jflush. intros E. apply and_then_spec in E.
    assert (F1 : forall e1 s2 d2 l1, flush_log A V ser s d t2 t3 = (e1, s2, d2, l1) -> Forall (fun y => snap_ok y pre o) l1).
    { intros e1 s2 d2 l1 E1. apply flush_log_spec in E1. destruct E1 as (Hf & _).
      eapply Forall_impl; [|exact Hf]. intros y [Hy|[Hy|Hy]]; [exact (snap_log _ _ _ _ (eq_sym Hy) Hs)|left; exact Hy|apply SF, Hy]. }
    destruct E as [(e' & E & ->)|(s2 & d2 & l1 & l2 & E1 & E2 & ->)].
    { split; [exact (F1 _ _ _ _ E)|discriminate]. }
    specialize (F1 _ _ _ _ E1). apply flush_log_spec in E1. destruct E1 as (_ & Hn). specialize (Hn eq_refl).
    destruct Hn as (_ & G1 & G2 & G3 & G4 & G5 & G6 & G7 & G8).
    assert (LI : forall y, f_log y = f_log d2 -> log_inv 0 y (pre ++ [o])).
    { intros y Hy. right. exists (data s). split; [congruence|]. split; [rewrite <- Hlo; apply record_all|lia]. }
    destruct v as [v|].
    - apply flush_params_spec in E2. destruct E2 as (S1 & S2 & S3 & S4 & S5 & S6 & S7 & S8 & S9). split.
      + apply Forall_app; split; [exact F1|]. eapply Forall_impl; [|exact S1]. intros y Hy. apply SF. congruence.
      + intros _. split; [|split].
        * split; [congruence|]. split; [congruence|]. split; [congruence|]. split; [congruence|]. split.
          -- rewrite S9, G7. apply LI. exact S3.
          -- intros Ht. right. destruct S4 as (W1 & W2); [congruence|]. exists v. split; [exact W1|]. rewrite W2. split; [|lia].
             exists pre, o, []. cbn. split; [reflexivity|]. split; [reflexivity|lia].
        * rewrite S3, G1, Hlo. reflexivity.
        * intros w Hw' Ht. injection Hw' as <-. apply S4. congruence.
    - injection E2 as <- <- <- <-. split.
      + apply Forall_app; split; [exact F1|]. constructor; [apply SF; exact G1|constructor].
      + intros _. split; [|split].
        * split; [congruence|]. split; [congruence|]. split; [congruence|]. split; [congruence|]. split.
          -- rewrite G7. apply LI. reflexivity.
          -- intros Ht. rewrite G8. destruct (Hp Ht) as [(H1 & H2)|(w & H1 & H2 & H3)].
             ++ left. split; [|exact H2]. unfold n_calls in *. rewrite logged_app, app_length. cbn. lia.
             ++ right. exists w. split; [congruence|]. split; [|exact H3].
                eapply recent_more; [|apply recent_snoc; exact H2]. change (n_calls [o]) with O. lia.
        * rewrite G1, Hlo. reflexivity.
        * intros w Hw'. discriminate.
  Qed.

  Lemma exec_spec s d pre o e s' d' l : inv s d pre -> exec A V ser s d o = (e, s', d', l) ->
    Forall (fun y => snap_ok y pre o) l /\ (e = None -> inv s' d' (pre ++ [o])).
  Proof.
    intros Hi. destruct o as [step x v t1 t2 t3|v t2 t3]; cbn [exec]; intros E.
    - exact (exec_call _ _ _ _ _ _ _ _ _ _ _ _ _ Hi E).
    - destruct (exec_flush _ _ _ _ _ _ _ _ _ _ Hi E) as (H1 & H2). split; [exact H1|]. intros H. apply H2, H.
  Qed.

  Lemma firstn_pre {X} (a b : list X) k : k = List.length a -> firstn k (a ++ b) = a.
  Proof. intros ->. rewrite firstn_app, Nat.sub_diag, firstn_all, firstn_O, app_nil_r. reflexivity. Qed.

  Lemma jrun_spec ops : forall s d pre e s' d' l, inv s d pre ->
    jrun A V ser (List.length pre) s d ops = (e, s', d', l) ->
    (forall k y, In (k, y) l ->
       f_log y = Torn \/ (k = O /\ f_log y = f_log d0) \/
       exists r, f_log y = Full r /\
         (record_of r (firstn k (pre ++ ops)) (we - 1) \/ record_of r (firstn (S k) (pre ++ ops)) 0)) /\
    (e = None -> inv s' d' (pre ++ ops)).
  Proof.
    induction ops as [|o ops IH]; intros s d pre e s' d' l Hi E; cbn [jrun] in E.
    - injection E as <- <- <- <-. rewrite app_nil_r. split; [|intros _; exact Hi].
      intros k y [Hy|[]]. injection Hy as <- <-.
      destruct Hi as (_ & _ & _ & _ & [(H1 & H2 & _)|(r & H1 & (rest & H2 & H3) & H4)] & _); [right; left; subst; auto|].
      right; right. exists r. split; [exact H1|]. left. exists rest. rewrite firstn_all. split; [exact H2|lia].
    - destruct (exec A V ser s d o) as [[[e1 s1] d1] l1] eqn:Ex.
      destruct (exec_spec _ _ _ _ _ _ _ _ Hi Ex) as (H1 & H2).
      assert (HS : forall k y, In (k, y) (map (pair (List.length pre)) l1) ->
        f_log y = Torn \/ (k = O /\ f_log y = f_log d0) \/
        exists r, f_log y = Full r /\
         (record_of r (firstn k (pre ++ o :: ops)) (we - 1) \/ record_of r (firstn (S k) (pre ++ o :: ops)) 0)).
      { intros k y Hy. apply in_map_iff in Hy. destruct Hy as (y' & Ey & Hy). injection Ey as <- <-.
        rewrite Forall_forall in H1. destruct (H1 _ Hy) as [H|[(-> & H)|(r & H & H')]]; [left; exact H|right; left; auto|].
        right; right. exists r. split; [exact H|]. destruct H' as [H'|H']; [left|right].
        - rewrite firstn_pre by reflexivity. exact H'.
        - replace (pre ++ o :: ops) with ((pre ++ [o]) ++ ops) by (rewrite <- app_assoc; reflexivity).
          rewrite firstn_pre; [exact H'|]. rewrite app_length. cbn. lia. }
      destruct e1 as [e1|].
      + injection E as <- <- <- <-. split; [exact HS|discriminate].
      + destruct (jrun A V ser (S (List.length pre)) s1 d1 ops) as [[[e2 s2] d2] l2] eqn:Er.
        injection E as <- <- <- <-.
        replace (S (List.length pre)) with (List.length (pre ++ [o])) in Er by (rewrite app_length; cbn; lia).
        destruct (IH _ _ _ _ _ _ _ (H2 eq_refl) Er) as (I1 & I2).
        rewrite <- app_assoc in I1, I2. cbn [app] in I1, I2. split; [|exact I2].
        intros k y Hy. apply in_app_iff in Hy. destruct Hy as [Hy|Hy]; [exact (HS _ _ Hy)|exact (I1 _ _ Hy)].
  Qed.

  Lemma inv_new now : inv (jnew we spe sp cost now) d0 [].
  Proof.
    unfold inv, jnew. cbn. repeat (split; [reflexivity|]). split; [left; auto|]. intros _. left. auto.
  Qed.
End P.

Lemma crash_main A V ser we spe sp cost now (d0 : disk A V) ops e s d l : 0 < we -> 0 < spe ->
  jrun A V ser 0 (jnew we spe sp cost now) d0 ops = (e, s, d, l) ->
  forall k y, In (k, y) l ->
    f_log y = Torn \/ (k = O /\ f_log y = f_log d0) \/
    exists r, f_log y = Full r /\
      (record_of r (firstn k ops) (we - 1) \/ record_of r (firstn (S k) ops) 0).
Proof.
  intros H1 H2 E. exact (proj1 (jrun_spec A V ser we spe sp d0 H1 H2 ops _ _ [] _ _ _ _ (inv_new _ _ _ _ _ _ _ now) E)).
Qed.
Lemma record_main A V ser we spe sp cost now (d0 : disk A V) ops s d l : 0 < we -> 0 < spe -> ops <> [] ->
  jrun A V ser 0 (jnew we spe sp cost now) d0 ops = (None, s, d, l) ->
  data s = logged ops /\ exists r, f_log d = Full r /\ record_of r ops (we - 1).
Proof.
  intros H1 H2 Hn E.
  destruct (proj2 (jrun_spec A V ser we spe sp d0 H1 H2 ops _ _ [] _ _ _ _ (inv_new _ _ _ _ _ _ _ now) E) eq_refl)
    as (_ & _ & _ & Hd & [(H & _)|(r & Hr & (rest & R1 & R2) & Hb)] & _); [cbn in H; congruence|].
  split; [exact Hd|]. exists r. split; [exact Hr|]. exists rest. split; [exact R1|lia].
Qed.
Lemma params_main A V ser we spe cost now (d0 : disk A V) ops s d l : 0 < we -> 0 < spe -> (0 < n_calls ops)%nat ->
  jrun A V ser 0 (jnew we spe true cost now) d0 ops = (None, s, d, l) ->
  exists v, f_pars d = Full v /\ recent v ops (spe - 1).
Proof.
  intros H1 H2 Hn E.
  destruct (proj2 (jrun_spec A V ser we spe true d0 H1 H2 ops _ _ [] _ _ _ _ (inv_new _ _ _ _ _ _ _ now) E) eq_refl)
    as (_ & _ & _ & _ & _ & Hp). destruct (Hp eq_refl) as [(H & _)|(v & Hv & Hr & Hb)]; [change ([] ++ ops) with ops in H; lia|].
  exists v. split; [exact Hv|]. eapply recent_more; [|exact Hr]. lia.
Qed.
Lemma flush_main A V ser we spe sp cost now (d0 : disk A V) ops v t2 t3 s d l s' d' l' : 0 < we -> 0 < spe ->
  jrun A V ser 0 (jnew we spe sp cost now) d0 ops = (None, s, d, l) ->
  jflush A V ser s d v t2 t3 = (None, s', d', l') ->
  f_log d' = Full (logged ops) /\ (forall w, v = Some w -> sp = true -> f_pars d' = Full w).
Proof.
  intros H1 H2 E Ef.
  assert (Hi := proj2 (jrun_spec A V ser we spe sp d0 H1 H2 ops _ _ [] _ _ _ _ (inv_new _ _ _ _ _ _ _ now) E) eq_refl).
  destruct (exec_flush A V ser we spe sp d0 H1 H2 _ _ _ _ _ _ _ _ _ _ Hi Ef) as (_ & H). destruct (H eq_refl) as (_ & G1 & G2).
  split; [|exact G2]. rewrite G1, logged_app. cbn. rewrite app_nil_r. reflexivity.
Qed.

Lemma clock_main A V ser s (d : disk A V) step x v t2 t3 :
  exists s', jcall A V ser s d step x v (last_flush_time A s) t2 t3 = (Some ZeroDivisionError, s', d, [d]).
Proof. unfold jcall. cbn [last_flush_time]. rewrite Z.sub_diag. cbn. eexists. reflexivity. Qed.

Lemma mode_main mode le me :
  check_mode mode le me =
  if String.eqb mode "w" || String.eqb mode "write" then Ok "write"%string
  else if (String.eqb mode "x" || String.eqb mode "fail") && negb (le || me) then Ok "fail"%string
  else Err ValueError.
Proof.
  unfold check_mode.
  destruct (String.eqb_spec mode "w"); [subst; destruct (le || me); reflexivity|].
  destruct (String.eqb_spec mode "a"); [subst; reflexivity|].
  destruct (String.eqb_spec mode "x"); [subst; destruct (le || me); reflexivity|].
  destruct (String.eqb_spec mode "write"); [subst; destruct (le || me); reflexivity|].
  destruct (String.eqb_spec mode "append"); [subst; reflexivity|].
  destruct (String.eqb_spec mode "fail"); [subst; destruct (le || me); reflexivity|]. reflexivity.
Qed.
