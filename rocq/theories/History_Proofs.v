From Coq Require Import String List ZArith QArith Bool Lia.
From Verif Require Import Base History_Model History_Spec.
Import ListNotations.
Open Scope nat_scope.

Lemma get_put k s d k' : get k' (put k s d) = if String.eqb k k' then Some s else get k' d.
Proof.
  induction d as [|[j x] d IH]; cbn; [reflexivity|].
  destruct (String.eqb_spec j k) as [->|Hj]; cbn.
  - destruct (String.eqb k k'); reflexivity.
  - rewrite IH. destruct (String.eqb_spec j k') as [->|]; [|reflexivity].
    destruct (String.eqb_spec k k'); congruence.
Qed.
Lemma nlist_eqb_eq a b : nlist_eqb a b = true <-> a = b.
Proof. unfold nlist_eqb. destruct (list_eq_dec Nat.eq_dec a b); split; congruence. Qed.

Section P.
  Variable bcast : list nat -> list nat -> list num -> option (list num).
  Notation push := (push bcast).
  Notation push_all := (push_all bcast).

  Lemma push_extended s v s' : push s v = (None, s') -> extended s s' /\ slen s' = S (slen s).
  Proof.
    destruct s as [dt sh rows|l]; cbn; [destruct (assign bcast dt sh v) as [row|e]|]; intros E; try discriminate; injection E as <-; cbn.
    - split; [eauto|]. rewrite app_length. cbn. lia.
    - split; [eauto|]. rewrite app_length. cbn. lia.
  Qed.

  Lemma push_all_spec items : forall d d', NoDup (map fst items) -> push_all d items = (None, d') ->
    (forall k, ~ In k (map fst items) -> get k d' = get k d) /\
    (forall k v, In (k, v) items -> exists s s', get k d = Some s /\ push s v = (None, s') /\ get k d' = Some s').
  Proof.
    induction items as [|[k v] items IH]; intros d d' Hn E; cbn [History_Model.push_all] in E.
    - injection E as <-. split; [auto|intros k v []].
    - cbn [map fst] in Hn. inversion Hn as [|x y Hk Hn']; subst.
      destruct (get k d) as [s|] eqn:Eg; [|discriminate].
      destruct (push s v) as [[e|] s'] eqn:Ep; [discriminate|].
      destruct (IH _ _ Hn' E) as (I1 & I2). split.
      + intros j Hj. cbn [map fst In] in Hj. rewrite I1 by tauto. rewrite get_put.
        destruct (String.eqb_spec k j); [subst; tauto|reflexivity].
      + intros j w [Ej|Hj].
        * injection Ej as <- <-. exists s, s'. split; [exact Eg|]. split; [exact Ep|].
          rewrite I1 by exact Hk. rewrite get_put, String.eqb_refl. reflexivity.
        * destruct (I2 j w Hj) as (t & t' & G1 & G2 & G3). exists t, t'.
          rewrite get_put in G1. destruct (String.eqb_spec k j) as [->|]; [|auto].
          exfalso. apply Hk. change j with (fst (j, w)). apply in_map, Hj.
  Qed.

  Lemma in_fst {X Y} (k : X) (l : list (X * Y)) : In k (map fst l) -> exists v, In (k, v) l.
  Proof. intros H. apply in_map_iff in H. destruct H as ([k' v] & <- & H). exists v. exact H. Qed.

  Lemma append_main h items it h' : aligned h -> NoDup (map fst items) -> (forall k, In k (map fst items) <-> In k (keys h)) ->
    append_dict bcast h items it = (None, h') ->
    aligned h' /\ hlen h' = S (hlen h) /\ keys h' = keys h /\
    forall k s, get k (vd h) = Some s -> exists s', get k (vd h') = Some s' /\ extended s s'.
  Proof.
    intros (A0 & A1 & A2 & A3) Hn Hk. unfold append_dict.
    destruct (push_all (vd h) items) as [[e|] d] eqn:Ep; [discriminate|].
    destruct (push_all_spec _ _ _ Hn Ep) as (P1 & P2).
    destruct (get "iters" d) as [si|] eqn:Ei; [|discriminate].
    destruct (push si it) as [[e|] si'] eqn:Eq; [discriminate|]. intros E. injection E as <-. cbn [vd keys hlen].
    assert (Hi : get "iters" (vd h) = Some si) by (rewrite <- P1; [exact Ei|intros H; apply A1, Hk, H]).
    assert (G : forall k s, get k (vd h) = Some s -> exists s', get k (put "iters" si' d) = Some s' /\ extended s s' /\ slen s' = S (slen s)).
    { intros k s Hs. rewrite get_put. destruct (String.eqb_spec "iters" k) as [<-|Hne].
      - exists si'. split; [reflexivity|]. rewrite Hi in Hs. injection Hs as <-. exact (push_extended _ _ _ Eq).
      - assert (In k (map fst items)) as Hin.
        { apply Hk. destruct (proj1 (A2 k)) as [->|H]; [congruence|congruence|exact H]. }
        apply in_fst in Hin. destruct Hin as (v & Hv). destruct (P2 k v Hv) as (s0 & s' & G1 & G2 & G3).
        rewrite Hs in G1. injection G1 as <-. exists s'. split; [exact G3|]. exact (push_extended _ _ _ G2). }
    assert (N : forall k, get k (put "iters" si' d) <> None <-> get k (vd h) <> None).
    { intros k. split; [|intros H; destruct (get k (vd h)) as [s|] eqn:Es; [destruct (G k s Es) as (s' & -> & _); discriminate|congruence]].
      rewrite get_put. destruct (String.eqb_spec "iters" k) as [<-|Hne]; [congruence|].
      destruct (in_dec string_dec k (map fst items)) as [Hin|Hin].
      - apply in_fst in Hin. destruct Hin as (v & Hv). destruct (P2 k v Hv) as (s0 & s' & G1 & _). congruence.
      - rewrite P1 by exact Hin. auto. }
    split; [|split; [reflexivity|split; [reflexivity|]]].
    - split; [exact A0|]. split; [exact A1|]. split; [intros k; cbn [vd]; rewrite N; apply A2|].
      intros k s' Hs'. cbn [vd hlen] in *. destruct (get k (vd h)) as [s|] eqn:Es.
      + destruct (G k s Es) as (s2 & E2 & _ & L). rewrite E2 in Hs'. injection Hs' as <-. rewrite L, (A3 k s Es). reflexivity.
      + exfalso. apply (proj1 (N k)); congruence.
    - intros k s Hs. destruct (G k s Hs) as (s' & G1 & G2 & _). eauto.
  Qed.

  (** constructor *)
  Lemma chunks_length k n d : length (chunks k n d) = n.
  Proof. revert d. induction n as [|n IH]; intros d; cbn; [reflexivity|]. rewrite IH. reflexivity. Qed.
  Lemma new_series_len n v s : numeric v -> new_series n v = Ok s -> slen s = n /\ is_array s.
  Proof.
    destruct v as [x|dt [|l tail] data|l| |k]; cbn; try tauto; intros _.
    - destruct (Nat.eqb_spec n 1); [|discriminate]. intros E. injection E as <-. cbn. auto.
    - destruct (Nat.eqb_spec n 1); [|discriminate]. intros E. injection E as <-. cbn. auto.
    - destruct (Nat.eqb_spec n 1), (Nat.eqb_spec l 1); cbn [andb negb];
        try (destruct (Nat.eqb_spec l n); cbn [negb]; [|discriminate]); intros E; injection E as <-; cbn [slen is_array]; rewrite ?chunks_length; auto.
  Qed.
  Lemma new_all_spec n items : forall d, new_all n items = Ok d -> Forall (fun e => numeric (snd e)) items ->
    map fst d = map fst items /\ ~ In "iters"%string (map fst items) /\ Forall (fun e => slen (snd e) = n) d.
  Proof.
    induction items as [|[k v] items IH]; cbn [new_all]; intros d E Hf.
    - injection E as <-. cbn. auto.
    - destruct (String.eqb_spec k "iters") as [|Hk]; [discriminate|].
      inversion Hf as [|x y Hv Hf']; subst. cbn [snd] in Hv.
      destruct (new_series n v) as [s|] eqn:Es; cbn [bind] in E; [|discriminate].
      destruct (new_all n items) as [d1|] eqn:En; cbn [bind] in E; [|discriminate]. injection E as <-.
      destruct (IH d1 eq_refl Hf') as (I1 & I2 & I3). cbn. split; [congruence|]. split.
      + intros [H|H]; [congruence|tauto].
      + constructor; [exact (proj1 (new_series_len _ _ _ Hv Es))|exact I3].
  Qed.
  Lemma get_in k d s : get k d = Some s -> In (k, s) d.
  Proof.
    induction d as [|[j x] d IH]; cbn; [discriminate|]. destruct (String.eqb_spec j k) as [->|]; [|auto].
    intros E. injection E as ->. auto.
  Qed.
  Lemma get_none k d : get k d <> None <-> In k (map fst d).
  Proof.
    induction d as [|[j x] d IH]; cbn; [tauto|]. destruct (String.eqb_spec j k) as [->|H]; [split; [auto|discriminate]|].
    rewrite IH. tauto.
  Qed.
  Lemma new_aligned dt its items d mn sg : new_all (length its) items = Ok d -> Forall (fun e => numeric (snd e)) items ->
    NoDup (map fst items) ->
    aligned (Hist (("iters"%string, SArr dt [] (map (fun x => [x]) its)) :: d) (map fst items) (length its) sg mn).
  Proof.
    intros E Hf Hn. destruct (new_all_spec _ _ _ E Hf) as (H1 & H2 & H3).
    split; [exact Hn|]. split; [exact H2|]. cbn [vd keys hlen]. split.
    - intros k. rewrite get_none. cbn. rewrite H1. intuition.
    - intros k s Hs. apply get_in in Hs. destruct Hs as [Hs|Hs].
      + injection Hs as <- <-. cbn. apply map_length.
      + rewrite Forall_forall in H3. exact (H3 _ Hs).
  Qed.
  Lemma new_main a i h :
    match a with AVal v => numeric v | ACompound _ d | ADict d => Forall (fun e => numeric (snd e)) d /\ NoDup (map fst d) end ->
    new_history (Some a) i = Ok h -> aligned h.
  Proof.
    intros Ha. unfold new_history. destruct (iaxis i) as [dt its].
    destruct a as [v|m d|d].
    - destruct v as [x|d0 s x|l| |k]; cbn in Ha; try tauto;
      (destruct (new_all (length its) _) as [d|] eqn:Ed; cbn [bind]; [|discriminate]); intros E; injection E as <-;
        (match type of Ed with new_all _ ?it = _ => apply (new_aligned dt its it d); [exact Ed|repeat constructor; auto|repeat constructor; auto] end).
    - destruct Ha as (Hf & Hn). destruct (new_all (length its) d) as [d'|] eqn:Ed; cbn [bind]; [|discriminate].
      intros E; injection E as <-. apply new_aligned; auto.
    - destruct Ha as (Hf & Hn). destruct (new_all (length its) d) as [d'|] eqn:Ed; cbn [bind]; [|discriminate].
      intros E; injection E as <-. apply new_aligned; auto.
  Qed.

  (** concatenation *)
  Variable concat : series -> series -> res series.
  Lemma cat_len a b s : (forall a b s, concat a b = Ok s -> slen s = slen a + slen b) -> cat concat a b = Ok s -> slen s = slen a + slen b.
  Proof.
    intros Hc. destruct a as [dt sh rows|l], b as [dt' sh' rows'|l']; cbn [cat]; auto.
    destruct (nlist_eqb sh sh'); auto. intros E. injection E as <-. cbn. rewrite map_length, app_length. reflexivity.
  Qed.
  Lemma cat_all_spec ks : (forall a b s, concat a b = Ok s -> slen s = slen a + slen b) -> forall d d2 d', NoDup ks ->
    cat_all concat ks d d2 = (None, d') ->
    (forall k, ~ In k ks -> get k d' = get k d) /\
    (forall k, In k ks -> exists a b s, get k d = Some a /\ get k d2 = Some b /\ get k d' = Some s /\ slen s = slen a + slen b).
  Proof.
    intros Hc. induction ks as [|k ks IH]; intros d d2 d' Hn E; cbn [cat_all] in E.
    - injection E as <-. split; [auto|intros k []].
    - inversion Hn as [|x y Hk Hn']; subst.
      destruct (get k d) as [a|] eqn:Ea; [|discriminate]. destruct (get k d2) as [b|] eqn:Eb; [|discriminate].
      destruct (cat concat a b) as [s|] eqn:Es; [|discriminate].
      destruct (IH _ _ _ Hn' E) as (I1 & I2). split.
      + intros j Hj. rewrite I1 by (intros H; apply Hj; right; exact H). rewrite get_put.
        destruct (String.eqb_spec k j) as [->|]; [exfalso; apply Hj; left; reflexivity|reflexivity].
      + intros j [<-|Hj].
        * exists a, b, s. rewrite I1, get_put, String.eqb_refl by exact Hk. eauto using cat_len.
        * destruct (I2 j Hj) as (a' & b' & s' & G1 & G2 & G3 & G4). exists a', b', s'. rewrite get_put in G1.
          destruct (String.eqb_spec k j) as [->|]; [tauto|auto].
  Qed.
  Lemma concat_main h h2 it h' : (forall a b s, concat a b = Ok s -> slen s = slen a + slen b) ->
    aligned h -> aligned h2 -> append_history concat h h2 it = (None, h') -> aligned h' /\ hlen h' = hlen h + hlen h2.
  Proof.
    intros Hc (A0 & A1 & A2 & A3) (B0 & B1 & B2 & B3). unfold append_history.
    destruct (subset (keys h) (keys h2) && subset (keys h2) (keys h)); cbn [negb]; [|discriminate].
    destruct it; try discriminate.
    destruct (cat_all concat (keys h) (vd h) (vd h2)) as [[e|] d] eqn:E1; [discriminate|].
    destruct (cat_all concat ["iters"%string] d (vd h2)) as [[e|] d'] eqn:E2; [discriminate|].
    intros E. injection E as <-. cbn [hlen].
    destruct (cat_all_spec _ Hc _ _ _ A0 E1) as (P1 & P2).
    destruct (cat_all_spec ["iters"%string] Hc _ _ _ (NoDup_cons _ (@in_nil _ _) (NoDup_nil _)) E2) as (Q1 & Q2).
    split; [|reflexivity]. split; [exact A0|]. split; [exact A1|]. cbn [vd keys hlen].
    assert (F : forall k, k = "iters"%string \/ In k (keys h) -> exists a b s, get k (vd h) = Some a /\ get k (vd h2) = Some b /\
       get k d' = Some s /\ slen s = slen a + slen b).
    { intros k Hk. destruct (string_dec k "iters") as [->|Hne].
      - destruct (Q2 _ (or_introl eq_refl)) as (a & b & s & G1 & G2 & G3 & G4). exists a, b, s.
        rewrite P1 in G1 by exact A1. auto.
      - destruct Hk as [|Hk]; [congruence|]. destruct (P2 k Hk) as (a & b & s & G1 & G2 & G3 & G4). exists a, b, s.
        rewrite Q1; [auto|]. intros [H|[]]. congruence. }
    split.
    - intros k. split.
      + intros H. destruct (string_dec k "iters") as [->|Hne]; [auto|]. right.
        destruct (in_dec string_dec k (keys h)) as [Hin|Hin]; [exact Hin|]. exfalso.
        rewrite Q1 in H by (intros [Hq|[]]; congruence). rewrite P1 in H by exact Hin. apply A2 in H. tauto.
      + intros H. destruct (F k H) as (a & b & s & _ & _ & G & _). congruence.
    - intros k s Hs. assert (Hk : k = "iters"%string \/ In k (keys h)).
      { destruct (string_dec k "iters") as [->|Hne]; [auto|]. right.
        destruct (in_dec string_dec k (keys h)) as [Hin|Hin]; [exact Hin|]. exfalso.
        rewrite Q1 in Hs by (intros [Hq|[]]; congruence). rewrite P1 in Hs by exact Hin.
        destruct (proj1 (A2 k)) as [|]; congruence. }
      destruct (F k Hk) as (a & b & s' & G1 & G2 & G3 & G4). rewrite Hs in G3. injection G3 as <-.
      rewrite G4, (A3 _ _ G1), (B3 _ _ G2). reflexivity.
  Qed.

  (** slices *)
  Lemma new_series_fit n dt sh data : exists s, new_series n (VArr dt (n :: sh) data) = Ok s.
  Proof. cbn [new_series]. rewrite Nat.eqb_refl. destruct (Nat.eqb n 1) eqn:E; cbn [andb negb]; eexists; reflexivity. Qed.
  Lemma new_all_ok n items : Forall (fun e => fst e <> "iters"%string /\ exists s, new_series n (snd e) = Ok s) items ->
    exists d, new_all n items = Ok d.
  Proof.
    induction 1 as [|[k v] items (Hk & s & Hs) _ (d & Hd)]; cbn [new_all]; [eauto|]. cbn [fst snd] in *.
    destruct (String.eqb_spec k "iters"); [congruence|]. rewrite Hs, Hd. cbn [bind]. eauto.
  Qed.
  Lemma slice_main h dt rows a b : aligned h -> (forall k s, In k (keys h) -> get k (vd h) = Some s -> is_array s) ->
    get "iters" (vd h) = Some (SArr dt [] rows) -> Forall (fun r => length r = 1) rows -> a <= b <= hlen h ->
    exists h', get_slice h a b = Ok h' /\ aligned h' /\ hlen h' = b - a /\ keys h' = keys h.
  Proof.
    intros (A0 & A1 & A2 & A3) Hs Ei Hr Hab. unfold get_slice. rewrite Ei.
    set (its := List.concat _). set (items := map _ (keys h)).
    assert (Hfst : map fst items = keys h).
    { unfold items. rewrite map_map. rewrite <- (map_id (keys h)) at 2. apply map_ext. intros k. destruct (get k (vd h)); reflexivity. }
    assert (Hlen : length its = b - a).
    { unfold its.
      assert (forall l : list (list num), Forall (fun r => length r = 1) l -> length (List.concat l) = length l) as HC.
      { induction l as [|y l IH]; intros Hl; cbn; [reflexivity|]. inversion Hl; subst. rewrite app_length, IH by assumption. lia. }
      rewrite HC.
      - rewrite firstn_length, skipn_length. specialize (A3 _ _ Ei). cbn in A3. lia.
      - apply Forall_forall. intros y Hy. rewrite Forall_forall in Hr. apply Hr.
        rewrite <- (firstn_skipn a rows). apply in_app_iff. right.
        rewrite <- (firstn_skipn (b - a) (skipn a rows)). apply in_app_iff. left. exact Hy. }
    assert (Hit : forall k v, In (k, v) items -> In k (keys h) /\ exists dt' sh rws, get k (vd h) = Some (SArr dt' sh rws) /\
       v = VArr dt' (b - a :: sh) (List.concat (firstn (b - a) (skipn a rws)))).
    { intros k v Hin. unfold items in Hin. apply in_map_iff in Hin. destruct Hin as (k' & Ek & Hk).
      destruct (get k' (vd h)) as [s|] eqn:Es; [|exfalso; apply (proj2 (A2 k')); auto].
      injection Ek as <- <-. split; [exact Hk|]. assert (Hsa := Hs _ _ Hk Es). assert (HL := A3 _ _ Es).
      destruct s as [dt' sh rws|]; [|destruct Hsa]. cbn in HL. exists dt', sh, rws. split; [exact Es|].
      cbn [slice_series]. rewrite firstn_length, skipn_length, HL. rewrite Nat.min_l by lia. reflexivity. }
    destruct (new_all_ok (length its) items) as (d & Ed).
    { apply Forall_forall. intros [k v] Hin. cbn [fst snd]. destruct (Hit k v Hin) as (Hk & dt' & sh & rws & _ & ->). split.
      - intros ->. exact (A1 Hk).
      - rewrite Hlen. apply new_series_fit. }
    unfold new_history. cbn [iaxis]. rewrite Ed. cbn [bind vd keys hlen].
    eexists. split; [reflexivity|]. cbn [hlen keys]. split; [|split; [exact Hlen|exact Hfst]].
    apply new_aligned; [exact Ed| |rewrite Hfst; exact A0].
    apply Forall_forall. intros [k v] Hin. destruct (Hit k v Hin) as (_ & dt' & sh & rws & _ & ->). exact I.
  Qed.
End P.

(** A run *)
Section Run.
  Variable bcast : list nat -> list nat -> list num -> option (list num).
  Definition col (j : nat) (log : list (Z * list Q)) : list (list num) := map (fun e => [NFlt (nth j (snd e) 0%Q)]) log.
  Definition state (ks : list string) (log : list (Z * list Q)) (h : history) : Prop :=
    keys h = ks /\ hlen h = length log /\
    get "iters" (vd h) = Some (SArr DInt [] (map (fun e => [NInt (fst e)]) log)) /\
    forall j k, nth_error ks j = Some k -> get k (vd h) = Some (SArr DFloat [] (col j log)).

  Lemma float_items_nth ks vs j k : length vs = length ks -> nth_error ks j = Some k ->
    nth_error (float_items ks vs) j = Some (k, VNum (NFlt (nth j vs 0%Q))).
  Proof.
    revert ks j. induction vs as [|v vs IH]; intros [|x ks] j Hl Hj; try discriminate; [destruct j; discriminate|].
    destruct j as [|j]; cbn in *; [congruence|]. apply IH; [lia|exact Hj].
  Qed.
  Lemma float_items_fst ks vs : length vs = length ks -> map fst (float_items ks vs) = ks.
  Proof.
    revert ks. induction vs as [|v vs IH]; intros [|x ks] Hl; try discriminate; cbn; [reflexivity|]. f_equal. apply IH. cbn in Hl. lia.
  Qed.
  Lemma push_all_floats items : forall d, NoDup (map fst items) ->
    (forall k v, In (k, v) items -> (exists q, v = VNum (NFlt q)) /\ exists rows, get k d = Some (SArr DFloat [] rows)) ->
    exists d', push_all bcast d items = (None, d').
  Proof.
    induction items as [|[k v] items IH]; intros d Hn H; cbn [push_all]; [eauto|].
    destruct (H k v (or_introl eq_refl)) as ((q & ->) & (rows & Eg)). rewrite Eg. cbn [push assign cast bind nprod fold_right repeat].
    cbn [map fst] in Hn. inversion Hn as [|x y Hk Hn']; subst. apply IH; [exact Hn'|].
    intros j w Hj. destruct (H j w (or_intror Hj)) as (H1 & (r & H2)). split; [exact H1|]. rewrite get_put.
    destruct (String.eqb_spec k j) as [->|]; [|eauto]. exfalso. apply Hk. change j with (fst (j, w)). apply in_map, Hj.
  Qed.
  Lemma app_arg h a items it : same_as items a -> append_arg bcast h a it = append_dict bcast h items it.
  Proof. intros [->|(m & ->)]; reflexivity. Qed.

  Lemma step_state ks log h step vs : NoDup ks -> ~ In "iters"%string ks -> state ks log h -> length vs = length ks ->
    exists h', append_dict bcast h (float_items ks vs) (VNum (NInt step)) = (None, h') /\ state ks (log ++ [(step, vs)]) h'.
  Proof.
    intros Hn Hi (S1 & S2 & S3 & S4) Hl. unfold append_dict.
    assert (Hf := float_items_fst ks vs Hl).
    destruct (push_all_floats (float_items ks vs) (vd h)) as (d & Ed); [rewrite Hf; exact Hn|..].
    { intros k v Hin. apply In_nth_error in Hin. destruct Hin as (j & Hj).
      assert (Hk : nth_error ks j = Some k) by (rewrite <- Hf; rewrite (map_nth_error fst _ _ Hj); reflexivity).
      split; [|exists (col j log); exact (S4 j k Hk)]. rewrite (float_items_nth ks vs j k Hl Hk) in Hj. injection Hj as <-. eauto. }
    rewrite Ed. rewrite <- Hf in Hn. destruct (push_all_spec bcast _ _ _ Hn Ed) as (P1 & P2). rewrite Hf in *.
    rewrite P1 by exact Hi. rewrite S3. cbn [push assign cast bind nprod fold_right repeat].
    eexists. split; [reflexivity|]. split; [exact S1|]. split; [cbn [hlen]; rewrite app_length; cbn; lia|]. split.
    - cbn [vd]. rewrite get_put, String.eqb_refl, map_app. reflexivity.
    - intros j k Hj. cbn [vd]. rewrite get_put. destruct (String.eqb_spec "iters" k) as [<-|].
      + exfalso. apply Hi. eapply nth_error_In. exact Hj.
      + assert (Hin := float_items_nth ks vs j k Hl Hj). apply nth_error_In in Hin.
        destruct (P2 _ _ Hin) as (s & s' & G1 & G2 & G3). rewrite (S4 j k Hj) in G1. injection G1 as <-.
        cbn [push assign cast bind nprod fold_right repeat] in G2. injection G2 as <-. rewrite G3. unfold col. rewrite map_app. reflexivity.
  Qed.

  Lemma new_all_floats ks : forall vs, length vs = length ks -> ~ In "iters"%string ks -> NoDup ks ->
    exists d, new_all 1 (float_items ks vs) = Ok d /\
      forall j k, nth_error ks j = Some k -> get k d = Some (SArr DFloat [] [[NFlt (nth j vs 0%Q)]]).
  Proof.
    induction ks as [|k ks IH]; intros [|v vs] Hl Hi Hn; try discriminate.
    - exists []. split; [reflexivity|]. intros [|j] k; discriminate.
    - inversion Hn as [|x y Hk Hn']; subst. destruct (IH vs) as (d & Ed & Hd); [cbn in Hl; lia|intros H; apply Hi; right; exact H|exact Hn'|].
      exists ((k, SArr DFloat [] [[NFlt v]]) :: d). split.
      + cbn [float_items combine map new_all]. change (combine ks (map (fun q => VNum (NFlt q)) vs)) with (float_items ks vs).
        destruct (String.eqb_spec k "iters") as [->|]; [exfalso; apply Hi; left; reflexivity|]. cbn [new_series Nat.eqb bind dtype_of].
        rewrite Ed. reflexivity.
      + intros [|j] k' Hj; cbn [nth_error] in Hj.
        * injection Hj as <-. cbn. rewrite String.eqb_refl. reflexivity.
        * cbn [get nth]. destruct (String.eqb_spec k k') as [->|]; [exfalso; apply Hk; eapply nth_error_In; exact Hj|]. apply Hd, Hj.
  Qed.

  Lemma run_from ks log : NoDup ks -> ~ In "iters"%string ks -> forall pre h (tr : list arg),
    state ks pre h -> Forall2 (fun e a => length (snd e) = length ks /\ same_as (float_items ks (snd e)) a) log tr ->
    exists h', accum_run bcast (Some h) (combine (map (fun e => NInt (fst e)) log) tr) = (None, Some h') /\ state ks (pre ++ log) h'.
  Proof.
    intros Hn Hi. induction log as [|[step vs] log IH]; intros pre h tr Hs Hf; inversion Hf as [|x a y tr' (Hl & Ha) Hf']; subst.
    - cbn. exists h. rewrite app_nil_r. auto.
    - cbn [map combine accum_run accum fst snd] in *. rewrite (app_arg _ _ _ _ Ha).
      destruct (step_state ks pre h step vs Hn Hi Hs Hl) as (h1 & E1 & S1). rewrite E1.
      destruct (IH (pre ++ [(step, vs)]) h1 tr' S1 Hf') as (h' & E & S'). exists h'. rewrite <- app_assoc in S'. auto.
  Qed.
  Lemma run_main ks log (tr : list arg) : NoDup ks -> ~ In "iters"%string ks -> log <> [] ->
    Forall2 (fun e a => length (snd e) = length ks /\ same_as (float_items ks (snd e)) a) log tr ->
    exists h, accum_run bcast None (combine (map (fun e => NInt (fst e)) log) tr) = (None, Some h) /\
      keys h = ks /\ hlen h = length log /\
      get "iters" (vd h) = Some (SArr DInt [] (map (fun e => [NInt (fst e)]) log)) /\
      forall j k, nth_error ks j = Some k -> get k (vd h) = Some (SArr DFloat [] (map (fun e => [NFlt (nth j (snd e) 0%Q)]) log)).
  Proof.
    intros Hn Hi Hne Hf. destruct log as [|[step vs] log]; [congruence|].
    inversion Hf as [|x a y tr' (Hl & Ha) Hf']; subst. cbn [map combine accum_run accum fst snd] in *.
    destruct (new_all_floats ks vs Hl Hi Hn) as (d & Ed & Hd).
    assert (exists h, new_history (Some a) (IScalar (NInt step)) = Ok h /\ state ks [(step, vs)] h) as (h & E & S).
    { assert (Hs : forall mn, state ks [(step, vs)] (Hist (("iters"%string, SArr DInt [] [[NInt step]]) :: d) ks 1 false mn)).
      { intros mn. split; [reflexivity|]. split; [reflexivity|]. split; [reflexivity|]. intros j k Hj. cbn [vd get].
        destruct (String.eqb_spec "iters" k) as [<-|]; [exfalso; apply Hi; eapply nth_error_In; exact Hj|]. exact (Hd j k Hj). }
      destruct Ha as [->|(m & ->)]; unfold new_history; cbn [iaxis length]; rewrite Ed; cbn [bind dtype_of map];
        rewrite (float_items_fst ks vs Hl); eauto. }
    rewrite E. destruct (run_from ks log Hn Hi _ h tr' S Hf') as (h' & E' & S'). exists h'. split; [exact E'|exact S'].
  Qed.
End Run.
