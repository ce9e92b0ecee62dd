From Coq Require Import String Ascii List ZArith Bool Lia.
From Verif Require Import Base Flags_Model Flags_Spec.
Import ListNotations.
Open Scope string_scope.
Open Scope list_scope.

(** ** dictionaries *)
Lemma get_put {A} (d : dict A) k a k' : get (put d k a) k' = if (k =? k')%string then Some a else get d k'.
Proof.
  induction d as [|[q b] d IH]; cbn [put get]; [reflexivity|].
  destruct (String.eqb_spec q k) as [->|N]; cbn [get].
  - destruct (k =? k')%string; reflexivity.
  - rewrite IH. destruct (String.eqb_spec q k') as [->|N']; [|reflexivity].
    destruct (String.eqb_spec k k'); [congruence|reflexivity].
Qed.

(** ** truth values *)
Lemma nat_inj a b : nat_of_ascii a = nat_of_ascii b -> a = b.
Proof. intros H. rewrite <- (ascii_nat_embedding a), <- (ascii_nat_embedding b). now rewrite H. Qed.
Lemma lower_chars a b : lower_char b = b -> (lower_char a = b <-> a = b \/ upper b = Some a).
Proof.
  intros L. unfold lower_char, upper in *.
  pose proof (nat_ascii_bounded a) as Ba. pose proof (nat_ascii_bounded b) as Bb.
  assert (Lb : ((65 <=? nat_of_ascii b) && (nat_of_ascii b <=? 90))%nat = false).
  { destruct ((65 <=? nat_of_ascii b) && (nat_of_ascii b <=? 90))%nat eqn:E; [|reflexivity].
    apply andb_prop in E. destruct E as [E1 E2]. apply Nat.leb_le in E1, E2.
    apply (f_equal nat_of_ascii) in L. rewrite nat_ascii_embedding in L by lia. lia. }
  destruct ((65 <=? nat_of_ascii a) && (nat_of_ascii a <=? 90))%nat eqn:E.
  - apply andb_prop in E. destruct E as [E1 E2]. apply Nat.leb_le in E1, E2. split.
    + intros <-. right. rewrite nat_ascii_embedding by lia.
      replace ((97 <=? nat_of_ascii a + 32) && (nat_of_ascii a + 32 <=? 122))%nat with true.
      * f_equal. replace (nat_of_ascii a + 32 - 32)%nat with (nat_of_ascii a) by lia. apply ascii_nat_embedding.
      * symmetry. apply andb_true_intro. split; apply Nat.leb_le; lia.
    + intros [-> | U].
      * exfalso. rewrite andb_false_iff in Lb. destruct Lb as [H|H]; apply Nat.leb_gt in H; lia.
      * destruct ((97 <=? nat_of_ascii b) && (nat_of_ascii b <=? 122))%nat eqn:F; [|discriminate U].
        apply andb_prop in F. destruct F as [F1 F2]. apply Nat.leb_le in F1, F2.
        injection U as <-. rewrite nat_ascii_embedding by lia.
        apply nat_inj. rewrite nat_ascii_embedding by lia. lia.
  - split; [now left|]. intros [H|U]; [exact H|].
    destruct ((97 <=? nat_of_ascii b) && (nat_of_ascii b <=? 122))%nat eqn:F; [|discriminate U].
    apply andb_prop in F. destruct F as [F1 F2]. apply Nat.leb_le in F1, F2.
    injection U as <-. rewrite nat_ascii_embedding in E by lia.
    rewrite andb_false_iff in E. destruct E as [H|H]; apply Nat.leb_gt in H; lia.
Qed.
Lemma lower_spells s : forall w, lower w = w -> (lower s = w <-> spells s w).
Proof.
  induction s as [|a s IH]; intros [|b w] L; cbn [lower spells].
  - tauto.
  - split; [discriminate|tauto].
  - split; [discriminate|tauto].
  - cbn [lower] in L. injection L as L1 L2. rewrite <- (IH w L2), <- (lower_chars a b L1). split.
    + intros H. injection H as H1 H2. now split.
    + intros [-> ->]. reflexivity.
Qed.
Lemma in_says b s : says b s <->
  str_in (lower s) (if b then ["y"; "yes"; "t"; "true"; "on"; "1"] else ["n"; "no"; "f"; "false"; "off"; "0"]) = true.
Proof.
  unfold says, str_in. rewrite existsb_exists. split.
  - intros [w [I S]]. exists w. split; [exact I|]. apply String.eqb_eq. apply lower_spells; [|exact S].
    destruct b; repeat (destruct I as [<- | I]; [reflexivity|]); destruct I.
  - intros [w [I S]]. exists w. split; [exact I|]. apply String.eqb_eq in S. apply lower_spells; [|exact S].
    destruct b; repeat (destruct I as [<- | I]; [reflexivity|]); destruct I.
Qed.
Lemma words_disjoint s : str_in s ["y"; "yes"; "t"; "true"; "on"; "1"] = true ->
  str_in s ["n"; "no"; "f"; "false"; "off"; "0"] = true -> False.
Proof.
  unfold str_in. rewrite !existsb_exists. intros [w [I E]] [w' [I' E']]. apply String.eqb_eq in E, E'. subst w w'.
  repeat (destruct I as [<- | I]; [repeat (destruct I' as [E | I']; [discriminate E|]); destruct I'|]). destruct I.
Qed.
Lemma bool_env_main env name default :
  let text := match env name with Some s => s | None => str_of default end in
  (forall b, bool_env env name default = Ok b <-> says b text) /\
  ((~ says true text /\ ~ says false text) -> bool_env env name default = Err ValueError).
Proof.
  intros text. unfold bool_env. fold text. pose proof (in_says true text) as T. pose proof (in_says false text) as F.
  cbn beta iota in T, F. pose proof (words_disjoint (lower text)) as W.
  destruct (str_in (lower text) ["y"; "yes"; "t"; "true"; "on"; "1"]).
  - assert (NF : ~ says false text) by (rewrite F; auto). split.
    + intros []; split; intros H; try tauto; discriminate H.
    + tauto.
  - destruct (str_in (lower text) ["n"; "no"; "f"; "false"; "off"; "0"]).
    + split.
      * intros []; split; intros H; try tauto; try discriminate H; apply T in H; discriminate H.
      * tauto.
    + split; [|reflexivity]. intros []; split; intros H; try discriminate H; [apply T in H|apply F in H]; discriminate H.
Qed.

(** ** histories *)
Section Hist.
  Variable env : string -> option string.
  Variable parse_int : string -> option Z.
  Notation step := (step env parse_int).
  Notation run := (run env parse_int).

  Lemma step_values c o name : get (values (snd (step c o))) name =
    match written env parse_int c o with Some (n, v) => if (n =? name)%string then Some v else get (values c) name | None => get (values c) name end.
  Proof.
    unfold written. destruct o as [n t d r|n v]; cbn [Flags_Model.step].
    - unfold define. destruct (get (values c) n) eqn:G; cbn [fst snd]; [reflexivity|].
      destruct (get_env env parse_int n t d) as [v|e]; cbn [fst snd values]; [apply get_put|reflexivity].
    - unfold update. destruct (get (types c) n) as [t|]; cbn [fst snd]; [|reflexivity].
      destruct (convert parse_int t v) as [w|e]; cbn [fst snd values]; [apply get_put|reflexivity].
  Qed.
  Lemma run_values ops : forall c name, get (values (run c ops)) name = last_written env parse_int c ops name (get (values c) name).
  Proof.
    induction ops as [|o ops IH]; intros c name; cbn [Flags_Model.run last_written]; [reflexivity|].
    rewrite IH, step_values. reflexivity.
  Qed.
  Lemma flags_main ops name : flags (run empty ops) name =
    match last_written env parse_int empty ops name None with Some v => Ok v | None => Err KeyError end.
  Proof. unfold flags. rewrite run_values. reflexivity. Qed.

  Lemma env_type n t d v : get_env env parse_int n t d = Ok v -> of_type t v.
  Proof.
    destruct t; cbn [get_env]; intros E.
    - destruct (bool_env env n d); [|discriminate E]. cbn [bind] in E. injection E as <-. exact I.
    - destruct (int_env env parse_int n d); [|discriminate E]. cbn [bind] in E. injection E as <-. exact I.
    - discriminate E.
  Qed.
  Lemma convert_type t v w : convert parse_int t v = Ok w -> of_type t w.
  Proof.
    destruct t; cbn [convert]; intros E.
    - injection E as <-. exact I.
    - destruct (to_int parse_int v); [|discriminate E]. cbn [bind] in E. injection E as <-. exact I.
    - discriminate E.
  Qed.
  Lemma step_typed c o : well_typed c -> well_typed (snd (step c o)).
  Proof.
    intros W n v. destruct o as [n' t d r|n' v']; cbn [Flags_Model.step].
    - unfold define. destruct (get (values c) n') eqn:G; cbn [snd]; [apply W|].
      destruct (get_env env parse_int n' t d) as [x|e] eqn:E; cbn [snd values types].
      + rewrite !get_put. destruct (String.eqb_spec n' n) as [->|N].
        * intros H. injection H as <-. exists t. split; [reflexivity|]. now apply env_type in E.
        * intros H. now apply W.
      + rewrite get_put. destruct (String.eqb_spec n' n) as [->|N].
        * intros H. rewrite G in H. discriminate H.
        * intros H. now apply W.
    - unfold update. destruct (get (types c) n') as [t|] eqn:T; cbn [snd]; [|apply W].
      destruct (convert parse_int t v') as [x|e] eqn:E; cbn [snd values types]; [|apply W].
      rewrite get_put. destruct (String.eqb_spec n' n) as [->|N].
      + intros H. injection H as <-. exists t. split; [exact T|]. now apply convert_type in E.
      + intros H. now apply W.
  Qed.
  Lemma typed_main ops : well_typed (run empty ops).
  Proof.
    assert (W : well_typed empty) by (intros n v H; discriminate H). revert W. generalize empty.
    induction ops as [|o ops IH]; intros c W; cbn [Flags_Model.run]; [exact W|]. apply IH, step_typed, W.
  Qed.

  Lemma define_main c name t default runtime :
    (get (values c) name <> None -> define env parse_int c name t default runtime = (Some KeyError, c)) /\
    (get (values c) name = None -> forall v, get_env env parse_int name t default = Ok v ->
       fst (define env parse_int c name t default runtime) = None /\
       flags (snd (define env parse_int c name t default runtime)) name = Ok v) /\
    (forall e c', define env parse_int c name t default runtime = (Some e, c') -> values c' = values c).
  Proof.
    unfold define, flags. repeat split.
    - destruct (get (values c) name); [reflexivity|congruence].
    - rewrite H, H0. reflexivity.
    - rewrite H, H0. cbn [snd values]. rewrite get_put, String.eqb_refl. reflexivity.
    - intros e c'. destruct (get (values c) name); [intros E; injection E as _ <-; reflexivity|].
      destruct (get_env env parse_int name t default); intros E; [discriminate E|]. injection E as _ <-. reflexivity.
  Qed.
  Lemma update_main c name v e c' : update parse_int c name v = (Some e, c') -> c' = c /\
    (get (types c) name = None <-> e = KeyError).
  Proof.
    unfold update. destruct (get (types c) name) as [t|] eqn:T.
    - destruct (convert parse_int t v) as [w|x] eqn:E; [discriminate|]. intros H. injection H as <- <-. split; [reflexivity|].
      split; [discriminate|]. intros ->. destruct t; cbn [convert] in E; try discriminate E.
      unfold to_int in E. destruct v; cbn [bind] in E; try discriminate E. destruct (parse_int s); discriminate E.
    - intros H. injection H as <- <-. split; [reflexivity|]. split; auto.
  Qed.
  Lemma bool_update c name v : get (types c) name = Some TBool ->
    fst (update parse_int c name v) = None /\ flags (snd (update parse_int c name v)) name = Ok (VBool (truth v)).
  Proof.
    intros T. unfold update. rewrite T. cbn [convert fst snd]. split; [reflexivity|]. unfold flags. cbn [values].
    rewrite get_put, String.eqb_refl. reflexivity.
  Qed.
End Hist.

Definition no_env (_ : string) : option string := None.
Definition no_int (_ : string) : option Z := None.
Definition netket_flags : list op :=
  [Define "NETKET_DEBUG" TBool (VBool false) true; Define "NETKET_EXPERIMENTAL" TBool (VBool false) false;
   Define "NETKET_MPI_WARNING" TBool (VBool true) false].

Lemma text_refuted : exists env parse_int name text c,
  get (types c) name = Some TBool /\ bool_env env name (VBool false) = Ok false /\ env name = Some text /\
  update parse_int c name (VStr text) = (None, snd (update parse_int c name (VStr text))) /\
  flags (snd (update parse_int c name (VStr text))) name = Ok (VBool true).
Proof.
  exists (fun _ => Some "0"), no_int, "NETKET_EXPERIMENTAL", "0", (run no_env no_int empty netket_flags).
  repeat split.
Qed.
Lemma runtime_refuted : exists c name, get (editable c) name = Some false /\ flags c name = Ok (VBool false) /\
  exists c', update no_int c name (VBool true) = (None, c') /\ flags c' name = Ok (VBool true).
Proof.
  exists (run no_env no_int empty netket_flags), "NETKET_EXPERIMENTAL". split; [reflexivity|]. split; [reflexivity|].
  eexists. split; reflexivity.
Qed.
