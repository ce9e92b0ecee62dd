From Coq Require Import DecimalString Decimal DecimalZ String Ascii List ZArith Bool Lia.
From Verif Require Import Base StateLog_Model StateLog_Spec StateLog_Proofs VarFile_Model VarFile_Spec.
Import ListNotations.
Open Scope string_scope.
Open Scope list_scope.

Notation chars := list_ascii_of_string.
Lemma str_app_assoc a b c : ((a ++ b) ++ c = a ++ (b ++ c))%string.
Proof. induction a as [|x a IH]; cbn [append]; [reflexivity|]. now rewrite IH. Qed.
Lemma chars_app a b : chars (a ++ b)%string = chars a ++ chars b.
Proof. induction a as [|x a IH]; cbn; [reflexivity|]. now rewrite IH. Qed.
Lemma length_app a b : (String.length (a ++ b) = String.length a + String.length b)%nat.
Proof. induction a as [|x a IH]; cbn; [reflexivity|]. now rewrite IH. Qed.
Lemma substring_all b : substring 0 (String.length b) b = b.
Proof. induction b as [|x b IH]; cbn; [reflexivity|]. now rewrite IH. Qed.
Lemma substring_app a b : substring (String.length a) (String.length b) (a ++ b) = b.
Proof. induction a as [|x a IH]; [cbn [String.length append]; apply substring_all|]. exact IH. Qed.
Lemma last_chars_app a b : last_chars (String.length b) (a ++ b) = b.
Proof. unfold last_chars. rewrite length_app. replace (_ + _ - _)%nat with (String.length a) by lia. apply substring_app. Qed.
Lemma substring_suffix s : forall n m, (n + m = String.length s)%nat -> exists x, s = (x ++ substring n m s)%string.
Proof.
  induction s as [|c s IH]; intros n m E.
  - exists "". cbn in E. destruct n; [|discriminate E]. destruct m; [|discriminate E]. reflexivity.
  - destruct n as [|n].
    + exists "". cbn [append]. cbn [String.length] in E. destruct m as [|m]; [discriminate E|]. injection E as ->.
      cbn. now rewrite substring_all.
    + cbn in E. injection E as E. destruct (IH n m E) as [x Hx]. exists (String c x). cbn [append substring]. now f_equal.
Qed.
Lemma last_chars_suffix n s t : last_chars n s = t -> String.length t = n -> exists x, s = (x ++ t)%string.
Proof.
  intros <- L. unfold last_chars in *. destruct (le_lt_dec n (String.length s)) as [Hn|Hn].
  - apply substring_suffix. lia.
  - exists "". cbn [append]. replace (String.length s - n)%nat with O in * by lia.
    assert (G : forall s n, (String.length s <= n)%nat -> substring 0 n s = s).
    { clear. induction s as [|c s IH]; intros [|n] H; cbn in *; try reflexivity; [lia|]. f_equal. apply IH. lia. }
    now rewrite G by lia.
Qed.

(** numerals *)
Definition numchar (c : ascii) : Prop := c = "-"%char \/ (48 <= nat_of_ascii c <= 57)%nat.
Lemma uint_chars u : Forall numchar (chars (NilEmpty.string_of_uint u)).
Proof. induction u; cbn [NilEmpty.string_of_uint list_ascii_of_string]; constructor; try assumption; right; cbn; lia. Qed.
Lemma str_int_chars z : Forall numchar (chars (str_int z)).
Proof.
  unfold str_int. destruct (Z.to_int z) as [u|u]; cbn [NilEmpty.string_of_int]; [apply uint_chars|].
  cbn [list_ascii_of_string]. constructor; [now left|apply uint_chars].
Qed.
Lemma str_int_inj a b : str_int a = str_int b -> a = b.
Proof.
  unfold str_int. intros E. apply (f_equal NilEmpty.int_of_string) in E. rewrite !NilEmpty.isi in E.
  injection E as E. apply (f_equal Z.of_int) in E. now rewrite !DecimalZ.of_to in E.
Qed.
Lemma str_int_nonempty z : str_int z <> "".
Proof.
  unfold str_int. intros E. pose proof (f_equal NilEmpty.int_of_string E) as F. rewrite NilEmpty.isi in F.
  cbn in F. injection F as F. pose proof (DecimalZ.of_to z) as G. rewrite F in G. cbn in G. subst z. discriminate F.
Qed.
Lemma bare_suffix prefix z : last_chars 6 (prefix ++ str_int z) <> ".mpack".
Proof.
  intros E. apply last_chars_suffix in E; [|reflexivity]. destruct E as [x E].
  apply (f_equal (fun s => rev (chars s))) in E. rewrite !chars_app, !rev_app_distr in E.
  pose proof (str_int_chars z) as F. pose proof (str_int_nonempty z) as N.
  destruct (rev (chars (str_int z))) as [|c r] eqn:R.
  - apply N. apply (f_equal (@rev ascii)) in R. rewrite rev_involutive in R. cbn in R. now destruct (str_int z).
  - cbn in E. injection E as -> _. apply Forall_rev in F. rewrite R in F. apply Forall_inv in F.
    destruct F as [F|F]; [discriminate F|]. cbn in F. lia.
Qed.
Lemma app_str_inj p a b : (p ++ a = p ++ b)%string -> a = b.
Proof. induction p as [|c p IH]; cbn [append]; intros E; [exact E|]. injection E as E. now apply IH. Qed.

Lemma fname_eqb_eq a b : fname_eqb a b = true <-> a = b.
Proof.
  split.
  - destruct a as [x|x k|k|k p], b as [y|y l|l|l q]; cbn; intros H; try discriminate H.
    + apply Z.eqb_eq in H. now subst.
    + apply andb_true_iff in H. destruct H as [H1 H2]. apply Z.eqb_eq in H1. apply Nat.eqb_eq in H2. now subst.
    + apply Nat.eqb_eq in H. now subst.
    + apply andb_true_iff in H. destruct H as [H1 H2]. apply Nat.eqb_eq in H1. subst.
      destruct p, q; cbn in H2; try discriminate H2; [apply Z.eqb_eq in H2; now subst|reflexivity].
  - intros <-. destruct a as [x|x k|k|k p]; cbn; rewrite ?Z.eqb_refl, ?Nat.eqb_refl; try reflexivity.
    destruct p; cbn; now rewrite ?Z.eqb_refl.
Qed.

Section P.
  Variables T B : Type.
  Variable from_bytes : T -> B -> res T.
  Variable to_bytes : T -> B.
  Variable spell : fname -> string.
  Variable garbage : B.
  Hypothesis Hspell : spelling spell.
  Notation files := (folder_files T B to_bytes spell garbage).
  Notation content := (content T B to_bytes garbage).

  Lemma files_at prefix l z : files prefix l (prefix ++ (str_int z ++ ".mpack"))%string =
    match lookup (FNum z) l with Some c => Some (content c) | None => None end.
  Proof.
    induction l as [|[n c] l IH]; cbn [folder_files lookup]; [reflexivity|].
    destruct (fname_eqb n (FNum z)) eqn:E.
    - apply fname_eqb_eq in E. subst n. rewrite (proj2 (Hspell (FNum z) z) eq_refl), String.eqb_refl. reflexivity.
    - destruct (String.eqb_spec (prefix ++ spell n) (prefix ++ (str_int z ++ ".mpack"))) as [F|F]; [|exact IH].
      apply app_str_inj, Hspell in F. subst n. cbn in E. now rewrite Z.eqb_refl in E.
  Qed.
  Lemma files_bare prefix l z : no_bare spell l z -> files prefix l (prefix ++ str_int z)%string = None.
  Proof.
    induction l as [|[n c] l IH]; intros H; cbn [folder_files]; [reflexivity|].
    destruct (String.eqb_spec (prefix ++ spell n) (prefix ++ str_int z)) as [F|F].
    - apply app_str_inj in F. exfalso. apply (H n c); [now left|exact F].
    - apply IH. intros n' c' I. apply (H n' c'). now right.
  Qed.
  Lemma load_full prefix l z variables : variables_from_file T B from_bytes (files prefix l) (prefix ++ (str_int z ++ ".mpack")) variables =
    match lookup (FNum z) l with Some c => from_bytes variables (content c) | None => Err Exception_ end.
  Proof.
    unfold variables_from_file. rewrite !files_at. destruct (lookup (FNum z) l) as [c|] eqn:L; cbn [negb].
    - now rewrite files_at, L.
    - rewrite <- str_app_assoc. change 6%nat with (String.length ".mpack"). rewrite last_chars_app. cbn [String.eqb Ascii.eqb Bool.eqb negb].
      now rewrite str_app_assoc, files_at, L.
  Qed.
  Lemma load_bare prefix l z variables : no_bare spell l z ->
    variables_from_file T B from_bytes (files prefix l) (prefix ++ str_int z) variables =
    variables_from_file T B from_bytes (files prefix l) (prefix ++ (str_int z ++ ".mpack")) variables.
  Proof.
    intros H. rewrite load_full. unfold variables_from_file. rewrite (files_bare _ _ _ H). cbn [negb].
    destruct (String.eqb_spec (last_chars 6 (prefix ++ str_int z)) ".mpack") as [E|_]; [now apply bare_suffix in E|].
    cbn [negb]. rewrite str_app_assoc, files_at. now destruct (lookup (FNum z) l).
  Qed.

  Lemma folder_load m se (d0 : store T) s d calls b prefix variables : (0 < se)%Z ->
    snew T m false se d0 = Ok (s, d) -> first_number (mode s) checkpoint d0 b ->
    (forall v, In v (to_save se calls) -> reads_back from_bytes to_bytes variables v) ->
    exists s' l snaps, srun T 0 s d calls = (None, s', Some l, snaps) /\
      (forall i v, nth_error (to_save se calls) i = Some v ->
         variables_from_file T B from_bytes (files prefix l) (prefix ++ (str_int (b + Z.of_nat i) ++ ".mpack")) variables = Ok v /\
         (no_bare spell l (b + Z.of_nat i) ->
          variables_from_file T B from_bytes (files prefix l) (prefix ++ str_int (b + Z.of_nat i)) variables = Ok v)) /\
      (forall k y, In (k, y) snaps -> exists ly, y = Some ly /\
         forall i v, nth_error (to_save se (firstn k calls)) i = Some v ->
         from_bytes variables (to_bytes v) = Ok v ->
         variables_from_file T B from_bytes (files prefix ly) (prefix ++ (str_int (b + Z.of_nat i) ++ ".mpack")) variables = Ok v).
  Proof.
    intros Hse Hn Hb R. destruct (@folder_main T m se d0 s d calls b Hse Hn Hb) as [s' [l [snaps [E [H [_ [_ C]]]]]]].
    exists s', l, snaps. split; [exact E|]. split.
    - intros i v Hv. pose proof (H i v Hv) as L. apply nth_error_In in Hv.
      assert (F : variables_from_file T B from_bytes (files prefix l) (prefix ++ (str_int (b + Z.of_nat i) ++ ".mpack")) variables = Ok v).
      { rewrite load_full, L. now apply R. }
      split; [exact F|]. intros N. rewrite (load_bare _ _ _ _ N). exact F.
    - intros k y I. destruct (C k y I) as [ly [-> [Hy _]]]. exists ly. split; [reflexivity|]. intros i v Hv Rv.
      rewrite load_full, (Hy i v Hv). exact Rv.
  Qed.

  Lemma absent prefix l z variables : lookup (FNum z) l = None ->
    variables_from_file T B from_bytes (files prefix l) (prefix ++ (str_int z ++ ".mpack")) variables = Err Exception_.
  Proof. intros L. now rewrite load_full, L. Qed.

  (** ** archives *)
  Notation member := (fun e : fname * option T => (spell (fst e), content (snd e))).
  Lemma getmember_app (a b : list (string * B)) n : getmember B (a ++ b) n =
    match getmember B b n with Some c => Some c | None => getmember B a n end.
  Proof. induction a as [|[x y] a IH]; cbn [app getmember]; [now destruct (getmember B b n)|]. rewrite IH. now destruct (getmember B b n). Qed.
  Lemma getmember_numbered vs : forall b z, getmember B (map member (numbered b vs)) (str_int z ++ ".mpack") =
    if (b <=? z)%Z then match nth_error vs (Z.to_nat (z - b)) with Some v => Some (to_bytes v) | None => None end else None.
  Proof.
    induction vs as [|v vs IH]; intros b z; cbn [numbered map getmember fst snd].
    - destruct (b <=? z)%Z; [|reflexivity]. now destruct (Z.to_nat (z - b)).
    - rewrite IH. destruct (Z.leb_spec (b + 1) z) as [H|H].
      + destruct (Z.leb_spec b z) as [_|H2]; [|lia]. replace (Z.to_nat (z - b)) with (S (Z.to_nat (z - (b + 1)))) by lia. cbn [nth_error].
        destruct (nth_error vs (Z.to_nat (z - (b + 1)))); [reflexivity|].
        destruct (String.eqb_spec (spell (FNum b)) (str_int z ++ ".mpack")) as [E|_]; [|reflexivity].
        apply Hspell in E. injection E as ->. lia.
      + destruct (String.eqb_spec (spell (FNum b)) (str_int z ++ ".mpack")) as [E|E].
        * apply Hspell in E. injection E as ->. rewrite Z.leb_refl, Z.sub_diag. reflexivity.
        * destruct (Z.leb_spec b z) as [H2|_]; [|reflexivity]. exfalso. apply E. apply Hspell. f_equal. lia.
  Qed.
  Notation archive := (tar_archives T B to_bytes spell garbage).
  (** Opening the archive [path ++ ".tar"] by either name. *)
  Lemma tar_open path l name variables z : name = (path ++ ".tar")%string \/ (name = path /\ last_chars 4 path <> ".tar") ->
    variables_from_tar T B from_bytes (archive (path ++ ".tar") l) name variables z =
    match getmember B (map member l) (str_int z ++ ".mpack") with Some b => from_bytes variables b | None => Err KeyError end.
  Proof.
    intros [->|[-> L]]; unfold variables_from_tar, tar_archives.
    - now rewrite String.eqb_refl; cbn [negb]; rewrite String.eqb_refl.
    - assert (N : (path ++ ".tar" =? path)%string = false).
      { apply String.eqb_neq. intros E. apply (f_equal String.length) in E. rewrite length_app in E. cbn in E. lia. }
      rewrite N. cbn [negb]. destruct (String.eqb_spec (last_chars 4 path) ".tar") as [E|_]; [now elim L|].
      cbn [negb]. now rewrite String.eqb_refl.
  Qed.
  Lemma tar_load m se (d0 : store T) s d calls b path name variables : (0 < se)%Z ->
    snew T m true se d0 = Ok (s, d) -> mode s <> MFail -> first_number (mode s) (fun _ => true) d0 b -> calls <> [] ->
    name = (path ++ ".tar")%string \/ (name = path /\ last_chars 4 path <> ".tar") ->
    (forall v, In v (to_save se calls) -> reads_back from_bytes to_bytes variables v) ->
    exists s' l snaps, srun T 0 s d calls = (None, s', Some l, snaps) /\
      let load z := variables_from_tar T B from_bytes (archive (path ++ ".tar") l) name variables z in
      (forall i v, nth_error (to_save se calls) i = Some v -> load (b + Z.of_nat i)%Z = Ok v) /\
      (forall z, (z < b \/ b + Z.of_nat (List.length (to_save se calls)) <= z)%Z ->
         load z = match mode s with
                  | MAppend => variables_from_tar T B from_bytes (archive (path ++ ".tar") (entries T d0)) name variables z
                  | _ => Err KeyError end).
  Proof.
    intros Hse Hn Hm Hb Hc Hname R. destruct (@tar_main T m se d0 s d calls b Hse Hn Hm Hb Hc) as [s' [snaps E]].
    eexists s', _, snaps. split; [exact E|]. cbv zeta. split.
    - intros i v Hv. rewrite (tar_open _ _ _ _ _ Hname), map_app, getmember_app, getmember_numbered.
      destruct (Z.leb_spec b (b + Z.of_nat i)); [|lia]. replace (Z.to_nat (b + Z.of_nat i - b)) with i by lia.
      rewrite Hv. apply R. now apply nth_error_In in Hv.
    - intros z Hz. rewrite (tar_open _ _ _ _ _ Hname), map_app, getmember_app, getmember_numbered.
      assert (N : (if (b <=? z)%Z then match nth_error (to_save se calls) (Z.to_nat (z - b)) with Some v => Some (to_bytes v) | None => None end else None) = None).
      { destruct (Z.leb_spec b z) as [H|H]; [|reflexivity].
        rewrite (proj2 (nth_error_None (to_save se calls) (Z.to_nat (z - b)))); [reflexivity|]. lia. }
      rewrite N. destruct (mode s); [reflexivity| |now elim Hm].
      rewrite (tar_open _ _ _ _ _ Hname). reflexivity.
  Qed.
End P.

(** A spelling. *)
Definition spell_ex (n : fname) : string :=
  match n with
  | FNum z => (str_int z ++ ".mpack")%string
  | FAlias z _ => (" " ++ str_int z ++ ".mpack")%string
  | FBad _ => "x.mpack"
  | FOther _ _ => "notes.txt"
  end.
Lemma spelling_ex : spelling spell_ex.
Proof.
  assert (C : forall z, exists c r, str_int z = String c r /\ numchar c).
  { intros z. pose proof (str_int_chars z) as F. pose proof (str_int_nonempty z) as N. destruct (str_int z) as [|c r]; [congruence|].
    exists c, r. split; [reflexivity|]. now apply Forall_inv in F. }
  assert (Q : forall z c s, ~ numchar c -> String c s <> (str_int z ++ ".mpack")%string).
  { intros z c s Hc E. destruct (C z) as [c' [r [E2 Hc']]]. rewrite E2 in E. cbn in E. injection E as <- _. now apply Hc. }
  intros n z. split.
  - destruct n as [x|x k|k|k p]; cbn [spell_ex]; intros E.
    + f_equal. apply str_int_inj.
      assert (G : forall a b c, (a ++ c = b ++ c)%string -> a = b).
      { clear. intros a b c E. apply (f_equal chars) in E. rewrite !chars_app in E. apply app_inv_tail in E.
        apply (f_equal string_of_list_ascii) in E. now rewrite !string_of_list_ascii_of_string in E. }
      now apply G in E.
    + exfalso. cbn [append] in E. revert E. apply Q. intros [H|H]; [discriminate H|cbn in H; lia].
    + exfalso. revert E. apply Q. intros [H|H]; [discriminate H|cbn in H; lia].
    + exfalso. revert E. apply Q. intros [H|H]; [discriminate H|cbn in H; lia].
  - intros ->. reflexivity.
Qed.
