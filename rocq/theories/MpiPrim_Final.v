From Coq Require Import Decimal DecimalString DecimalFacts DecimalPos DecimalN.
From Coq Require Import String Ascii List ZArith NArith Bool Lia.
From Verif Require Import Base MpiPrim_Model MpiPrim_Spec MpiPrim_Proofs MpiPrim_Red.
Import ListNotations.
Open Scope nat_scope.

(** ** broadcast and gather *)
Lemma bcast_main {X} (xs : list X) root x : 2 <= length xs -> (0 <= root)%Z -> nth_error xs (Z.to_nat root) = Some x ->
  mpi_bcast root xs = Ok (repeat x (length xs)) /\ mpi_bcast_jax root xs = Ok (repeat x (length xs)).
Proof.
  intros L P E. unfold mpi_bcast, mpi_bcast_jax. destruct (Nat.leb_spec (length xs) 1); [lia|]. destruct (Z.ltb_spec root 0); [lia|]. rewrite E.
  assert (M : map (fun _ => x) xs = repeat x (length xs)) by (clear; induction xs as [|y l IH]; [reflexivity|]; cbn; rewrite IH; reflexivity).
  rewrite M. split; reflexivity.
Qed.
Lemma bcast_refuses {X} (xs : list X) root : 2 <= length xs -> (root < 0 \/ Z.of_nat (length xs) <= root)%Z ->
  (exists e, mpi_bcast root xs = Err e) /\ (exists e, mpi_bcast_jax root xs = Err e).
Proof.
  intros L P. unfold mpi_bcast, mpi_bcast_jax. destruct (Nat.leb_spec (length xs) 1); [lia|]. destruct (Z.ltb_spec root 0); [split; eexists; reflexivity|].
  assert (N : nth_error xs (Z.to_nat root) = None) by (apply nth_error_None; lia). rewrite N. split; eexists; reflexivity.
Qed.
Lemma gather_main {X} (xs : list X) : 2 <= length xs -> mpi_allgather xs = repeat (Listed xs) (length xs).
Proof.
  intros L. unfold mpi_allgather. destruct (Nat.leb_spec (length xs) 1); [lia|]. generalize (Listed xs) as y. clear. intros y.
  induction xs as [|x l IH]; [reflexivity|]. cbn. rewrite IH. reflexivity.
Qed.

(** ** versions *)
Local Open Scope string_scope.
Fixpoint digits (s : string) : bool := match s with EmptyString => true | String c s => allowed c && negb (Ascii.eqb c ".") && digits s end.
Lemma string_digits u : digits (NilEmpty.string_of_uint u) = true.
Proof. induction u as [|u IH|u IH|u IH|u IH|u IH|u IH|u IH|u IH|u IH|u IH]; [reflexivity|..]; cbn [NilEmpty.string_of_uint digits]; rewrite IH; reflexivity. Qed.
Lemma to_nonnil n : N.to_uint n <> Nil.
Proof. destruct n as [|p]; [discriminate|apply DecimalPos.Unsigned.to_uint_nonnil]. Qed.
Definition numeral (n : N) : string := NilZero.string_of_uint (N.to_uint n).
Lemma numeral_empty n : numeral n = NilEmpty.string_of_uint (N.to_uint n).
Proof. unfold numeral, NilZero.string_of_uint. pose proof (to_nonnil n) as H. destruct (N.to_uint n); [contradiction|reflexivity..]. Qed.
Lemma numeral_digits n : digits (numeral n) = true.
Proof. rewrite numeral_empty. apply string_digits. Qed.
Lemma numeral_nonempty n : numeral n <> "".
Proof. rewrite numeral_empty. pose proof (to_nonnil n) as H. destruct (N.to_uint n); [contradiction|discriminate..]. Qed.
Lemma numeral_int n : int_of (numeral n) = Ok n.
Proof.
  unfold int_of. rewrite numeral_empty, NilEmpty.usu. pose proof (to_nonnil n) as H. pose proof (DecimalN.Unsigned.of_to n) as O.
  destruct (N.to_uint n); [contradiction|..]; rewrite O; reflexivity.
Qed.
Lemma app_empty s : s ++ "" = s.
Proof. induction s as [|c s IH]; [reflexivity|]. cbn. rewrite IH. reflexivity. Qed.
Lemma app_assoc_s a b c : (a ++ b) ++ c = a ++ (b ++ c).
Proof. induction a as [|x a IH]; [reflexivity|]. cbn. rewrite IH. reflexivity. Qed.
Lemma take_digits s t : digits s = true -> take_allowed (s ++ t) = s ++ take_allowed t.
Proof.
  induction s as [|c s IH]; intros H; [reflexivity|]. cbn [digits] in H. apply andb_prop in H. destruct H as [H1 H2]. apply andb_prop in H1.
  change (String c s ++ t) with (String c (s ++ t)). cbn [take_allowed]. rewrite (proj1 H1), (IH H2). reflexivity.
Qed.
Lemma take_dotted ns t : take_allowed (dotted ns ++ t) = dotted ns ++ take_allowed t.
Proof.
  induction ns as [|n ns IH]; [reflexivity|]. destruct ns as [|n' ns]; [apply (take_digits (numeral n)), numeral_digits|].
  change (dotted (n :: n' :: ns)) with (numeral n ++ "." ++ dotted (n' :: ns)). rewrite !app_assoc_s, take_digits by apply numeral_digits.
  change (("." ++ dotted (n' :: ns)) ++ t) with (String "." (dotted (n' :: ns) ++ t)) || idtac.
  f_equal. cbn [append take_allowed]. change (allowed ".") with true. cbv iota. f_equal. exact IH.
Qed.
Lemma rstrip_app a t : rstrip_dots t <> "" -> rstrip_dots (a ++ t) = a ++ rstrip_dots t.
Proof.
  intros N. induction a as [|c a IH]; [reflexivity|]. cbn [append rstrip_dots]. rewrite IH. destruct (a ++ rstrip_dots t) eqn:E; [|reflexivity].
  destruct a; [cbn in E; rewrite E in N; contradiction|discriminate].
Qed.
Lemma rstrip_digits s d : digits s = true -> s <> "" -> d = "" \/ d = "." -> rstrip_dots (s ++ d) = s.
Proof.
  intros H N Hd. induction s as [|c s IH]; [contradiction|]. cbn [digits] in H. apply andb_prop in H. destruct H as [H1 H2]. apply andb_prop in H1. destruct H1 as [_ H1].
  cbn [append rstrip_dots]. destruct s as [|c' s].
  - destruct Hd as [-> | ->]; cbn [append rstrip_dots Ascii.eqb Bool.eqb]; destruct (Ascii.eqb c "."); try discriminate; reflexivity.
  - rewrite (IH H2) by discriminate. reflexivity.
Qed.
Lemma rstrip_dotted ns d : ns <> [] -> d = "" \/ d = "." -> rstrip_dots (dotted ns ++ d) = dotted ns.
Proof.
  intros N Hd. induction ns as [|n ns IH]; [contradiction|]. destruct ns as [|n' ns]; [apply (rstrip_digits (numeral n)); [apply numeral_digits|apply numeral_nonempty|exact Hd]|].
  change (dotted (n :: n' :: ns)) with (numeral n ++ "." ++ dotted (n' :: ns)). rewrite !app_assoc_s.
  assert (NE : dotted (n' :: ns) <> "").
  { destruct ns as [|m ns]; [apply (numeral_nonempty n')|]. change (dotted (n' :: m :: ns)) with (numeral n' ++ "." ++ dotted (m :: ns)).
    destruct (numeral n') eqn:E; [destruct (numeral_nonempty n' E)|discriminate]. }
  rewrite rstrip_app.
  - f_equal. rewrite rstrip_app; [f_equal|]; rewrite IH by discriminate; [reflexivity|exact NE].
  - rewrite rstrip_app; rewrite IH by discriminate; [discriminate|exact NE].
Qed.
Lemma split_digits s : digits s = true -> split_dots s = [s].
Proof.
  induction s as [|c s IH]; intros H; [reflexivity|]. cbn [digits] in H. apply andb_prop in H. destruct H as [H1 H2]. apply andb_prop in H1. destruct H1 as [_ H1].
  cbn [split_dots]. destruct (Ascii.eqb c "."); [discriminate|]. rewrite (IH H2). reflexivity.
Qed.
Lemma split_digits_dot s t : digits s = true -> split_dots (s ++ "." ++ t) = s :: split_dots t.
Proof.
  induction s as [|c s IH]; intros H; [reflexivity|]. cbn [digits] in H. apply andb_prop in H. destruct H as [H1 H2]. apply andb_prop in H1. destruct H1 as [_ H1].
  change (String c s ++ "." ++ t) with (String c (s ++ "." ++ t)). cbn [split_dots]. destruct (Ascii.eqb c "."); [discriminate|]. rewrite (IH H2). reflexivity.
Qed.
Lemma split_dotted ns : ns <> [] -> split_dots (dotted ns) = map numeral ns.
Proof.
  intros N. induction ns as [|n ns IH]; [contradiction|]. destruct ns as [|n' ns]; [apply (split_digits (numeral n)), numeral_digits|].
  change (dotted (n :: n' :: ns)) with (numeral n ++ "." ++ dotted (n' :: ns)). rewrite split_digits_dot by apply numeral_digits. rewrite IH by discriminate. reflexivity.
Qed.
Lemma version_main ns s : ns <> [] -> suffix s -> version_tuple (dotted ns ++ s) = Ok (firstn 3 ns).
Proof.
  intros N Sx. unfold version_tuple. rewrite take_dotted.
  assert (T : take_allowed s = "" \/ take_allowed s = ".").
  { destruct Sx as [-> | [(c & t & -> & H) | (c & t & -> & H)]]; [left; reflexivity|left; cbn [take_allowed]; rewrite H; reflexivity|].
    right. cbn [take_allowed]. change (allowed ".") with true. cbv iota. rewrite H. reflexivity. }
  rewrite (rstrip_dotted ns _ N T), (split_dotted ns N), map_map.
  rewrite (sequence_ok (fun n => int_of (numeral n)) (fun n => n)); [rewrite map_id; reflexivity|]. apply Forall_forall. intros n _. apply numeral_int.
Qed.
Lemma tuple_lt_older a b : tuple_lt a b = true <-> older a b.
Proof.
  revert b. induction a as [|x a IH]; intros [|y b]; cbn [tuple_lt older]; try (split; [discriminate|tauto]); [tauto|].
  rewrite orb_true_iff, andb_true_iff, N.ltb_lt, N.eqb_eq, IH. tauto.
Qed.
Lemma check_main ns ms s t : ns <> [] -> ms <> [] -> suffix s -> suffix t ->
  (older (firstn 3 ns) (firstn 3 ms) -> check_version (dotted ns ++ s) (dotted ms ++ t) = Err Exception_) /\
  (~ older (firstn 3 ns) (firstn 3 ms) -> check_version (dotted ns ++ s) (dotted ms ++ t) = Ok tt).
Proof.
  intros N M S T. unfold check_version. rewrite (version_main ns s N S), (version_main ms t M T). cbn [bind].
  pose proof (tuple_lt_older (firstn 3 ns) (firstn 3 ms)) as H. destruct (tuple_lt _ _); split; intros O; try reflexivity; exfalso; [apply O, H; reflexivity|].
  apply H in O. discriminate.
Qed.
Local Close Scope string_scope.
Lemma transposed : exists ranks l,
  Forall (fun r : list Z * arg Z => exists v, snd r = Array v /\ size v = 4 /\ writable v = true) ranks /\ length ranks = 2 /\
  reduced 0%Z Z.add ranks = Ok l /\ Exists (fun vm => ~ is_sum 0%Z Z.add 4 ranks (fst vm)) l.
Proof.
  set (r := ([1; 2; 3; 4]%Z, Array (A := Z) (View 0 [(2, 1%Z); (2, 2%Z)] true))).
  exists [r; r], [([1; 3; 2; 4], [1; 2; 3; 4]); ([1; 3; 2; 4], [1; 2; 3; 4])]%Z.
  split; [|split; [reflexivity|split; [vm_compute; reflexivity|]]].
  - repeat (apply Forall_cons; [exists (View 0 [(2, 1%Z); (2, 2%Z)] true); repeat split|]). apply Forall_nil.
  - apply Exists_cons_hd. intros [_ H]. specialize (H 0 ltac:(lia)). vm_compute in H. discriminate.
Qed.
Lemma one_root {X} (x : X) root : mpi_bcast root [x] = Ok [x] /\ (root <> 0%Z -> mpi_bcast_jax root [x] = Err AssertionError).
Proof. split; [reflexivity|]. intros N. unfold mpi_bcast_jax. cbn [length Nat.leb]. destruct (Z.eqb_spec root 0); [contradiction|reflexivity]. Qed.
Lemma one_gather {X} (x : X) : mpi_allgather [x] = [Itself x] /\ mpi_allgather [x] <> [Listed [x]].
Proof. split; [reflexivity|discriminate]. Qed.
