From Coq Require Import String List ZArith QArith Bool Ascii Lia.
From Verif Require Import Base BaseFacts Lattice_Model Lattice_Spec LatGen_Model LatGen_Spec LatGen_Look LatGen_Ex Compat_Model Compat_Spec.
Import ListNotations.
Open Scope nat_scope.

(** ** calls *)
Lemma deprecated_records {S V} dedent reason cls name (f : @fn S V) args kw log s :
  deprecated recording dedent reason cls name (lifted f) args kw (log, s) =
  ((log ++ [("Call to deprecated " ++ (if cls then "class" else "function") ++ " '" ++ name ++ "'" ++
             match reason with Some r => " (" ++ dedent r ++ ")" | None => "" end)%string], fst (f args kw s)), snd (f args kw s)).
Proof.
  assert (A : forall a b : string, (a ++ "")%string = a) by (intros a b; induction a; cbn; congruence).
  assert (B : forall a b c : string, ((a ++ b) ++ c = a ++ (b ++ c))%string) by (intros a b c; induction a; cbn; congruence).
  unfold deprecated, recording, lifted. destruct reason as [r|].
  - cbn [fst snd]. destruct (f args kw s) as [s' v]. cbn [fst snd]. rewrite !B. reflexivity.
  - cbn [fst snd]. destruct (f args kw s) as [s' v]. cbn [fst snd]. rewrite A by exact ""%string. reflexivity.
Qed.
Lemma renamed_records {S V} dedent new name (f : @fn S V) args kw log s :
  exists msg, deprecated_new_name recording dedent new name (lifted f) args kw (log, s) =
  ((log ++ [msg], fst (f args kw s)), snd (f args kw s)).
Proof. eexists. unfold deprecated_new_name, recording, lifted. cbn [fst snd]. destruct (f args kw s). reflexivity. Qed.
Lemma deprecated_raises {S V} dedent reason cls name e (f : @fn S V) args kw s :
  deprecated (raising e) dedent reason cls name f args kw s = (s, Err e) /\
  forall new, deprecated_new_name (raising e) dedent new name f args kw s = (s, Err e).
Proof. split; [|intros]; reflexivity. Qed.

Lemma has_lookup {V} k (kw : list (string * V)) : has_key k kw = match lookup k kw with Some _ => true | None => false end.
Proof.
  unfold has_key, lookup. induction kw as [|[a b] kw IH]; [reflexivity|]. cbn [existsb find fst]. destruct (a =? k)%string; [reflexivity|exact IH].
Qed.
Lemma wraps_main {W V} (legacy f : @fn W V) argname argtype args kw w : args <> [] \/ lookup argname kw = None ->
  wraps_legacy legacy argname argtype f args kw w =
  match first_parameter argname args kw with
  | Some v => if argtype v then legacy args kw w else f args kw w
  | None => f args kw w
  end.
Proof.
  intros H. unfold wraps_legacy, first_parameter. destruct args as [|a args]; [|reflexivity].
  destruct H as [H|H]; [congruence|]. cbn [length Nat.ltb Nat.leb]. rewrite has_lookup, H. reflexivity.
Qed.
Lemma wraps_keyword {W V} (legacy f : @fn W V) argname argtype v kw w :
  wraps_legacy legacy argname argtype f [] ((argname, v) :: kw) w = (w, Err IndexError).
Proof. unfold wraps_legacy. cbn [length Nat.ltb Nat.leb]. unfold has_key. cbn [existsb fst]. rewrite String.eqb_refl. reflexivity. Qed.

Lemma optim_main {S V} own imported new name v log (s : S) : lookup name own = None -> In name (map fst imported) -> is_private name = false ->
  lookup name new = Some v ->
  exists msg, optim_getattr (V := V) recording own imported new name (log, s) = ((log ++ [msg], s), Ok v).
Proof.
  intros O I P N. unfold optim_getattr. rewrite O.
  assert (E : existsb (fun n => (n =? name)%string) (filter (fun n => negb (is_private n)) (map fst imported)) = true).
  { apply existsb_exists. exists name. split; [|apply String.eqb_refl]. apply filter_In. split; [exact I|]. rewrite P. reflexivity. }
  rewrite E. cbn [recording fst snd]. rewrite N. eexists. reflexivity.
Qed.
Lemma optim_other {W V} warn own imported new name (w : W) : lookup name own = None ->
  ~ In name (map fst imported) \/ is_private name = true ->
  optim_getattr (V := V) warn own imported new name w = (w, Err AttributeError).
Proof.
  intros O H. unfold optim_getattr. rewrite O.
  destruct (existsb _ _) eqn:E; [|reflexivity]. apply existsb_exists in E. destruct E as (n & I & E). apply String.eqb_eq in E. subst n.
  apply filter_In in I. destruct I as [I P]. destruct H as [H|H]; [contradiction|]. rewrite H in P. discriminate.
Qed.

Lemma optim_own {W V} warn own imported new name v (w : W) : lookup name own = Some v ->
  optim_getattr (V := V) warn own imported new name w = (w, Ok v).
Proof. intros O. unfold optim_getattr. rewrite O. reflexivity. Qed.

Lemma graph_main {S} N graph log (s : S) :
  graph_to_N recording N graph (log, s) =
  match graph with
  | None => ((log, s), Ok N)
  | Some n => (((log ++ ["The ``graph`` argument for hilbert spaces has been deprecated in v3.0."%string]), s),
               if (N =? 1)%Z then Ok n else Err ValueError)
  end.
Proof. destruct graph; reflexivity. Qed.

Lemma ratio_main a n : (0 <= a <= n)%Z -> (0 < n)%Z ->
  exists q r, acceptance a n = Some q /\ acceptance_ratio a n = Ok r /\ (r == 100 * q)%Q /\ (0 <= r <= 100)%Q.
Proof.
  intros A N. unfold acceptance_ratio, acceptance. destruct (Z.eqb_spec n 0) as [->|_]; [lia|].
  eexists. eexists. split; [reflexivity|]. split; [reflexivity|]. split; [ring|].
  assert (E : (inject_Z a / inject_Z n * 100 == 100 * inject_Z a / inject_Z n)%Q) by (field; intros Z0; unfold Qeq in Z0; cbn in Z0; lia).
  rewrite E. assert (P : (0 < inject_Z n)%Q) by (unfold Qlt; cbn; lia). split.
  - apply Qle_shift_div_l; [exact P|]. change 0%Q with (inject_Z 0). change 100%Q with (inject_Z 100). rewrite <- !inject_Z_mult, <- Zle_Qle. lia.
  - apply Qle_shift_div_r; [exact P|]. change 100%Q with (inject_Z 100). rewrite <- !inject_Z_mult, <- Zle_Qle. lia.
Qed.
Lemma ratio_none a : acceptance a 0 = None /\ acceptance_ratio a 0 = Err TypeError.
Proof. split; reflexivity. Qed.

(** ** lattices *)
Lemma arr_get_ok {A} (l : list A) d i : (i < length l) -> arr_get l d (Z.of_nat i) = Ok (nth i l d).
Proof.
  intros H. unfold arr_get. destruct (Z.leb_spec 0 (Z.of_nat i)); [|lia]. destruct (Z.ltb_spec (Z.of_nat i) (Z.of_nat (length l))); [|lia].
  cbn [andb]. rewrite Nat2Z.id. reflexivity.
Qed.
Lemma arr_get_neg {A} (l : list A) d i : (i < length l) -> arr_get l d (Z.of_nat i - Z.of_nat (length l)) = Ok (nth i l d).
Proof.
  intros H. unfold arr_get. destruct (Z.leb_spec 0 (Z.of_nat i - Z.of_nat (length l))); [lia|]. cbn [andb].
  destruct (Z.leb_spec (- Z.of_nat (length l)) (Z.of_nat i - Z.of_nat (length l))); [|lia].
  destruct (Z.ltb_spec (Z.of_nat i - Z.of_nat (length l)) 0); [|lia]. cbn [andb].
  replace (Z.of_nat i - Z.of_nat (length l) + Z.of_nat (length l))%Z with (Z.of_nat i) by lia. rewrite Nat2Z.id. reflexivity.
Qed.
Lemma arr_get_out {A} (l : list A) d i : (i < - Z.of_nat (length l) \/ Z.of_nat (length l) <= i)%Z -> arr_get l d i = Err IndexError.
Proof.
  intros H. unfold arr_get. destruct (Z.leb_spec 0 i), (Z.ltb_spec i (Z.of_nat (length l))), (Z.leb_spec (- Z.of_nat (length l)) i), (Z.ltb_spec i 0); cbn; try reflexivity; lia.
Qed.
Lemma last_pos_nth (c : coord) (l : list coord) k : last_pos c l = Some k -> k < length l /\ nth k l [] = c.
Proof. intros E. pose proof (last_pos_spec c l) as P. rewrite E in P. exact P. Qed.

Section Lat.
  Variables (g : geometry) (L : glattice).
  Hypothesis V : valid g.
  Hypothesis E : gen_lattice g = Ok L.
  Notation c i := (nth i (gl_sites L) []).
  Lemma split_site i : i < length (gl_sites L) -> c i = removelast (c i) ++ [last (c i) 0%Z].
  Proof.
    intros H. apply app_removelast_last. intros N. pose proof (proj2 (proj2 (L_facts g L V E)) (c i) (nth_In _ _ H)) as B.
    rewrite N in B. unfold of_box, in_box, ext in B. inversion B as [B'|]. destruct (g_extent g); discriminate.
  Qed.
  Lemma lattice_main i : i < length (gl_sites L) ->
    exists v l y, site_to_vector L (Z.of_nat i) = Ok v /\ atom_label L (Z.of_nat i) = Ok l /\ site_to_coord L (Z.of_nat i) = Ok y /\
      c i = v ++ [l] /\ y = frac g (c i) /\ vector_to_coord L v l = Ok y /\
      (vector_to_site L v = Ok i <-> l = 0%Z) /\
      (forall j, vector_to_site L v = Ok j -> site_to_vector L (Z.of_nat j) = Ok v /\ atom_label L (Z.of_nat j) = Ok 0%Z) /\
      ((forall j, vector_to_site L v <> Ok j) -> vector_to_site L v = Err Exception_ /\ ~ In (v ++ [0%Z]) (gl_sites L)).
  Proof.
    intros H. exists (removelast (c i)), (last (c i) 0%Z), (frac g (c i)).
    unfold site_to_vector, atom_label, site_to_coord, vector_to_coord, vector_to_site.
    rewrite !arr_get_ok by (rewrite ?map_length; exact H). cbn [bind]. rewrite <- split_site by exact H.
    destruct (basis_exact g L V E i H) as [B1 B2].
    split; [reflexivity|]. split; [reflexivity|]. split.
    { f_equal. rewrite (proj1 (L_facts g L V E)). rewrite (nth_indep _ [] (frac g [])) by (rewrite map_length; exact H). apply map_nth. }
    split; [reflexivity|]. split; [reflexivity|]. split; [exact B2|]. split; [|split].
    - split.
      + unfold id_from_basis_coords. destruct (last_pos _ _) as [k|] eqn:P; [|discriminate]. intros [= ->].
        apply last_pos_nth in P. destruct P as [_ P]. pose proof (f_equal (fun t => last t 0%Z) P) as Q. cbv beta in Q. rewrite last_last in Q. exact Q.
      + intros Z0. rewrite <- Z0 at 1. rewrite <- split_site by exact H. exact B1.
    - intros j. unfold id_from_basis_coords. destruct (last_pos _ _) as [k|] eqn:P; [|discriminate]. intros [= ->].
      apply last_pos_nth in P. destruct P as [Hj P]. rewrite arr_get_ok by exact Hj. cbn [bind]. rewrite P, removelast_last, last_last. auto.
    - intros N. clear B1 B2. unfold id_from_basis_coords in *. pose proof (last_pos_spec (removelast (c i) ++ [0%Z]) (gl_sites L)) as P.
      destruct (last_pos _ _) as [k|]; [destruct (N k eq_refl)|]. split; [reflexivity|exact P].
  Qed.
  Lemma lattice_negative i : i < length (gl_sites L) -> let z := (Z.of_nat i - Z.of_nat (length (gl_sites L)))%Z in
    site_to_vector L z = site_to_vector L (Z.of_nat i) /\ atom_label L z = atom_label L (Z.of_nat i) /\ site_to_coord L z = site_to_coord L (Z.of_nat i).
  Proof.
    intros H. cbv zeta. unfold site_to_vector, atom_label, site_to_coord. rewrite arr_get_neg, !arr_get_ok by (rewrite ?map_length; exact H).
    pose proof (arr_get_neg (map (frac (gl_geom L)) (gl_sites L)) [] i) as A. rewrite map_length in A. rewrite (A H). auto.
  Qed.
  Lemma lattice_out z : (z < - Z.of_nat (length (gl_sites L)) \/ Z.of_nat (length (gl_sites L)) <= z)%Z ->
    site_to_vector L z = Err IndexError /\ atom_label L z = Err IndexError /\ site_to_coord L z = Err IndexError.
  Proof.
    intros H. unfold site_to_vector, atom_label, site_to_coord. rewrite !arr_get_out by (rewrite ?map_length; exact H). auto.
  Qed.
End Lat.

(** ** modules *)
Section Mod.
  Context {V : Type}.
  Implicit Type m : list (string * V).
  Lemma lookup_filter k x m : lookup x (filter (fun p => negb (fst p =? k)%string) m) = if (k =? x)%string then None else lookup x m.
  Proof.
    unfold lookup. induction m as [|[a b] m IH]; [destruct (k =? x)%string; reflexivity|]. cbn [filter fst].
    destruct (String.eqb_spec a k) as [->|N]; cbn [negb find fst].
    - rewrite IH. destruct (k =? x)%string; reflexivity.
    - destruct (String.eqb_spec a x) as [->|N']; [|exact IH]. destruct (String.eqb_spec k x); [congruence|reflexivity].
  Qed.
  Lemma lookup_del k x m : lookup x (del_attr k m) = if (k =? x)%string then None else lookup x m.
  Proof. apply lookup_filter. Qed.
  Lemma lookup_set k v x m : lookup x (set_attr k v m) = if (k =? x)%string then Some v else lookup x m.
  Proof.
    unfold set_attr. change (lookup x ((k, v) :: filter (fun p => negb (fst p =? k)%string) m)) with
      (match (if (k =? x)%string then Some (k, v) else find (fun p => (fst p =? x)%string) (filter (fun p => negb (fst p =? k)%string) m)) with
       | Some p => Some (snd p) | None => None end).
    destruct (k =? x)%string eqn:E; [reflexivity|]. pose proof (lookup_filter k x m) as F. rewrite E in F. exact F.
  Qed.
  Lemma stem_ok f s : stem f = Some s <-> f = (s ++ ".py")%string.
  Proof.
    revert s. induction f as [|c r IH]; intros s; cbn [stem].
    - split; [discriminate|]. destruct s; discriminate.
    - destruct (String.eqb_spec (String c r) ".py") as [E|N].
      + split; [intros [= <-]; exact E|]. intros H. destruct s as [|a s]; [reflexivity|]. exfalso. rewrite H in E.
        injection E as Ea E. destruct s as [|b s]; [discriminate|]. injection E as Eb E. destruct s as [|d s]; [discriminate|]. injection E as Ed E. destruct s; discriminate.
      + split.
        * destruct (stem r) as [t|] eqn:T; [|discriminate]. intros [= <-]. cbn. f_equal. apply IH. reflexivity.
        * destruct s as [|a s]; [intros H; contradiction|]. cbn. intros [= -> H]. rewrite (proj2 (IH s) H). reflexivity.
  Qed.

  Variable ignore : list string.
  Variable m0 : list (string * V).
  Definition ok (n : string) : bool :=
    negb (is_private n) && negb (existsb (fun i => (i =? n)%string) ignore) && match lookup n m0 with Some _ => true | None => false end.
  Definition hid (done : list string) (n : string) : bool := existsb (fun f => (f =? n ++ ".py")%string) done && ok n.
  Definition expected (done : list string) (x : string) : option V :=
    if hid done x then None
    else match x with
         | String c n => if Ascii.eqb c "_" && hid done n then lookup n m0 else lookup x m0
         | EmptyString => lookup x m0
         end.
  Lemma hid_app done f n : hid (done ++ [f]) n = hid done n || ((f =? n ++ ".py")%string && ok n).
  Proof. unfold hid. rewrite existsb_app. cbn [existsb]. rewrite orb_false_r. destruct (existsb _ done), (f =? _)%string, (ok n); reflexivity. Qed.
  Lemma expected_same done f : (forall n, f = (n ++ ".py")%string -> ok n = true -> hid done n = true) ->
    forall x, expected (done ++ [f]) x = expected done x.
  Proof.
    intros H. assert (A : forall n, hid (done ++ [f]) n = hid done n).
    { intros n. rewrite hid_app. destruct (String.eqb_spec f (n ++ ".py")) as [E|N]; [|apply orb_false_r].
      cbn [andb]. destruct (ok n) eqn:O; [|apply orb_false_r]. rewrite (H n E O). reflexivity. }
    intros x. unfold expected. rewrite A. destruct x as [|c n]; [reflexivity|]. rewrite A. reflexivity.
  Qed.
  Lemma app_py_inj a b : (a ++ ".py")%string = (b ++ ".py")%string -> a = b.
  Proof. intros H. assert (X : stem (b ++ ".py") = Some a) by (apply stem_ok; auto). rewrite (proj2 (stem_ok _ b) eq_refl) in X. congruence. Qed.
  Lemma hide_step done m f : (forall x, lookup x m = expected done x) -> forall x, lookup x (hide_file ignore m f) = expected (done ++ [f]) x.
  Proof.
    intros I x. unfold hide_file. destruct (stem f) as [name|] eqn:S.
    2:{ rewrite I. symmetry. apply expected_same. intros n -> _. rewrite (proj2 (stem_ok _ n) eq_refl) in S. discriminate. }
    apply stem_ok in S.
    assert (Q : hid done name = true \/ ok name = false \/ (hid done name = false /\ ok name = true)) by (destruct (hid done name), (ok name); auto).
    destruct (String.eqb_spec f "__init__.py") as [F|F].
    { rewrite I. symmetry. apply expected_same. intros n En On. rewrite F in En. change "__init__.py"%string with ("__init__" ++ ".py")%string in En.
      apply app_py_inj in En. subst n. discriminate. }
    assert (Same : (hid done name = true \/ ok name = false) -> expected (done ++ [f]) x = lookup x m).
    { intros H. rewrite I. apply expected_same. intros n En On. rewrite S in En. apply app_py_inj in En. subst n. destruct H; congruence. }
    destruct (lookup name m) as [v|] eqn:Lm.
    - destruct (negb (is_private name) && negb (existsb (fun n => (n =? name)%string) ignore)) eqn:C.
      + rewrite I in Lm. unfold expected in Lm. destruct (hid done name) eqn:Hn; [discriminate|].
        assert (L0 : lookup name m0 = Some v).
        { destruct name as [|c n]; [exact Lm|]. apply andb_prop in C. destruct C as [C _]. cbn [is_private] in C.
          destruct (Ascii.eqb c "_"); [discriminate|exact Lm]. }
        assert (On : ok name = true) by (unfold ok; rewrite C, L0; reflexivity).
        assert (Np : is_private name = false) by (apply andb_prop in C; destruct C as [C _]; apply negb_true_iff; exact C).
        rewrite lookup_del, lookup_set, I.
        destruct (String.eqb_spec name x) as [<-|Nx].
        { unfold expected. rewrite hid_app, S, String.eqb_refl, On. cbn [andb]. rewrite orb_true_r. reflexivity. }
        assert (Hx : forall n, n <> name -> hid (done ++ [f]) n = hid done n).
        { intros n Nn. rewrite hid_app. destruct (String.eqb_spec f (n ++ ".py")) as [En|_]; [|apply orb_false_r].
          rewrite S in En. apply app_py_inj in En. congruence. }
        unfold expected. rewrite (Hx x) by congruence.
        change ("_" ++ name)%string with (String "_" name).
        destruct (String.eqb_spec (String "_" name) x) as [<-|Ny].
        * assert (P : hid done (String "_" name) = false) by (unfold hid, ok; cbn [is_private Ascii.eqb]; cbn; apply andb_false_r).
          rewrite P. rewrite Ascii.eqb_refl, hid_app, S, String.eqb_refl, On. cbn [andb]. rewrite orb_true_r. symmetry. exact L0.
        * destruct (hid done x); [reflexivity|]. destruct x as [|c n]; [reflexivity|].
          destruct (Ascii.eqb_spec c "_") as [->|Nc]; [|reflexivity]. cbn [andb]. rewrite (Hx n); [reflexivity|]. congruence.
      + symmetry. apply Same. right. unfold ok. rewrite C. reflexivity.
    - symmetry. apply Same. rewrite I in Lm. unfold expected in Lm. destruct (hid done name) eqn:Hn; [left; reflexivity|]. right.
      unfold ok. destruct (is_private name) eqn:P; [reflexivity|].
      assert (L0 : lookup name m0 = None).
      { destruct name as [|c n]; [exact Lm|]. cbn [is_private] in P. rewrite P in Lm. exact Lm. }
      rewrite L0. apply andb_false_r.
  Qed.
  Lemma hide_all files : forall x, lookup x (fold_left (hide_file ignore) files m0) = expected files x.
  Proof.
    induction files as [|f files IH] using rev_ind.
    - intros x. unfold expected, hid. cbn. destruct x as [|c n]; [reflexivity|]. rewrite andb_false_r. reflexivity.
    - intros x. rewrite fold_left_app. cbn [fold_left]. apply hide_step, IH.
  Qed.
  Lemma hid_iff files n : hid files n = true <-> hidden files ignore m0 n.
  Proof.
    unfold hid, hidden, ok. rewrite !andb_true_iff, !negb_true_iff, existsb_exists. split.
    - intros ((f & I & E) & (P & N) & L). apply String.eqb_eq in E. subst f. split; [exact I|]. split; [exact P|]. split.
      + intros J. enough (existsb (fun i => (i =? n)%string) ignore = true) by congruence. apply existsb_exists. exists n. split; [exact J|apply String.eqb_refl].
      + destruct (lookup n m0); [discriminate|discriminate].
    - intros (I & P & N & L). split; [exists (n ++ ".py")%string; split; [exact I|apply String.eqb_refl]|]. split; [split; [exact P|]|].
      + destruct (existsb _ ignore) eqn:X; [|reflexivity]. apply existsb_exists in X. destruct X as (i & Ii & Ei). apply String.eqb_eq in Ei. subst i. contradiction.
      + destruct (lookup n m0); [reflexivity|congruence].
  Qed.
  Lemma hide_main files remove_self x : let m' := hide_submodules files remove_self ignore m0 in
    (remove_self = true /\ x = "_hide_submodules"%string -> lookup x m' = None) /\
    (~ (remove_self = true /\ x = "_hide_submodules"%string) ->
      (hidden files ignore m0 x -> lookup x m' = None) /\
      (forall n, x = ("_" ++ n)%string -> hidden files ignore m0 n -> lookup x m' = lookup n m0) /\
      (~ hidden files ignore m0 x -> (forall n, x = ("_" ++ n)%string -> ~ hidden files ignore m0 n) -> lookup x m' = lookup x m0)).
  Proof.
    cbv zeta. unfold hide_submodules. split.
    { intros [-> ->]. rewrite lookup_del, String.eqb_refl. reflexivity. }
    intros N. assert (E : lookup x (if remove_self then del_attr "_hide_submodules" (fold_left (hide_file ignore) files m0) else fold_left (hide_file ignore) files m0)
      = expected files x).
    { destruct remove_self; [|apply hide_all]. rewrite lookup_del. destruct (String.eqb_spec "_hide_submodules" x); [|apply hide_all].
      destruct N. split; congruence. }
    cbv zeta. rewrite E. unfold expected. repeat split.
    - intros H. apply hid_iff in H. rewrite H. reflexivity.
    - intros n -> H. pose proof H as H'. apply hid_iff in H. cbn [append].
      assert (P : hid files (String "_" n) = false) by (unfold hid, ok; cbn; apply andb_false_r).
      rewrite P, Ascii.eqb_refl, H. reflexivity.
    - intros H G. destruct (hid files x) eqn:X; [apply hid_iff in X; contradiction|]. destruct x as [|c n]; [reflexivity|].
      destruct (Ascii.eqb_spec c "_") as [->|Nc]; [|reflexivity]. cbn [andb]. destruct (hid files n) eqn:Y; [|reflexivity].
      apply hid_iff in Y. destruct (G n eq_refl Y).
  Qed.
End Mod.
Lemma export_main names : forall l, fold_left (fun a n => export n a) names (Some l) = Some (l ++ names).
Proof. induction names as [|n names IH]; intros l; cbn; [rewrite app_nil_r; reflexivity|]. rewrite IH, <- app_assoc. reflexivity. Qed.
Lemma export_all names : dir_of (fold_left (fun a n => export n a) names None) = match names with [] => Err AttributeError | _ => Ok names end.
Proof. destruct names as [|n names]; [reflexivity|]. cbn [fold_left export]. rewrite export_main. reflexivity. Qed.
