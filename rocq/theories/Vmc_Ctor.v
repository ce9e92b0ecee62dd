From Coq Require Import String List Arith Lia Bool.
From Verif Require Import Base Vmc_Model.
Import ListNotations.
Open Scope nat_scope.
Lemma set_other h r b q : q <> r -> set_restart h r b q = h q.
Proof. intros H. unfold set_restart. apply Nat.eqb_neq in H. rewrite H. reflexivity. Qed.
Lemma set_same h r b : set_restart h r b r = b.
Proof. unfold set_restart. rewrite Nat.eqb_refl. reflexivity. Qed.
Lemma vmc_ctor hs hh prec sr restart h :
  (hs <> hh -> vmc_init hs hh prec sr restart h = (Err TypeError, h)) /\
  (hs = hh -> prec <> None -> sr <> None -> vmc_init hs hh prec sr restart h = (Err ValueError, h)) /\
  (hs = hh -> prec = None -> sr = None -> restart <> None -> vmc_init hs hh prec sr restart h = (Err ValueError, h)) /\
  (hs = hh -> prec = None -> sr = None -> restart = None -> exists d, vmc_init hs hh prec sr restart h = (Ok d, h) /\ d_prec d = None /\ d_count d = 0%nat) /\
  (forall r, hs = hh -> (prec = Some r /\ sr = None) \/ (prec = None /\ sr = Some r) ->
     exists d h', vmc_init hs hh prec sr restart h = (Ok d, h') /\ d_prec d = Some r /\ d_count d = 0%nat /\
       (forall q, q <> r -> h' q = h q) /\ h' r = match restart with Some b => b | None => h r end).
Proof.
  unfold vmc_init. repeat split.
  - intros H. apply Nat.eqb_neq in H. rewrite H. reflexivity.
  - intros -> H1 H2. rewrite Nat.eqb_refl. destruct prec, sr; try contradiction. reflexivity.
  - intros -> -> -> H. rewrite Nat.eqb_refl. destruct restart; [reflexivity|contradiction].
  - intros -> -> -> ->. rewrite Nat.eqb_refl. eexists. split; reflexivity || split; reflexivity.
  - intros r -> [[-> ->]|[-> ->]]; rewrite Nat.eqb_refl; destruct restart as [b|]; eexists; eexists; (split; [reflexivity|]); repeat split; intros; try reflexivity;
      try (apply set_other; assumption); apply set_same.
Qed.
Lemma vmc_refused hs hh prec sr restart h e h' : vmc_init hs hh prec sr restart h = (Err e, h') -> h' = h.
Proof.
  unfold vmc_init, options. destruct (negb (hs =? hh)); [intros H; injection H as _ <-; reflexivity|].
  destruct sr, prec, restart; intros H; try discriminate; injection H as _ <-; reflexivity.
Qed.
Lemma steady_ctor hs hl prec sr restart h :
  steady_init false hs hl prec sr restart h = (Err TypeError, h) /\
  match vmc_init hs hs prec sr restart h, steady_init true hs hl prec sr restart h with
  | (Ok d, h1), (Ok d', h2) => d_prec d = d_prec d' /\ d_count d' = 0%nat /\ forall q, h1 q = h2 q
  | (Err e, h1), (Err e', h2) => e = e' /\ forall q, h1 q = h2 q
  | _, _ => False
  end.
Proof.
  split; [reflexivity|]. unfold vmc_init, steady_init, options. rewrite Nat.eqb_refl. cbn [negb]. destruct sr, prec, restart; cbn; repeat split; reflexivity.
Qed.
Lemma steady_space : exists hs hl h d, hs <> hl /\ steady_init true hs hl None None None h = (Ok d, h).
Proof. exists 0, 1, (fun _ => false). eexists. split; [discriminate|reflexivity]. Qed.
Lemma shared : exists h d1 h1 d2 h2 r, vmc_init 0 0 (Some r) None (Some true) h = (Ok d1, h1) /\
  vmc_init 0 0 (Some r) None (Some false) h1 = (Ok d2, h2) /\ d_prec d1 = Some r /\ h1 r = true /\ h2 r = false.
Proof. exists (fun _ => false). do 4 eexists. exists 0. repeat split. Qed.
