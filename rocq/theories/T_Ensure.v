(** C103: folders are made. *)
From Coq Require Import List Arith Bool String Lia.
From Verif Require Import M_Ensure.
Import ListNotations.
Local Open Scope list_scope.

(** * Specification. *)
(** Everything on disk is in a folder. *)
Definition tree (d : disk) : Prop := forall p, p <> [] -> d p <> None -> at_ d (removelast p) = Some Folder.
(** Others may add whatever they like, but remove nothing. *)
Definition keeps (f : disk -> disk) : Prop := (forall d p e, d p = Some e -> f d p = Some e) /\ forall d, tree d -> tree (f d).
(** Others add folders only. *)
Definition adds_folders (f : disk -> disk) : Prop := forall d p e, f d p = Some e -> d p = Some e \/ e = Folder.

(** * Proofs. *)
Lemma path_eq a b : path_eqb a b = true <-> a = b.
Proof. unfold path_eqb. destruct (list_eq_dec string_dec a b); split; congruence. Qed.
Lemma at_d d p : p <> [] -> at_ d p = d p.
Proof. now destruct p. Qed.
Lemma snoc_ne (a : path) c : a ++ [c] <> [].
Proof. now destruct a. Qed.
Lemma tree_up d : tree d -> forall b a, b <> [] -> at_ d (a ++ b) <> None -> at_ d a = Some Folder.
Proof.
  intros T. induction b as [|c b IH] using rev_ind; intros a B H; [contradiction|].
  rewrite app_assoc in H. rewrite at_d in H by apply snoc_ne. specialize (T _ (snoc_ne _ _) H). rewrite removelast_last in T.
  destruct b as [|x b]; [now rewrite app_nil_r in T|]. apply IH; [discriminate|congruence].
Qed.
Definition more (d d' : disk) : Prop := forall p e, d p = Some e -> d' p = Some e.
Lemma more_at d d' p e : more d d' -> at_ d p = Some e -> at_ d' p = Some e.
Proof. intros M. destruct p; [auto|apply M]. Qed.
Lemma more_trans a b c : more a b -> more b c -> more a c.
Proof. intros A B p e H. auto. Qed.

Lemma tick_ok o d d' o' : Forall keeps o -> tree d -> tick o d = (d', o') -> tree d' /\ more d d' /\ Forall keeps o'.
Proof.
  intros K T E. destruct o as [|f r]; cbn in E; injection E as <- <-; [split; [exact T|split; [intros p e H; exact H|constructor]]|].
  inversion K as [|? ? [A B] C]; subst. split; [auto|]. split; [intros p e; apply A|exact C].
Qed.
Lemma put_tree d p : tree d -> p <> [] -> at_ d (removelast p) = Some Folder -> d p = None -> tree (put d p) /\ more d (put d p).
Proof.
  intros T Ne P N. assert (M : more d (put d p)). { intros q e H. unfold put. destruct (path_eqb q p) eqn:X; [|exact H]. apply path_eq in X. congruence. }
  split; [|exact M]. intros q Q H. apply (more_at d _ _ _ M). unfold put in H. destruct (path_eqb q p) eqn:X; [apply path_eq in X; now subst|now apply T].
Qed.
Lemma create_ok allowed d p b d' : tree d -> p <> [] -> create allowed d p = (b, d') -> tree d' /\ more d d' /\ (b = true -> at_ d' p <> None).
Proof.
  intros T Ne. unfold create, mkdir. rewrite (at_d d p Ne). destruct (d p) as [e|] eqn:E.
  - intros Q. injection Q as <- <-. split; [exact T|]. split; [intros q x H; exact H|]. intros _. rewrite at_d, E by exact Ne. discriminate.
  - destruct (is_folder d (removelast p) && allowed p) eqn:A; intros Q; injection Q as <- <-.
    + apply andb_true_iff in A as [A _]. unfold is_folder in A. destruct (at_ d (removelast p)) as [[]|] eqn:P; try discriminate.
      destruct (put_tree d p T Ne P E) as [X Y]. split; [exact X|]. split; [exact Y|]. intros _. rewrite at_d by exact Ne. unfold put. rewrite (proj2 (path_eq p p) eq_refl). discriminate.
    + split; [exact T|]. split; [intros q x H; exact H|discriminate].
Qed.
Lemma walk_ok allowed : forall todo done o d b d', Forall keeps o -> tree d -> at_ d done <> None -> walk allowed o d done todo = (b, d') ->
  tree d' /\ more d d' /\ (b = true -> at_ d' (done ++ todo) <> None).
Proof.
  induction todo as [|c r IH]; intros done o d b d' K T A E; cbn [walk] in E.
  - injection E as <- <-. rewrite app_nil_r. split; [exact T|]. split; [intros p e H; exact H|auto].
  - destruct (tick o d) as [d1 o1] eqn:E1. destruct (tick_ok o d d1 o1 K T E1) as (T1&M1&K1).
    assert (Ap : done ++ c :: r = (done ++ [c]) ++ r) by now rewrite <- app_assoc. rewrite Ap. destruct (exists_dir d1 (done ++ [c])) eqn:X.
    + assert (N1 : at_ d1 (done ++ [c]) <> None) by (unfold exists_dir in X; now destruct (at_ d1 (done ++ [c]))).
      destruct (IH (done ++ [c]) o1 d1 b d' K1 T1 N1 E) as (T2&M2&N2). split; [exact T2|]. split; [eapply more_trans; eauto|exact N2].
    + destruct (tick o1 d1) as [d2 o2] eqn:E2. destruct (tick_ok o1 d1 d2 o2 K1 T1 E2) as (T2&M2&K2).
      destruct (create allowed d2 (done ++ [c])) as [ok d3] eqn:C. destruct (create_ok allowed d2 _ ok d3 T2 (snoc_ne _ _) C) as (T3&M3&N3). destruct ok.
      * destruct (IH (done ++ [c]) o2 d3 b d' K2 T3 (N3 eq_refl) E) as (T4&M4&N4). split; [exact T4|]. split; [repeat (eapply more_trans; [eassumption|]); intros p e H; exact H|exact N4].
      * injection E as <- <-. split; [exact T3|]. split; [repeat (eapply more_trans; [eassumption|]); intros p e H; exact H|discriminate].
Qed.
Lemma ensure_ok allowed o d p b d' : Forall keeps o -> tree d -> ensure allowed o d p = (b, d') -> tree d' /\ more d d' /\ (b = true -> at_ d' p <> None).
Proof.
  intros K T E. unfold ensure in E. destruct (tick o d) as [d1 o1] eqn:E1. destruct (tick_ok o d d1 o1 K T E1) as (T1&M1&K1). destruct (exists_dir d1 p) eqn:X.
  - injection E as <- <-. split; [exact T1|]. split; [exact M1|]. intros _. unfold exists_dir in X. now destruct (at_ d1 p).
  - destruct (walk_ok allowed p [] o1 d1 b d' K1 T1) as (T2&M2&N2); [discriminate|exact E|]. split; [exact T2|]. split; [eapply more_trans; eauto|exact N2].
Qed.

(** * Theorems. *)
(** After success all folders above the path are there, and something has the name of the path, whatever others do meanwhile; it is a folder unless it was, or others made it, something else. *)
Theorem C103_made_partial : forall allowed others d p d', Forall keeps others -> tree d -> ensure allowed others d p = (true, d') ->
  (forall a b, p = a ++ b -> b <> [] -> at_ d' a = Some Folder) /\ (at_ d' p = Some Folder \/ at_ d' p = Some File \/ at_ d' p = Some Special).
Proof.
  intros allowed o d p d' K T E. destruct (ensure_ok allowed o d p true d' K T E) as (T'&M&N). specialize (N eq_refl). split.
  - intros a b -> B. exact (tree_up d' T' b a B N).
  - destruct (at_ d' p) as [[]|]; auto; contradiction.
Qed.
Print Assumptions C103_made_partial.

(** The folder of a file is there to write it, unless something else has its name. *)
Theorem C103_for_file_partial : forall allowed others d f d', Forall keeps others -> tree d -> ensure_for_file allowed others d f = (true, d') ->
  at_ d' (removelast f) <> Some File -> at_ d' (removelast f) <> Some Special -> at_ d' (removelast f) = Some Folder.
Proof.
  intros allowed o d f d' K T E A B. unfold ensure_for_file in E. destruct (removelast f) as [|c r] eqn:R; [discriminate|].
  destruct (C103_made_partial _ _ _ _ _ K T E) as (_&[H|[H|H]]); [exact H|contradiction|contradiction].
Qed.
Print Assumptions C103_for_file_partial.

(** Nothing on disk is lost or changed, with or without success, and it stays a tree. *)
Theorem C103_kept : forall allowed others d p b d', Forall keeps others -> tree d -> ensure allowed others d p = (b, d') -> tree d' /\ forall q e, d q = Some e -> d' q = Some e.
Proof. intros allowed o d p b d' K T E. destruct (ensure_ok allowed o d p b d' K T E) as (T'&M&_). split; [exact T'|exact M]. Qed.
Print Assumptions C103_kept.

(** Nothing is made but folders on the way. *)
Lemma walk_only allowed : forall todo done d b d', walk allowed [] d done todo = (b, d') -> forall q, d' q <> d q -> d' q = Some Folder /\ exists a c, todo = a ++ c /\ q = done ++ a.
Proof.
  induction todo as [|c r IH]; intros done d b d' E q Q; cbn [walk tick] in E; [injection E as <- <-; contradiction|].
  assert (Next : forall x, walk allowed [] x (done ++ [c]) r = (b, d') -> d' q <> x q -> d' q = Some Folder /\ exists a y, c :: r = a ++ y /\ q = done ++ a).
  { intros x Ex Qx. destruct (IH _ x b d' Ex q Qx) as (F&a&y&->&->). split; [exact F|]. exists (c :: a), y. split; [reflexivity|]. now rewrite <- app_assoc. }
  destruct (exists_dir d (done ++ [c])); [now apply (Next d)|].
  destruct (create allowed d (done ++ [c])) as [ok d3] eqn:C.
  assert (C3 : d3 q = d q \/ (d3 q = Some Folder /\ q = done ++ [c])).
  { unfold create, mkdir in C. destruct (at_ d (done ++ [c])); [injection C as <- <-; now left|]. destruct (is_folder d _ && allowed _); injection C as <- <-; [|now left].
    unfold put. destruct (path_eqb q (done ++ [c])) eqn:X; [|now left]. apply path_eq in X. now right. }
  destruct ok.
  - destruct C3 as [C3|(C3&->)]; [apply (Next d3 E); congruence|]. split; [|exists [c], r; now split].
    destruct (d' (done ++ [c])) as [e|] eqn:F.
    + destruct e; [reflexivity| |]; (destruct (IH _ d3 b d' E (done ++ [c])) as (G&_); congruence).
    + exfalso. destruct (IH _ d3 b d' E (done ++ [c])) as (G&_); congruence.
  - injection E as <- <-. destruct C3 as [C3|(C3&->)]; [congruence|]. split; [exact C3|]. exists [c], r. now split.
Qed.
Theorem C103_only : forall allowed d p b d', ensure allowed [] d p = (b, d') -> forall q, d' q <> d q -> d' q = Some Folder /\ exists c, p = q ++ c.
Proof.
  intros allowed d p b d' E q Q. unfold ensure in E. cbn [tick] in E. destruct (exists_dir d p); [injection E as <- <-; contradiction|].
  destruct (walk_only allowed p [] d b d' E q Q) as (F&a&c&->&->). split; [exact F|]. now exists c.
Qed.
Print Assumptions C103_only.

(** It does not fail without need: if all is allowed, nothing on the way is anything but a folder, and others add folders, then it succeeds and the folder is there. *)
Definition clear (d : disk) (p : path) : Prop := forall a b, p = a ++ b -> a <> [] -> d a = None \/ d a = Some Folder.
Lemma tick_clear o d d' o' p : Forall adds_folders o -> clear d p -> tick o d = (d', o') -> clear d' p /\ Forall adds_folders o'.
Proof.
  intros K C E. destruct o as [|f r]; cbn in E; injection E as <- <-; [split; [exact C|constructor]|]. inversion K as [|? ? A B]; subst. split; [|exact B].
  intros a b Q Ne. destruct (f d a) as [e|] eqn:F; [|now left]. right. destruct (A d a e F) as [H|H]; [|now subst]. destruct (C a b Q Ne) as [X|X]; congruence.
Qed.
Lemma walk_succeeds p : forall todo done o d, p = done ++ todo -> Forall keeps o -> Forall adds_folders o -> tree d -> clear d p -> at_ d done = Some Folder ->
  exists d', walk (fun _ => true) o d done todo = (true, d') /\ at_ d' p = Some Folder.
Proof.
  induction todo as [|c r IH]; intros done o d P K Ad T C A; cbn [walk].
  - exists d. rewrite app_nil_r in P. subst. auto.
  - destruct (tick o d) as [d1 o1] eqn:E1. destruct (tick_ok o d d1 o1 K T E1) as (T1&M1&K1). destruct (tick_clear o d d1 o1 p Ad C E1) as (C1&A1).
    assert (P' : p = (done ++ [c]) ++ r) by (rewrite <- app_assoc; exact P). destruct (exists_dir d1 (done ++ [c])) eqn:X.
    + apply IH; auto. rewrite at_d by apply snoc_ne. unfold exists_dir in X. rewrite at_d in X by apply snoc_ne. destruct (C1 _ _ P' (snoc_ne _ _)) as [Q|Q]; rewrite Q in *; [discriminate|reflexivity].
    + destruct (tick o1 d1) as [d2 o2] eqn:E2. destruct (tick_ok o1 d1 d2 o2 K1 T1 E2) as (T2&M2&K2). destruct (tick_clear o1 d1 d2 o2 p A1 C1 E2) as (C2&A2).
      assert (F2 : at_ d2 done = Some Folder) by (apply (more_at d1); [exact M2|]; now apply (more_at d)).
      unfold create, mkdir. rewrite at_d by apply snoc_ne. destruct (C2 _ _ P' (snoc_ne _ _)) as [Q|Q]; rewrite Q.
      * rewrite removelast_last. unfold is_folder. rewrite F2. cbn [andb].
        destruct (put_tree d2 (done ++ [c]) T2 (snoc_ne _ _)) as (T3&M3); [now rewrite removelast_last|exact Q|].
        apply IH; auto; [|rewrite at_d by apply snoc_ne; unfold put; now rewrite (proj2 (path_eq _ _) eq_refl)].
        intros a b Pa Ne. unfold put. destruct (path_eqb a (done ++ [c])); [now right|eauto].
      * apply IH; auto. rewrite at_d by apply snoc_ne. exact Q.
Qed.
Theorem C103_succeeds : forall others d p, Forall keeps others -> Forall adds_folders others -> tree d -> clear d p -> exists d', ensure (fun _ => true) others d p = (true, d') /\ at_ d' p = Some Folder.
Proof.
  intros o d p K Ad T C. unfold ensure. destruct (tick o d) as [d1 o1] eqn:E1. destruct (tick_ok o d d1 o1 K T E1) as (T1&M1&K1). destruct (tick_clear o d d1 o1 p Ad C E1) as (C1&A1).
  destruct (exists_dir d1 p) eqn:X; [|now apply (walk_succeeds p p [])]. exists d1. split; [reflexivity|]. destruct p as [|c r]; [reflexivity|].
  rewrite at_d by discriminate. unfold exists_dir in X. rewrite at_d in X by discriminate. destruct (C1 (c :: r) [] (eq_sym (app_nil_r _))) as [Q|Q]; [discriminate| |]; rewrite Q in *; [discriminate|reflexivity].
Qed.
Print Assumptions C103_succeeds.

(** But it also succeeds where a file, a socket or a block device has the name, and no folder is there. *)
Definition with_ (e : entry) : disk := fun q => if path_eqb q ["tmp"%string] then Some Folder else if path_eqb q ["tmp"%string; "out"%string] then Some e else None.
Lemma with_tree e : tree (with_ e).
Proof.
  intros p Ne H. unfold with_ in H. destruct (path_eqb p ["tmp"%string]) eqn:A; [apply path_eq in A; now subst|].
  destruct (path_eqb p ["tmp"%string; "out"%string]) eqn:B; [apply path_eq in B; subst; reflexivity|contradiction].
Qed.
Theorem C103_file_refuted : exists d p d', tree d /\ ensure (fun _ => true) [] d p = (true, d') /\ at_ d' p = Some File.
Proof. exists (with_ File), ["tmp"%string; "out"%string], (with_ File). split; [apply with_tree|]. split; reflexivity. Qed.
Theorem C103_special_refuted : exists d p, tree d /\ exists_dir d p = true /\ at_ d p = Some Special.
Proof. exists (with_ Special), ["tmp"%string; "out"%string]. split; [apply with_tree|]. split; reflexivity. Qed.
Print Assumptions C103_file_refuted.
Print Assumptions C103_special_refuted.

(** And for a file in the root it always fails, although the root is there. *)
Theorem C103_root_refuted : forall allowed d name, ensure_for_file allowed [] d [name] = (false, d) /\ at_ d (removelast [name]) = Some Folder /\ ensure allowed [] d (removelast [name]) = (true, d).
Proof. intros. split; [reflexivity|]. split; reflexivity. Qed.
Print Assumptions C103_root_refuted.

(** For files in other folders it succeeds when [C103_succeeds] says so. *)
Theorem C103_file_succeeds : forall others d folder name, folder <> [] -> Forall keeps others -> Forall adds_folders others -> tree d -> clear d folder ->
  exists d', ensure_for_file (fun _ => true) others d (folder ++ [name]) = (true, d') /\ at_ d' folder = Some Folder.
Proof.
  intros o d p n Ne K A T C. unfold ensure_for_file. rewrite removelast_last. destruct p as [|c r]; [contradiction|]. now apply C103_succeeds.
Qed.
Print Assumptions C103_file_succeeds.

(** Another process makes the same folder between the look and the attempt to make it. *)
Definition other (d : disk) : disk := if is_folder d ["tmp"%string] then (match d ["tmp"%string; "a"%string] with None => put d ["tmp"%string; "a"%string] | Some _ => d end) else d.
Example C103_case : keeps other /\ adds_folders other /\
  (let '(b, d') := ensure (fun _ => true) [fun d => d; fun d => d; fun d => d; other] (with_ File) ["tmp"%string; "a"%string; "b"%string] in
   b = true /\ at_ d' ["tmp"%string; "a"%string] = Some Folder /\ at_ d' ["tmp"%string; "a"%string; "b"%string] = Some Folder).
Proof.
  unfold other, is_folder, at_. split; [split|split].
  - intros d p e H. destruct (d ["tmp"%string]) as [[]|] eqn:T; auto. destruct (d ["tmp"%string; "a"%string]) eqn:A; auto.
    unfold put. destruct (path_eqb p ["tmp"%string; "a"%string]) eqn:X; [apply path_eq in X; congruence|exact H].
  - intros d T0. destruct (d ["tmp"%string]) as [[]|] eqn:T; auto. destruct (d ["tmp"%string; "a"%string]) eqn:A; auto. apply (put_tree d _ T0); [discriminate|exact T|exact A].
  - intros d p e. destruct (d ["tmp"%string]) as [[]|] eqn:T; auto. destruct (d ["tmp"%string; "a"%string]) eqn:A; auto.
    unfold put. destruct (path_eqb p ["tmp"%string; "a"%string]); auto. intros H. injection H as <-. now right.
  - vm_compute. repeat split.
Qed.
