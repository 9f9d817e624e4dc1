(** Proofs about the whole project for Visual Studio. *)
From Coq Require Import String Ascii List Arith Bool NArith Lia Permutation Sorted.
From Verif Require Import M_Path M_Names M_Sort M_Dir M_Drv M_Xcode M_Vcx S_Vcx S_Dir P_Dir2 P_Vcx P_Vcx2.
Import ListNotations.
Local Open Scope list_scope.

Section P.
Context (p : plat) (rel : str -> str) (hash : str -> N).
Definition item (bases : list str) (x : pair) : str * option str :=
  (shown x, match folder_path (base_paths p bases) (absolute x) with [] => None | f => Some f end).
Lemma project_is bases adds : exists u st, project_files p rel adds = Some u /\ add_all hash (base_paths p bases) u [] ([], []) = Some st /\ sound hash st /\
  project p rel hash bases adds = Some (map (item bases) u, combine (fst st) (snd st)).
Proof.
  destruct (files_ok p rel adds) as (u&E&_). destruct (add_all_sound hash (base_paths p bases) u [] ([], [])) as (st&E2&SO); [split; [easy|constructor]|].
  exists u, st. split; [exact E|]. split; [exact E2|]. split; [exact SO|]. unfold project. rewrite E. unfold filters. rewrite E2. now destruct st as (fs&hs).
Qed.
Lemma names_of bases u : map fst (map (item bases) u) = map shown u.
Proof. rewrite map_map. now apply map_ext. Qed.
Lemma bases_are bases : base_paths p bases = bases_of p bases.
Proof. reflexivity. Qed.
Lemma sorted_map {A B} (f : A -> B) (R : B -> B -> Prop) l : StronglySorted (fun a b => R (f a) (f b)) l -> StronglySorted R (map f l).
Proof. induction 1 as [|x l S IH H]; [constructor|]. cbn. constructor; [exact IH|]. apply Forall_map. exact H. Qed.

Lemma in_folder bases u d : In (Some d) (map snd (map (item bases) u)) <->
  exists x, In x u /\ folder_path (base_paths p bases) (absolute x) <> [] /\ d = folder_path (base_paths p bases) (absolute x).
Proof.
  rewrite map_map. split.
  - intros I. apply in_map_iff in I. destruct I as (x&E&I). exists x. split; [exact I|]. unfold item in E. cbn [snd] in E. destruct (folder_path _ (absolute x)); [discriminate|]. injection E as <-. now split.
  - intros (x&I&N&->). apply in_map_iff. exists x. split; [|exact I]. unfold item. cbn [snd]. destruct (folder_path _ (absolute x)); [congruence|reflexivity].
Qed.

Lemma declared bases adds items decl : project p rel hash bases adds = Some (items, decl) ->
  (forall a b d e, In (Some d) (map snd items) -> In (Some e) (map snd items) -> within a d -> within b e -> hash a = hash b -> a = b) ->
  NoDup (map fst decl) /\ forall a, In a (map fst decl) <-> exists d, In (Some d) (map snd items) /\ within a d.
Proof.
  intros E INJ. destruct (project_is bases adds) as (u&st&E1&E2&SO&E3). rewrite E in E3. injection E3 as -> ->.
  set (D := fun a => exists d, In (Some d) (map snd (map (item bases) u)) /\ within a d).
  assert (IN : inj_on hash D) by (intros a b (d&I1&W1) (e&I2&W2) H; exact (INJ a b d e I1 I2 W1 W2 H)).
  destruct (add_all_ok hash D (base_paths p bases) IN u [] ([], [])) as (st'&Q1&(Q2&Q3)&Q4).
  - split; [easy|constructor].
  - intros ? ? [].
  - intros ? [].
  - intros x a I N W. exists (folder_path (base_paths p bases) (absolute x)). split; [|exact W]. apply in_folder. now exists x.
  - now left.
  - rewrite E2 in Q1. injection Q1 as <-. rewrite Q2. destruct (combine_parts (fst st) hash) as (C1&_). rewrite C1. split; [exact Q3|]. intros a. rewrite Q4. cbn [fst]. split.
    + intros [[]|(x&I&N&W)]. exists (folder_path (base_paths p bases) (absolute x)). split; [|exact W]. apply in_folder. now exists x.
    + intros (d&I&W). right. apply in_folder in I. destruct I as (x&I&N&->). exists x. now repeat split.
Qed.
Lemma identified bases adds items decl : project p rel hash bases adds = Some (items, decl) -> NoDup (map snd decl) /\ forall a h, In (a, h) decl -> h = hash a.
Proof.
  intros E. destruct (project_is bases adds) as (u&st&_&_&(S1&S2)&E3). rewrite E in E3. injection E3 as _ ->. rewrite S1. destruct (combine_parts (fst st) hash) as (_&C2). rewrite C2. split; [now rewrite <- S1|].
  intros a h I. clear - I. revert I. generalize (fst st). intros l. induction l as [|x l IH]; cbn; [tauto|]. intros [Q|I]; [congruence|now apply IH].
Qed.
Lemma listed_files bases adds items decl : project p rel hash bases adds = Some (items, decl) ->
  (forall n o, In (n, o) items -> exists f, In f adds /\ n = name p rel f /\ (In "\"%char (slashes f) -> placed (bases_of p bases) (slashes f) o)) /\
  (forall f, In f adds -> exists n, In n (map fst items) /\ lower n = lower (name p rel f)) /\
  StronglySorted (fun a b => before (lower a) (lower b)) (map fst items).
Proof.
  intros E. destruct (project_is bases adds) as (u&st&E1&_&_&E3). rewrite E in E3. injection E3 as -> _. destruct (files_ok p rel adds) as (u'&F1&F2&F3&F4). rewrite E1 in F1. injection F1 as <-. split; [|split].
  - intros n o I. apply in_map_iff in I. destruct I as (x&Q&I). destruct (F3 x I) as (f&J&->). exists f. split; [exact J|]. unfold item in Q. injection Q as <- <-. split; [reflexivity|]. intros B. now apply placed_ok.
  - intros f I. destruct (F4 f I) as (x&J&K). exists (shown x). split; [rewrite names_of; now apply in_map|]. exact K.
  - rewrite names_of. apply (sorted_map shown (fun a b => before (lower a) (lower b))). exact F2.
Qed.
Lemma same_files adds adds' : (forall f, In f adds <-> In f adds') -> (forall f g, In f adds -> In g adds -> lower (name p rel f) = lower (name p rel g) -> slashes f = slashes g) ->
  project_files p rel adds = project_files p rel adds'.
Proof.
  intros S D. destruct (files_ok p rel adds) as (u&E&F2&F3&F4). destruct (files_ok p rel adds') as (u'&E'&G2&G3&G4). rewrite E, E'. f_equal.
  assert (PE : forall f g, slashes f = slashes g -> pair_of p rel f = pair_of p rel g) by (intros f g Q; unfold pair_of; change (to_back f) with (slashes f); change (to_back g) with (slashes g); now rewrite Q).
  apply (strong_unique (fun a b => before (key a) (key b))); [intros x; apply before_irrefl|intros x y z; apply before_trans|exact F2|exact G2|].
  intros x. split; intros I.
  - destruct (F3 x I) as (f&J&->). destruct (G4 f (proj1 (S f) J)) as (y&K1&K2). destruct (G3 y K1) as (g&K3&->). rewrite (PE f g); [exact K1|]. apply D; [exact J|now apply S|]. symmetry. exact K2.
  - destruct (G3 x I) as (f&J&->). destruct (F4 f (proj2 (S f) J)) as (y&K1&K2). destruct (F3 y K1) as (g&K3&->). rewrite (PE f g); [exact K1|]. apply D; [now apply S|exact K3|]. symmetry. exact K2.
Qed.
End P.

(** Two folders with the same hash. *)
Lemma map_repeat_ {A B} (f : A -> B) x n : map f (repeat x n) = repeat (f x) n.
Proof. induction n as [|n IH]; cbn; [easy|now rewrite IH]. Qed.
Lemma same_last (c : ascii) (a d x m : str) : a ++ c :: x = d ++ c :: m -> ~ In c x -> ~ In c m -> a = d.
Proof.
  intros E NX NM. pose proof (P_Xcode.last_at_app c a x NX) as A1. pose proof (P_Xcode.last_at_app c d m NM) as A2. rewrite E, A2 in A1. injection A1 as A1.
  apply (f_equal (firstn (length a))) in E. rewrite firstn_app, Nat.sub_diag, firstn_all in E. cbn [firstn] in E. rewrite app_nil_r in E. rewrite <- A1, firstn_app, Nat.sub_diag, firstn_all in E. cbn [firstn] in E. now rewrite app_nil_r in E.
Qed.
Definition run_of (n : nat) : str := repeat "a"%char (S n).
Definition in_run (n : nat) : str := L "C:\" ++ run_of n ++ L "\x".
Lemma lower_run n : lower (run_of n) = run_of n.
Proof. unfold run_of, lower. now rewrite map_repeat_. Qed.
Lemma lower_in_run n : lower (in_run n) = L "c:\" ++ run_of n ++ L "\x".
Proof. unfold in_run. rewrite !lower_app, lower_run. reflexivity. Qed.
Lemma run_inj i j : in_run i = in_run j -> i = j.
Proof. intros H. apply (f_equal (@length _)) in H. unfold in_run, run_of in H. rewrite !app_length, !repeat_length in H. lia. Qed.
Lemma slashes_run n : slashes (in_run n) = in_run n.
Proof. unfold in_run, slashes. rewrite !map_app. unfold run_of. rewrite map_repeat_. reflexivity. Qed.
Lemma run_placed n o : placed [L "C:\"] (in_run n) o -> o = Some (run_of n).
Proof.
  assert (B : below (L "C:\") (in_run n) (run_of n)) by (exists (L "C:\"), (L "x"); split; [reflexivity|split; [reflexivity|split; [discriminate|intros [Q|[]]; discriminate]]]).
  destruct o as [d|]; cbn [placed].
  - intros (l&b&r&E&Q&_). destruct l as [|y l]; [|destruct l; discriminate]. injection E as <- <-. destruct Q as (h&m&F&LH&ND&NI). f_equal.
    assert (LL : length h = 3) by (rewrite <- (lower_length h), LH; reflexivity). assert (SK : skipn 3 (in_run n) = d ++ "\"%char :: m) by (rewrite F, <- LL, skipn_app, Nat.sub_diag, skipn_all; reflexivity).
    assert (SK2 : skipn 3 (in_run n) = (run_of n : list ascii) ++ "\"%char :: L "x") by reflexivity. rewrite SK2 in SK.
    symmetry. eapply same_last; [exact SK|intros [Q|[]]; discriminate|exact NI].
  - intros Q. exfalso. exact (Q _ _ (or_introl eq_refl) B).
Qed.
Lemma nodup_snd {A B} (l : list (A * B)) x y h : NoDup (map snd l) -> In (x, h) l -> In (y, h) l -> (x, h) = (y, h).
Proof.
  induction l as [|(a&b) l IH]; intros N J1 J2; [destruct J1|]. cbn [map snd] in N. inversion N as [|? ? N1 N2]; subst. destruct J1 as [J1|J1], J2 as [J2|J2]; [congruence| | |now apply IH]; exfalso; apply N1.
  - assert (b = h) by congruence. subst b. apply in_map_iff. exists (y, h). now split.
  - assert (b = h) by congruence. subst b. apply in_map_iff. exists (x, h). now split.
Qed.
Lemma undeclared (hash : str -> N) B : (forall s, (hash s < B)%N) ->
  exists i j items decl d, project win (fun s => s) hash [L "C:\"] [in_run i; in_run j] = Some (items, decl) /\ In (Some d) (map snd items) /\ ~ In d (map fst decl).
Proof.
  intros H. destruct (pigeon (fun n => hash (run_of n)) B) as (i&j&LT&EQ); [intros n; apply H|]. cbn beta in EQ.
  destruct (project_is win (fun s => s) hash [L "C:\"] [in_run i; in_run j]) as (u&st&_&_&_&E). set (items := map _ u) in E. set (decl := combine _ _) in E.
  destruct (listed_files _ _ _ _ _ _ _ E) as (F1&F2&_). destruct (identified _ _ _ _ _ _ _ E) as (I1&I2).
  assert (FO : forall k, k = i \/ k = j -> In (Some (run_of k)) (map snd items)).
  { intros k K. assert (IK : In (in_run k) [in_run i; in_run j]) by (destruct K as [->| ->]; [now left|right; now left]).
    destruct (F2 _ IK) as (n&N1&N2). apply in_map_iff in N1. destruct N1 as ((n'&o)&Q&N1). cbn in Q. subst n'. destruct (F1 _ _ N1) as (f&G1&G2&G3). rewrite G2 in N2.
    assert (f = in_run k).
    { assert (X : forall m, f = in_run m -> f = in_run k).
      { intros m ->. f_equal. apply run_inj. unfold name in N2. cbn [windows win] in N2. rewrite !slashes_run, !lower_in_run in N2. apply (f_equal (@length _)) in N2. rewrite !app_length in N2. unfold run_of in N2. rewrite !repeat_length in N2. f_equal. lia. }
      destruct G1 as [<-|[<-|[]]]; eapply X; reflexivity. }
    subst f. rewrite slashes_run in G3. specialize (G3 ltac:(unfold in_run; apply in_or_app; left; right; right; now left)). apply run_placed in G3. subst o.
    apply in_map_iff. now exists (n, Some (run_of k)). }
  assert (NB : ~ (In (run_of i) (map fst decl) /\ In (run_of j) (map fst decl))).
  { intros (J1&J2). apply in_map_iff in J1, J2. destruct J1 as ((a1&h1)&A1&J1). destruct J2 as ((a2&h2)&A2&J2). cbn [fst] in A1, A2. subst a1 a2. pose proof (I2 _ _ J1). pose proof (I2 _ _ J2). assert (HH : h2 = h1) by congruence. rewrite HH in J2.
    assert (X : (run_of i, h1) = (run_of j, h1)) by (exact (nodup_snd decl _ _ _ I1 J1 J2)).
    injection X as X. apply (f_equal (@length _)) in X. rewrite !repeat_length in X. lia. }
  exists i, j, items, decl. destruct (in_dec (list_eq_dec ascii_dec) (run_of i) (map fst decl)) as [I|I].
  - exists (run_of j). split; [exact E|]. split; [apply FO; now right|]. intros J. now apply NB.
  - exists (run_of i). split; [exact E|]. split; [apply FO; now left|exact I].
Qed.
