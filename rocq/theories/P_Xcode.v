(** Proofs about XCode projects: the tree of folders and files. *)
From Coq Require Import String Ascii List Arith Bool NArith Lia Permutation.
From Verif Require Import M_Path M_Names M_Array M_Sort M_Dir M_Drv M_Xcode S_Xcode P_Drv.
Import ListNotations.
Local Open Scope list_scope.
Local Notation "'length'" := List.length.

(** *** The last slash *)
Lemma last_none c s : last_at c s = None -> ~ In c s.
Proof.
  induction s as [|d r IH]; cbn; [tauto|]. destruct (last_at c r); [discriminate|]. destruct (Ascii.eqb_spec d c); [discriminate|]. intros _ [E|I]; [congruence|now apply IH].
Qed.
Lemma last_some c s i : last_at c s = Some i -> s = firstn i s ++ c :: skipn (S i) s /\ ~ In c (skipn (S i) s) /\ i < length s.
Proof.
  revert i. induction s as [|d r IH]; cbn; intros i; [discriminate|]. destruct (last_at c r) as [k|] eqn:E.
  - intros [= <-]. destruct (IH k eq_refl) as (A&B&C). cbn [firstn skipn app]. split; [f_equal; exact A|]. split; [exact B|lia].
  - destruct (Ascii.eqb_spec d c) as [->|]; [|discriminate]. intros [= <-]. split; [reflexivity|]. split; [now apply last_none|lia].
Qed.
Lemma last_at_none c s : ~ In c s -> last_at c s = None.
Proof. induction s as [|d r IH]; cbn; intros H; [reflexivity|]. rewrite IH by tauto. destruct (Ascii.eqb_spec d c); [tauto|reflexivity]. Qed.
Lemma last_at_app c a b : ~ In c b -> last_at c (a ++ c :: b) = Some (length a).
Proof.
  intros H. induction a as [|d a IH]; cbn; [rewrite last_at_none by exact H; now rewrite Ascii.eqb_refl|]. now rewrite IH.
Qed.

(** *** Parts of a path *)
Lemma parts_ne c s : parts c s <> [].
Proof. destruct s; cbn; [discriminate|]. destruct (Ascii.eqb _ _); [discriminate|]. destruct (parts c s); discriminate. Qed.
Lemma parts_none c s : ~ In c s -> parts c s = [s].
Proof. induction s as [|d r IH]; cbn; intros H; [reflexivity|]. destruct (Ascii.eqb_spec d c); [tauto|]. now rewrite IH by tauto. Qed.
Lemma parts_app c a b : ~ In c b -> parts c (a ++ c :: b) = parts c a ++ [b].
Proof.
  intros H. induction a as [|d a IH]; cbn.
  - rewrite Ascii.eqb_refl. now rewrite parts_none.
  - destruct (Ascii.eqb d c); [now rewrite IH|]. rewrite IH. pose proof (parts_ne c a) as N. destruct (parts c a); [congruence|reflexivity].
Qed.
Definition strip (l : list str) : list str := match l with [] :: t => t | t => t end.
(** The folder of a path, and the names of the groups of a folder. *)
Definition parent (c : ascii) (path : str) : str := match last_at c path with Some (S k) => firstn (S k) path | _ => [] end.
Definition names (c : ascii) (q : str) : list str := strip (parts c q).
Lemma folders_parent c r : folders_of c r = names c (parent c r).
Proof.
  unfold folders_of, parent, names. destruct (last_at c r) as [[|k]|] eqn:E.
  - apply last_some in E as (A&B&_). cbn [firstn app] in A. rewrite A. cbn [parts]. rewrite Ascii.eqb_refl. rewrite parts_none by exact B. reflexivity.
  - apply last_some in E as (A&B&_). set (q := firstn (S k) r) in *. rewrite A. rewrite parts_app by exact B. rewrite removelast_last. destruct (parts c q) as [|[|]]; reflexivity.
  - apply last_none in E. rewrite parts_none by exact E. reflexivity.
Qed.
Lemma name_part c r i : last_at c r = Some i -> name_of c r = skipn (S i) r.
Proof. intros E. apply last_some in E as (A&B&_). unfold name_of. rewrite A at 1. rewrite parts_app by exact B. now rewrite last_last. Qed.
Lemma name_whole c r : last_at c r = None -> name_of c r = r.
Proof. intros E. apply last_none in E. unfold name_of. now rewrite parts_none. Qed.
Lemma names_parent p q : q <> [] -> exists n, group_name p q = Some n /\ names (native p) q = names (native p) (parent (native p) q) ++ [n].
Proof.
  intros N. destruct q as [|x q']; [congruence|]. set (q := x :: q') in *. unfold group_name, parent, names. fold q. change (match q with [] => None | _ => match after (last_at (native p) q) q with Some n => Some n | None => Some q end end) with (match after (last_at (native p) q) q with Some n => Some n | None => Some q end).
  destruct (last_at (native p) q) as [[|k]|] eqn:E; cbn [after].
  - apply last_some in E as (A&B&_). eexists. split; [reflexivity|]. rewrite A at 1. cbn [firstn app parts]. rewrite Ascii.eqb_refl. rewrite parts_none by exact B. reflexivity.
  - apply last_some in E as (A&B&_). eexists. split; [reflexivity|]. set (h := firstn (S k) q) in *. rewrite A at 1. rewrite parts_app by exact B. pose proof (parts_ne (native p) h) as M. destruct (parts (native p) h) as [|[|y ys] l]; [congruence|reflexivity|reflexivity].
  - apply last_none in E. eexists. split; [reflexivity|]. rewrite parts_none by exact E. reflexivity.
Qed.
Lemma parent_short c q : q <> [] -> length (parent c q) < length q.
Proof.
  intros N. unfold parent. destruct (last_at c q) as [[|k]|] eqn:E; try (destruct q; cbn; [congruence|lia]).
  apply last_some in E as (_&_&L). rewrite firstn_length. lia.
Qed.

(** *** The tree is given by its paths *)
Definition made (c : ascii) (rel : str -> str) (ps : list str) (fs : list str) (q : str) : folder :=
  Folder q (filter (fun i => teq (parent c (rel (nth i fs []))) q) (seq 0 (length fs)))
           (filter (fun i => teq (parent c (nth i ps [])) q) (seq 1 (length ps - 1))).
Definition pos {A} (t : A -> bool) (l : list A) : nat := match index_of t l with Some i => i | None => 0 end.
Definition the_file (c : ascii) (rel : str -> str) (ps : list str) (f : str) : file :=
  File (short_name (rel f)) f (pos (fun x => teq x (parent c (rel f))) ps).
Definition build (c : ascii) (rel : str -> str) (ps fs : list str) : tree := Tree (map (made c rel ps fs) ps) (map (the_file c rel ps) fs).
Record good (c : ascii) (rel : str -> str) (ps fs : list str) : Prop := {
  g_root : nth_error ps 0 = Some [];
  g_nodup : NoDup ps;
  g_up : forall q, In q ps -> In (parent c q) ps;
  g_files : forall f, In f fs -> In (parent c (rel f)) ps }.

Lemma index_spec {A} (t : A -> bool) l : match index_of t l with
  | Some i => exists x, nth_error l i = Some x /\ t x = true
  | None => forall x, In x l -> t x = false end.
Proof.
  induction l as [|x l IH]; cbn; [tauto|]. destruct (t x) eqn:E; [exists x; auto|]. destruct (index_of t l) as [i|].
  - exact IH.
  - intros y [<-|I]; auto.
Qed.
Lemma index_map {A B} (t : B -> bool) (g : A -> B) l : index_of t (map g l) = index_of (fun x => t (g x)) l.
Proof. induction l as [|x l IH]; cbn; [reflexivity|]. destruct (t (g x)); [reflexivity|]. now rewrite IH. Qed.
Lemma index_app {A} (t : A -> bool) l m i : index_of t l = Some i -> index_of t (l ++ m) = Some i.
Proof. revert i. induction l as [|x l IH]; cbn; intros i; [discriminate|]. destruct (t x); [auto|]. destruct (index_of t l) as [k|]; [|discriminate]. intros [= <-]. now rewrite (IH k eq_refl). Qed.
Lemma pos_in q ps : In q ps -> index_of (fun x => teq x q) ps = Some (pos (fun x => teq x q) ps) /\ nth_error ps (pos (fun x => teq x q) ps) = Some q.
Proof.
  intros I. unfold pos. pose proof (index_spec (fun x => teq x q) ps) as H. destruct (index_of _ ps) as [i|].
  - destruct H as (x&E&T). apply teq_eq in T. subst x. auto.
  - specialize (H q I). cbn in H. rewrite teq_refl in H. discriminate.
Qed.
Lemma set_spec {A} (l : list A) i x y : nth_error l i = Some y -> set l i x = Some (firstn i l ++ x :: skipn (S i) l).
Proof.
  revert i. induction l as [|z l IH]; intros [|i]; cbn; try discriminate; [reflexivity|]. intros E. now rewrite (IH i E).
Qed.
Lemma map_at {A B} (g h : A -> B) l i x : NoDup l -> nth_error l i = Some x -> (forall y, In y l -> y <> x -> g y = h y) ->
  map h l = firstn i (map g l) ++ h x :: skipn (S i) (map g l).
Proof.
  revert i. induction l as [|z l IH]; intros [|i] N E H; cbn in *; try discriminate.
  - injection E as ->. inversion N; subst. f_equal. apply map_ext_in. intros a I. symmetry. apply H; [auto|congruence].
  - inversion N; subst. rewrite (IH i) by (auto; intros; apply H; auto). rewrite (H z); [reflexivity|auto|]. intros ->. apply nth_error_In in E. contradiction.
Qed.
Lemma filter_none {A} (f : A -> bool) l : (forall x, In x l -> f x = false) -> filter f l = [].
Proof. induction l as [|x l IH]; cbn; intros H; [reflexivity|]. rewrite H by auto. apply IH. intros; apply H; auto. Qed.
Lemma seq_snoc n : forall a, seq a (S n) = seq a n ++ [a + n].
Proof. intros a. replace (S n) with (n + 1) by lia. rewrite seq_app. reflexivity. Qed.
Lemma filter_seq_ext (f g : nat -> bool) a n : (forall i, a <= i < a + n -> f i = g i) -> filter f (seq a n) = filter g (seq a n).
Proof. intros H. apply filter_ext_in. intros i I. apply in_seq in I. apply H. lia. Qed.
Lemma nth_in {A} (l : list A) i d : i < length l -> In (nth i l d) l. Proof. apply nth_In. Qed.

Lemma nodup_snoc {A} (l : list A) x : NoDup l -> ~ In x l -> NoDup (l ++ [x]).
Proof. intros N I. apply (Permutation_NoDup (l := x :: l)); [apply Permutation_cons_append|now constructor]. Qed.
Lemma good_len c rel ps fs : good c rel ps fs -> exists tl, ps = [] :: tl.
Proof. intros [R _ _ _]. destruct ps as [|x tl]; cbn in R; [discriminate|]. injection R as ->. eauto. Qed.
(** A new folder. *)
Lemma made_snoc c rel ps fs q n : good c rel ps fs -> ~ In n ps -> n <> [] -> In q ps ->
  made c rel (ps ++ [n]) fs q = Folder q (ffiles (made c rel ps fs q)) (fsubs (made c rel ps fs q) ++ (if teq (parent c n) q then [length ps] else [])).
Proof.
  intros G NI NE I. destruct (good_len _ _ _ _ G) as (tl&E). unfold made. cbn [ffiles fsubs]. f_equal. rewrite app_length. cbn [length].
  replace (length ps + 1 - 1) with (S (length ps - 1)) by (subst ps; cbn; lia). rewrite seq_snoc, filter_app. f_equal.
  - apply filter_seq_ext. intros i H. rewrite app_nth1 by lia. reflexivity.
  - replace (1 + (length ps - 1)) with (length ps) by (subst ps; cbn; lia). cbn [filter]. rewrite app_nth2, Nat.sub_diag by lia. cbn [nth]. destruct (teq _ _); reflexivity.
Qed.
Lemma made_new c rel ps fs n : good c rel ps fs -> ~ In n ps -> n <> [] -> made c rel (ps ++ [n]) fs n = Folder n [] [].
Proof.
  intros G NI NE. destruct (good_len _ _ _ _ G) as (tl&E). unfold made. f_equal.
  - apply filter_none. intros i H. apply in_seq in H. destruct (teq _ _) eqn:T; [|reflexivity]. apply teq_eq in T. destruct NI. rewrite <- T. apply (g_files _ _ _ _ G). apply nth_In. lia.
  - apply filter_none. intros i H. rewrite app_length in H. apply in_seq in H. cbn [length] in H. destruct (teq _ _) eqn:T; [|reflexivity]. apply teq_eq in T.
    destruct (lt_dec i (length ps)) as [L|L].
    + rewrite app_nth1 in T by exact L. destruct NI. rewrite <- T. apply (g_up _ _ _ _ G), nth_In, L.
    + rewrite app_nth2 in T by lia. replace (i - length ps) with 0 in T by lia. cbn [nth] in T. pose proof (parent_short c n NE). rewrite T in H0. lia.
Qed.
Lemma the_file_snoc c rel ps fs n f : good c rel ps fs -> In f fs -> the_file c rel (ps ++ [n]) f = the_file c rel ps f.
Proof.
  intros G I. unfold the_file, pos. f_equal. destruct (pos_in _ _ (g_files _ _ _ _ G f I)) as [E _]. now rewrite (index_app _ _ [n] _ E), E.
Qed.
Lemma build_snoc c rel ps fs n : good c rel ps fs -> ~ In n ps -> n <> [] -> In (parent c n) ps ->
  add_sub (pos (fun x => teq x (parent c n)) ps) (length ps) (map (made c rel ps fs) ps ++ [Folder n [] []]) = Some (map (made c rel (ps ++ [n]) fs) (ps ++ [n])).
Proof.
  intros G NI NE IP. unfold add_sub. destruct (pos_in _ _ IP) as [_ E]. set (g := pos _ ps) in *.
  assert (L : g < length ps) by (apply nth_error_Some; congruence).
  assert (X : nth_error (map (made c rel ps fs) ps ++ [Folder n [] []]) g = Some (made c rel ps fs (parent c n))) by (rewrite nth_error_app1 by (now rewrite map_length); now rewrite nth_error_map, E).
  unfold get. rewrite X. rewrite (set_spec _ _ _ _ X). f_equal. rewrite map_app. cbn [map]. rewrite made_new by assumption.
  rewrite (map_at (made c rel ps fs) (made c rel (ps ++ [n]) fs) ps g (parent c n) (g_nodup _ _ _ _ G) E).
  - rewrite firstn_app, map_length. replace (g - length ps) with 0 by lia. cbn [firstn]. rewrite app_nil_r.
    rewrite skipn_app, map_length. replace (S g - length ps) with 0 by lia. cbn [skipn]. rewrite <- app_assoc. cbn [app]. f_equal. f_equal.
    rewrite made_snoc by auto. rewrite teq_refl. reflexivity.
  - intros y I N. rewrite made_snoc by auto. destruct (teq (parent c n) y) eqn:T; [apply teq_eq in T; congruence|]. rewrite app_nil_r. reflexivity.
Qed.
Lemma good_snoc c rel ps fs n : good c rel ps fs -> ~ In n ps -> In (parent c n) ps -> good c rel (ps ++ [n]) fs.
Proof.
  intros G NI IP. destruct (good_len _ _ _ _ G) as (tl&E). destruct G as [A B C D]. split.
  - subst ps. reflexivity.
  - now apply nodup_snoc.
  - intros q I. apply in_app_iff in I as [I|[<-|[]]]; apply in_app_iff; left; auto.
  - intros f I. apply in_app_iff. left. auto.
Qed.

(** Folders above a path. *)
Inductive above (c : ascii) : str -> str -> Prop :=
| above_parent x : above c (parent c x) x
| above_more a x : above c a (parent c x) -> above c a x.
Lemma above_nil c a x : above c a x -> x = [] -> a = [].
Proof. induction 1 as [x|a x H IH]; intros ->; [reflexivity|]. apply IH. reflexivity. Qed.
Lemma above_names p a x : above (native p) a x -> exists t, names (native p) (parent (native p) x) = names (native p) a ++ t.
Proof.
  induction 1 as [x|a x H IH]; [exists []; now rewrite app_nil_r|]. destruct (list_eq_dec ascii_dec (parent (native p) x) []) as [E|N].
  - apply above_nil in H; [|exact E]. subst a. exists []. rewrite E. reflexivity.
  - destruct (names_parent p _ N) as (n&_&E). destruct IH as (t&T). exists (t ++ [n]). rewrite E, T. now rewrite app_assoc.
Qed.

Section B.
Context (p : plat) (rel : str -> str).
Notation c := (native p).

Lemma build_len ps fs : length (folders (build c rel ps fs)) = length ps. Proof. apply map_length. Qed.
Lemma in_dec_str (q : str) ps : {In q ps} + {~ In q ps}. Proof. apply in_dec, list_eq_dec, ascii_dec. Qed.
Lemma folder_for_spec : forall fuel path ps fs, good c rel ps fs -> length path < fuel ->
  exists m, let ps' := ps ++ m in
    folder_for p fuel path (build c rel ps fs) = Some (pos (fun x => teq x (parent c path)) ps', build c rel ps' fs)
    /\ good c rel ps' fs /\ In (parent c path) ps' /\ forall x, In x m -> length x < length path /\ above c x path.
Proof.
  induction fuel as [|k IH]; intros path ps fs G LT; [lia|]. cbn [folder_for].
  assert (R : In [] ps) by (destruct (good_len _ _ _ _ G) as (tl&->); now left).
  assert (Z : pos (fun x => teq x []) ps = 0) by (destruct (good_len _ _ _ _ G) as (tl&->); reflexivity).
  assert (PE : match last_at c path with Some (S i) => parent c path = firstn (S i) path | _ => parent c path = [] end) by (unfold parent; destruct (last_at c path) as [[|i]|]; reflexivity).
  destruct (last_at c path) as [[|i]|] eqn:E.
  1,3: exists []; cbv zeta; rewrite app_nil_r, PE, Z; split; [reflexivity|split; [exact G|split; [exact R|intros ? []]]].
  apply last_some in E as (_&_&L). set (q := firstn (S i) path) in *.
  assert (LQ : length q < length path) by (unfold q; rewrite firstn_length; lia).
  assert (NQ : q <> []) by (unfold q; destruct path; cbn in L |- *; [lia|discriminate]).
  cbn [folders build]. rewrite index_map. change (fun x => teq (fpath (made c rel ps fs x)) q) with (fun x : str => teq x q).
  destruct (in_dec_str q ps) as [I|NI].
  - destruct (pos_in _ _ I) as [E _]. rewrite E. exists []. cbv zeta. rewrite app_nil_r, PE. split; [reflexivity|split; [exact G|split; [exact I|intros ? []]]].
  - assert (NO : index_of (fun x => teq x q) ps = None).
    { pose proof (index_spec (fun x => teq x q) ps) as H. destruct (index_of _ ps) as [j|]; [|reflexivity]. destruct H as (x&A&B). apply teq_eq in B. subst x. apply nth_error_In in A. contradiction. }
    rewrite NO. destruct (IH q ps fs G) as (m&F&G1&I1&B); [lia|]. fold (build c rel ps fs). rewrite F. cbn [folders files build]. rewrite map_length.
    assert (NI1 : ~ In q (ps ++ m)) by (rewrite in_app_iff; intros [H|H]; [contradiction|]; apply B in H; lia).
    rewrite build_snoc by assumption. exists (m ++ [q]). cbv zeta. rewrite app_assoc. pose proof (good_snoc _ _ _ _ _ G1 NI1 I1) as G2.
    assert (IQ : In q ((ps ++ m) ++ [q])) by (apply in_app_iff; right; now left).
    rewrite PE. split; [|split; [exact G2|split; [exact IQ|]]].
    + f_equal. f_equal.
      * destruct (pos_in _ _ IQ) as [_ X]. set (j := pos (fun x => teq x q) ((ps ++ m) ++ [q])) in *. clearbody j. destruct (lt_dec j (length (ps ++ m))) as [LJ|LJ].
        -- rewrite nth_error_app1 in X by exact LJ. apply nth_error_In in X. contradiction.
        -- assert (HJ : j < length ((ps ++ m) ++ [q])) by (apply nth_error_Some; congruence). rewrite app_length in HJ. cbn in HJ. lia.
      * unfold build. f_equal. apply map_ext_in. intros f IF. symmetry. now apply (the_file_snoc c rel (ps ++ m) fs).
    + intros x H. apply in_app_iff in H as [H|[<-|[]]].
      * apply B in H as [H1 H2]. split; [lia|]. apply above_more. rewrite PE. exact H2.
      * split; [lia|]. rewrite <- PE. constructor.
Qed.
Lemma made_file ps fs f q : made c rel ps (fs ++ [f]) q =
  Folder q (ffiles (made c rel ps fs q) ++ (if teq (parent c (rel f)) q then [length fs] else [])) (fsubs (made c rel ps fs q)).
Proof.
  unfold made. cbn [ffiles fsubs]. f_equal. rewrite app_length. cbn [length]. rewrite Nat.add_1_r, seq_snoc, filter_app. f_equal.
  - apply filter_seq_ext. intros i H. rewrite app_nth1 by lia. reflexivity.
  - cbn [filter]. rewrite app_nth2 by lia. cbn [plus]. rewrite Nat.sub_diag. cbn [nth]. destruct (teq _ _); reflexivity.
Qed.
Lemma build_file ps fs f : good c rel ps fs -> In (parent c (rel f)) ps ->
  add_to (pos (fun x => teq x (parent c (rel f))) ps) (length fs) (map (made c rel ps fs) ps) = Some (map (made c rel ps (fs ++ [f])) ps).
Proof.
  intros G I. unfold add_to. destruct (pos_in _ _ I) as [_ E]. set (g := pos _ ps) in *.
  assert (X : nth_error (map (made c rel ps fs) ps) g = Some (made c rel ps fs (parent c (rel f)))) by now rewrite nth_error_map, E.
  unfold get. rewrite X, (set_spec _ _ _ _ X). f_equal.
  rewrite (map_at (made c rel ps fs) (made c rel ps (fs ++ [f])) ps g (parent c (rel f)) (g_nodup _ _ _ _ G) E).
  - f_equal. f_equal. rewrite made_file, teq_refl. reflexivity.
  - intros y J N. rewrite made_file. destruct (teq (parent c (rel f)) y) eqn:T; [apply teq_eq in T; congruence|]. rewrite app_nil_r. reflexivity.
Qed.
End B.

(** Every folder lies above a file. *)
Definition needed (c : ascii) (rel : str -> str) (ps fs : list str) : Prop := forall q, In q ps -> q = [] \/ exists f, In f fs /\ above c q (rel f).
Lemma add_file_spec p bases ps fs f : good (native p) (relative p bases) ps fs -> needed (native p) (relative p bases) ps fs ->
  exists ps', add_file p bases f (build (native p) (relative p bases) ps fs) = Some (build (native p) (relative p bases) ps' (fs ++ [f]))
    /\ good (native p) (relative p bases) ps' (fs ++ [f]) /\ needed (native p) (relative p bases) ps' (fs ++ [f]).
Proof.
  intros G ND. unfold add_file. set (rel := relative p bases) in *. destruct (folder_for_spec p rel (S (length (rel f))) (rel f) ps fs G (Nat.lt_succ_diag_r _)) as (m&F&G1&I&B).
  cbv zeta. rewrite F. cbn [files folders build]. rewrite map_length, build_file by assumption. exists (ps ++ m). split; [|split].
  - unfold build. rewrite (map_app (the_file _ _ _)). reflexivity.
  - destruct G1 as [A1 A2 A3 A4]. split; auto. intros g J. apply in_app_iff in J as [J|[<-|[]]]; auto.
  - intros q J. apply in_app_iff in J as [J|J].
    + destruct (ND q J) as [->|(g&K&A)]; [now left|]. right. exists g. split; [apply in_app_iff; now left|exact A].
    + right. exists f. split; [apply in_app_iff; right; now left|]. now apply B.
Qed.
Lemma add_files_spec p bases : forall l ps fs, good (native p) (relative p bases) ps fs -> needed (native p) (relative p bases) ps fs ->
  exists ps', add_files p bases l (build (native p) (relative p bases) ps fs) = Some (build (native p) (relative p bases) ps' (fs ++ l))
    /\ good (native p) (relative p bases) ps' (fs ++ l) /\ needed (native p) (relative p bases) ps' (fs ++ l).
Proof.
  induction l as [|f l IH]; intros ps fs G N; cbn [add_files].
  - exists ps. rewrite app_nil_r. auto.
  - destruct (add_file_spec p bases ps fs f G N) as (ps1&E&G1&N1). rewrite E. destruct (IH _ _ G1 N1) as (ps2&E2&G2&N2). exists ps2. rewrite <- app_assoc in *. auto.
Qed.
Lemma tree_spec p bases l : exists ps, add_files p bases l start = Some (build (native p) (relative p bases) ps l)
    /\ good (native p) (relative p bases) ps l /\ needed (native p) (relative p bases) ps l.
Proof.
  change start with (build (native p) (relative p bases) [[]] []). apply (add_files_spec p bases l [[]] []).
  - split; [reflexivity|constructor; [tauto|constructor]|intros q [<-|[]]; now left|intros f []].
  - intros q [<-|[]]. now left.
Qed.
