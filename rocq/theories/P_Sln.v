(** Proofs about solutions for Visual Studio. *)
From Coq Require Import String Ascii List Arith Bool NArith Lia Permutation Sorted.
From Verif Require Import M_Path M_Names M_Sort M_Dir M_Drv M_Xcode S_Sort S_Dir P_Sort P_Dir2 P_Xcode P_Drv P_Vcx P_Vcx2 T_Path M_Vcx S_Vcx M_Sln S_Sln.
Import ListNotations.
Local Open Scope list_scope.

Lemma names_iff l n : names l n = true <-> In n l.
Proof. unfold names. rewrite existsb_exists. split; [intros (x&I&E); apply teq_eq in E; now subst|]. intros I. exists n. split; [exact I|apply teq_refl]. Qed.
Lemma named_i_iff l n : named_i l n = true <-> exists b, In b l /\ lower b = lower n.
Proof. unfold named_i. rewrite existsb_exists. split; intros (x&I&E); exists x; (split; [exact I|]); now apply teq_eq. Qed.

(** *** The folders that were given *)
Lemma canonical_iff g c : is_for g c <-> c = canonical (path g).
Proof.
  unfold is_for, canonical. change (to_back (path g)) with (slashes (path g)). set (t := slashes (path g)). destruct (ends_with t (back :: nil)) eqn:E.
  - apply ends_with_iff in E. destruct E as (x&E). rewrite E. rewrite app_length. cbn [length]. replace (length x + 1 - 1) with (length x) by lia. rewrite firstn_app, Nat.sub_diag, firstn_all. cbn [firstn]. rewrite app_nil_r. split.
    + intros [Q|(Q&N)]; [now apply app_inj_tail in Q as [-> _]|]. exfalso. apply N. now exists x.
    + intros ->. now left.
  - assert (N : ~ exists x, t = x ++ [back]) by (intros Q; apply ends_with_iff in Q; congruence). split.
    + intros [Q|(Q&_)]; [exfalso; apply N; now exists c|now symmetry].
    + intros ->. right. split; [reflexivity|exact N].
Qed.

Definition sel (l : list sfolder) (c : str) : list sfolder := filter (fun g => teq (canonical (path g)) c) l.
Lemma merge_paths f l : map path (merge f l) = if names (map path l) (path f) then map path l else map path l ++ [path f].
Proof.
  induction l as [|x l IH]; [reflexivity|]. cbn [merge map]. unfold names. cbn [existsb]. destruct (teq (path x) (path f)) eqn:T.
  - cbn [map path]. apply teq_eq in T. rewrite T, teq_refl. reflexivity.
  - assert (T' : teq (path f) (path x) = false) by (apply teq_ne; apply teq_ne in T; congruence). rewrite T'. cbn [map orb]. rewrite IH. unfold names. destruct (existsb _ _); reflexivity.
Qed.
Lemma merge_in f l x : NoDup (map path l) -> In x (merge f l) ->
  (In x l /\ path x <> path f) \/ (exists y, In y l /\ path y = path f /\ x = SFolder (path y) (holds y ++ holds f) (items y ++ items f)) \/ (x = f /\ ~ In (path f) (map path l)).
Proof.
  induction l as [|y l IH]; cbn [merge].
  - intros _ [<-|[]]. right. right. split; [easy|intros []].
  - cbn [map]. intros N I. inversion N as [|? ? N1 N2]; subst. destruct (teq (path y) (path f)) eqn:T.
    + apply teq_eq in T. destruct I as [<-|I]; [right; left; exists y; split; [now left|now split]|]. left. split; [now right|]. intros Q. apply N1. rewrite T, <- Q. now apply in_map.
    + apply teq_ne in T. destruct I as [<-|I]; [left; split; [now left|exact T]|]. destruct (IH N2 I) as [(J&Q)|[(z&J&Q)|(J&Q)]]; [left; split; [now right|exact Q]|right; left; exists z; split; [now right|exact Q]|].
      right. right. split; [exact J|]. intros [Z|Z]; [congruence|now apply Q].
Qed.
Lemma sel_app a b c : sel (a ++ b) c = sel a c ++ sel b c.
Proof. apply filter_app. Qed.
Lemma sel_none l c : ~ In c (map (fun g => canonical (path g)) l) -> sel l c = [].
Proof.
  intros N. induction l as [|g l IH]; [reflexivity|]. cbn [sel filter]. destruct (teq (canonical (path g)) c) eqn:T; [apply teq_eq in T; exfalso; apply N; left; exact T|]. apply IH. intros I. apply N. now right.
Qed.
Lemma collapse_ok l : let fs := collapse l in NoDup (map path fs) /\ (forall c, In c (map path fs) <-> exists g, In g l /\ canonical (path g) = c) /\
  (forall x, In x fs -> holds x = flat_map holds (sel l (path x)) /\ items x = flat_map items (sel l (path x))).
Proof.
  cbn zeta. induction l as [|f l IH] using rev_ind.
  - split; [constructor|]. split; [intros c; split; [intros []|intros (g&[]&_)]|intros ? []].
  - unfold collapse in *. rewrite fold_left_app. cbn [fold_left]. set (fs := fold_left _ l []) in *. destruct IH as (A&B&C). set (f' := SFolder (canonical (path f)) (holds f) (items f)).
    assert (PI : forall c, In c (map path (merge f' fs)) <-> In c (map path fs) \/ c = path f').
    { intros c. rewrite merge_paths. destruct (names (map path fs) (path f')) eqn:N; [apply names_iff in N; split; [now left|intros [I|I]; [exact I|now subst]]|]. rewrite in_app_iff. split; [intros [I|[I|[]]]; [now left|now right]|intros [I|I]; [now left|right; now left]]. }
    split; [|split].
    + rewrite merge_paths. destruct (names (map path fs) (path f')) eqn:N; [exact A|]. apply (Permutation_NoDup (l := path f' :: map path fs)); [apply Permutation_cons_append|]. constructor; [|exact A]. intros I. apply names_iff in I. congruence.
    + intros c. rewrite PI, B. split.
      * intros [(g&I&E)|E]; [exists g; split; [apply in_or_app; now left|exact E]|]. exists f. split; [apply in_or_app; right; now left|now subst].
      * intros (g&I&E). apply in_app_iff in I. destruct I as [I|[<-|[]]]; [left; now exists g|right; now rewrite <- E].
    + intros x I. rewrite sel_app, !flat_map_app. cbn [sel filter]. apply (merge_in f' fs x A) in I. destruct I as [(I&Q)|[(y&I&Q&->)|(->&Q)]].
      * assert (T : teq (canonical (path f)) (path x) = false) by (apply teq_ne; cbn in Q; congruence). rewrite T. cbn [flat_map]. rewrite !app_nil_r. now apply C.
      * cbn [path holds items]. assert (T : teq (canonical (path f)) (path y) = true) by (apply teq_eq; rewrite Q; reflexivity). rewrite T. cbn [flat_map]. rewrite !app_nil_r. destruct (C y I) as (C1&C2). rewrite <- C1, <- C2. split; reflexivity.
      * cbn [f' path holds items]. rewrite teq_refl. cbn [flat_map]. rewrite !app_nil_r. rewrite sel_none; [split; reflexivity|]. intros J. apply Q. cbn [f' path]. apply B. apply in_map_iff in J. destruct J as (g&E&J). now exists g.
Qed.
Lemma collapse_holds l x n : In x (collapse l) -> In n (holds x) <-> exists g, In g l /\ canonical (path g) = path x /\ In n (holds g).
Proof.
  intros I. destruct (collapse_ok l) as (_&_&C). destruct (C x I) as (C1&_). rewrite C1, in_flat_map. unfold sel. split.
  - intros (g&J&K). apply filter_In in J. destruct J as (J&T). apply teq_eq in T. now exists g.
  - intros (g&J&T&K). exists g. split; [|exact K]. apply filter_In. split; [exact J|now apply teq_eq].
Qed.
Lemma collapse_path l x : In x (collapse l) -> exists g, In g l /\ canonical (path g) = path x.
Proof. intros I. destruct (collapse_ok l) as (_&B&_). apply B. now apply in_map. Qed.
Lemma path_collapse l g : In g l -> exists x, In x (collapse l) /\ path x = canonical (path g).
Proof. intros I. destruct (collapse_ok l) as (_&B&_). assert (J : In (canonical (path g)) (map path (collapse l))) by (apply B; now exists g). apply in_map_iff in J. destruct J as (x&E&J). now exists x. Qed.

Lemma mentioned_iff s n : In n (mentioned s (collapse (sfolders s))) <-> mentions s n.
Proof.
  unfold mentioned, mentions. rewrite !in_app_iff, !in_flat_map. assert (F : (exists x, In x (collapse (sfolders s)) /\ In n (holds x)) <-> exists f, In f (sfolders s) /\ In n (holds f)).
  { split.
    - intros (x&I&J). apply (collapse_holds _ _ _ I) in J. destruct J as (g&J1&_&J2). now exists g.
    - intros (g&I&J). destruct (path_collapse _ _ I) as (x&K&E). exists x. split; [exact K|]. apply (collapse_holds _ _ _ K). exists g. now repeat split. }
  rewrite F. assert (D : (exists x, In x (sdeps s) /\ In n (who x ++ what x)) <-> exists d, In d (sdeps s) /\ (In n (who d) \/ In n (what d))) by (split; intros (d&I&J); exists d; (split; [exact I|]); now apply in_app_iff).
  rewrite D. assert (C : (exists x, In x (configs s) /\ In n (build x ++ deploy x)) <-> exists d, In d (configs s) /\ (In n (build d) \/ In n (deploy d))) by (split; intros (d&I&J); exists d; (split; [exact I|]); now apply in_app_iff).
  now rewrite C.
Qed.

(** *** Projects *)
Section F.
Context (find : str -> option node) (U : unique find).
Lemma gather_ok ns : forall acc, (forall n, In n ns -> find n <> None) -> (forall q, In q acc -> exists n, find n = Some q) -> NoDup (map pname acc) ->
  exists r, gather find ns acc = Some r /\ NoDup (map pname r) /\ forall q, In q r <-> In q acc \/ exists n, In n ns /\ find n = Some q.
Proof.
  induction ns as [|n ns IH]; intros acc H A N.
  - exists acc. split; [easy|]. split; [exact N|]. intros q. split; [now left|intros [I|(m&[]&_)]; exact I].
  - cbn [gather]. destruct (find n) as [q|] eqn:E; [|exfalso; now apply (H n (or_introl eq_refl))]. set (acc' := if existsb (fun x => teq (pname x) (pname q)) acc then acc else acc ++ [q]).
    assert (AI : forall x, In x acc' <-> In x acc \/ x = q).
    { intros x. unfold acc'. destruct (existsb (fun x => teq (pname x) (pname q)) acc) eqn:X.
      - apply existsb_exists in X. destruct X as (y&I&T). apply teq_eq in T. destruct (A y I) as (m&EM). assert (y = q) by (eapply U; eauto). subst y. split; [now left|intros [J|J]; [exact J|now subst]].
      - rewrite in_app_iff. cbn [In]. split; [intros [J|[J|[]]]; [now left|now right]|intros [J|J]; [now left|right; now left]]. }
    destruct (IH acc') as (r&E1&N1&I1).
    + intros m I. apply H. now right.
    + intros x I. apply AI in I. destruct I as [I| ->]; [now apply A|now exists n].
    + unfold acc'. destruct (existsb (fun x => teq (pname x) (pname q)) acc) eqn:X; [exact N|]. rewrite map_app. cbn [map]. apply (Permutation_NoDup (l := pname q :: map pname acc)); [apply Permutation_cons_append|]. constructor; [|exact N].
      intros I. apply in_map_iff in I. destruct I as (y&T&I). assert (Y : existsb (fun x => teq (pname x) (pname q)) acc = true) by (apply existsb_exists; exists y; split; [exact I|now apply teq_eq]). congruence.
    + exists r. split; [exact E1|]. split; [exact N1|]. intros x. rewrite I1, AI. split.
      * intros [[J| ->]|(m&J&K)]; [now left|right; exists n; split; [now left|exact E]|right; exists m; split; [now right|exact K]].
      * intros [J|(m&[<-|J]&K)]; [now left; left|left; right; congruence|right; now exists m].
Qed.
Lemma gather_none ns : forall acc n, In n ns -> find n = None -> gather find ns acc = None.
Proof. induction ns as [|m ns IH]; intros acc n I E; [destruct I|]. cbn [gather]. destruct I as [<-|I]; [now rewrite E|]. destruct (find m); [eapply IH; eauto|easy]. Qed.
End F.

(** *** Paths of folders *)
Lemma cuts_iff s : forall done a, In a (cuts done s) <-> exists u r, s = u ++ back :: r /\ a = done ++ u.
Proof.
  induction s as [|c s IH]; intros done a; cbn [cuts].
  - split; [intros []|]. intros (u&r&E&_). destruct u; discriminate.
  - assert (K : In a (cuts (done ++ [c]) s) <-> exists u r, s = u ++ back :: r /\ a = done ++ c :: u).
    { rewrite IH. split; intros (u&r&E&F); exists u, r; (split; [exact E|]); rewrite F; [now rewrite <- app_assoc|now rewrite <- app_assoc]. }
    destruct (Ascii.eqb_spec c back) as [->|NE]; cbn [In]; rewrite K; split.
    + intros [<-|(u&r&E&F)]; [exists [], s; split; [easy|now rewrite app_nil_r]|]. exists (back :: u), r. split; [now rewrite E|exact F].
    + intros (u&r&E&F). destruct u as [|d u]; [left; rewrite F; now rewrite app_nil_r|]. injection E as <- E. right. now exists u, r.
    + intros (u&r&E&F). exists (c :: u), r. split; [now rewrite E|exact F].
    + intros (u&r&E&F). destruct u as [|d u]; [injection E; congruence|]. injection E as <- E. now exists u, r.
Qed.
Lemma within_cuts f a : In a (f :: cuts [] f) <-> within a f.
Proof.
  cbn [In]. rewrite cuts_iff. unfold within. split; [intros [E|(u&r&E&F)]; [now left|right; exists r; now rewrite F]|intros [E|(r&E)]; [now left|right; now exists a, r]].
Qed.
Lemma add_paths l : forall acc, NoDup acc -> NoDup (fold_left add_path l acc) /\ forall a, In a (fold_left add_path l acc) <-> In a acc \/ In a l.
Proof.
  induction l as [|f l IH]; intros acc N; cbn [fold_left]; [split; [exact N|intros a; cbn; tauto]|].
  assert (A : NoDup (add_path acc f) /\ forall a, In a (add_path acc f) <-> In a acc \/ a = f).
  { unfold add_path. destruct (names acc f) eqn:X; [apply names_iff in X; split; [exact N|intros a; split; [now left|intros [I|I]; [exact I|now subst]]]|]. split.
    - apply (Permutation_NoDup (l := f :: acc)); [apply Permutation_cons_append|]. constructor; [|exact N]. intros I. apply names_iff in I. congruence.
    - intros a. rewrite in_app_iff. cbn [In]. split; [intros [I|[I|[]]]; [now left|now right]|intros [I|I]; [now left|right; now left]]. }
  destruct A as (A1&A2). destruct (IH _ A1) as (B1&B2). split; [exact B1|]. intros a. rewrite B2, A2. cbn [In]. split; [intros [[I|I]|I]; auto|intros [I|[I|I]]; auto].
Qed.
Lemma folder_paths_ok fs : NoDup (folder_paths fs) /\ forall a, In a (folder_paths fs) <-> exists f, In f fs /\ within a (path f).
Proof.
  unfold folder_paths. assert (G : forall acc, NoDup acc -> NoDup (fold_left (fun acc f => fold_left add_path (path f :: cuts [] (path f)) acc) fs acc) /\
    forall a, In a (fold_left (fun acc f => fold_left add_path (path f :: cuts [] (path f)) acc) fs acc) <-> In a acc \/ exists f, In f fs /\ within a (path f)).
  { induction fs as [|f fs IH]; intros acc N; [split; [exact N|intros a; split; [now left|intros [I|(f&[]&_)]; exact I]]|].
    change (fold_left (fun acc f => fold_left add_path (path f :: cuts [] (path f)) acc) (f :: fs) acc) with (fold_left (fun acc f => fold_left add_path (path f :: cuts [] (path f)) acc) fs (fold_left add_path (path f :: cuts [] (path f)) acc)).
    destruct (add_paths (path f :: cuts [] (path f)) acc N) as (A1&A2). destruct (IH _ A1) as (B1&B2). split; [exact B1|]. intros a. rewrite B2, A2, within_cuts. split.
    - intros [[I|I]|(g&I&W)]; [now left|right; exists f; split; [now left|exact I]|right; exists g; split; [now right|exact W]].
    - intros [I|(g&[<-|I]&W)]; [now left; left|left; now right|right; now exists g]. }
  destruct (G [] (NoDup_nil _)) as (A&B). split; [exact A|]. intros a. rewrite B. cbn [In]. tauto.
Qed.
