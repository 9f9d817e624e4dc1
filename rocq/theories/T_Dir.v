(** C73, C74, C75: directory listings, their stamps, and RemoveDir. *)
From Coq Require Import String List Arith Bool Ascii NArith Lia Permutation Sorted.
From Verif Require Import M_Path M_Names M_Glob M_Sort M_Cond M_Dir S_Glob S_Fix S_Dir S_Sort T_Path P_Dir P_Dir2 P_Dir3.
Import ListNotations.
Open Scope list_scope.

(** A listing has exactly the files that the settings show, in directories that are entered, each once, and exactly the
    directories met there if they are asked for; both in the order of bytes. *)
Theorem C73_listing : forall p o path es, tree p es -> exists fs ds, list_dir p o path (Some es) = Some (fs, ds) /\
  (forall f ro, In (f, ro) fs <-> exists n way, holds p path es f n ro way /\ open_to p o way /\ shows p o f n) /\
  (forall d, In d ds <-> include_dirs o = true /\ exists n way, holds_dir p path es d n way /\ open_to p o way /\ ~ dotted n) /\
  StronglySorted before (map fst fs) /\ StronglySorted before ds.
Proof.
  intros p o path es T. destruct (list_spec p o path es T) as (fs&ds&E&P1&P2&S1&S2). exists fs, ds. split; [exact E|]. destruct T as [FA ND]. split; [|split; [|split]].
  - intros f ro. rewrite <- (files_spec p o path es f ro FA). split; apply Permutation_in; [now apply Permutation_sym|assumption].
  - intros d. rewrite <- (dirs_spec p o path es d FA). split; apply Permutation_in; [now apply Permutation_sym|assumption].
  - clear - S1. induction S1 as [|a l S IH F]; cbn; constructor; [exact IH|]. rewrite Forall_forall in *. intros x I. apply in_map_iff in I as (y&<-&I). now apply F.
  - exact S2.
Qed.
Print Assumptions C73_listing.

(** So it does not depend on the order in which the system returns what a directory holds: two directories that hold the
    same are listed alike. *)
Theorem C73_any_order : forall p o path es es', tree p es -> tree p es' ->
  (forall f n ro way, holds p path es f n ro way <-> holds p path es' f n ro way) ->
  (forall d n way, holds_dir p path es d n way <-> holds_dir p path es' d n way) ->
  list_dir p o path (Some es) = list_dir p o path (Some es').
Proof.
  intros p o path es es' T T' HF HD. destruct (list_spec p o path es T) as (fs&ds&E&P1&P2&S1&S2). destruct (list_spec p o path es' T') as (fs'&ds'&E'&P1'&P2'&S1'&S2'). rewrite E, E'.
  destruct T as [FA _], T' as [FA' _]. f_equal. f_equal.
  - apply (strong_unique by_name); auto; [intros x; apply before_irrefl|intros x y z; apply before_trans|]. intros [f ro]. split; intros I.
    + eapply Permutation_in; [exact P1'|]. apply (files_spec p o path es' f ro FA'). eapply Permutation_in in I; [|symmetry; exact P1]. apply (files_spec p o path es f ro FA) in I as (n&w&H&R). exists n, w. split; [now apply HF|exact R].
    + eapply Permutation_in; [exact P1|]. apply (files_spec p o path es f ro FA). eapply Permutation_in in I; [|symmetry; exact P1']. apply (files_spec p o path es' f ro FA') in I as (n&w&H&R). exists n, w. split; [now apply HF|exact R].
  - apply (strong_unique before); auto; [intros x; apply before_irrefl|intros x y z; apply before_trans|]. intros d. split; intros I.
    + eapply Permutation_in; [exact P2'|]. apply (dirs_spec p o path es' d FA'). eapply Permutation_in in I; [|symmetry; exact P2]. apply (dirs_spec p o path es d FA) in I as (ID&n&w&H&R). split; [exact ID|]. exists n, w. split; [now apply HD|exact R].
    + eapply Permutation_in; [exact P2|]. apply (dirs_spec p o path es d FA). eapply Permutation_in in I; [|symmetry; exact P2']. apply (dirs_spec p o path es' d FA') in I as (ID&n&w&H&R). split; [exact ID|]. exists n, w. split; [now apply HD|exact R].
Qed.
Print Assumptions C73_any_order.

(** A directory that is not there, or is a symbolic link, is listed as empty. *)
Theorem C73_absent : forall p o path, list_dir p o path None = Some ([], []).
Proof. reflexivity. Qed.
Print Assumptions C73_absent.

Ltac ok_name := split; [discriminate|split; cbn; intuition discriminate].
Example C73_case :
  let o := mkO [L "*.cpp"] [L "/d/skip/"] [L "b.cpp"] [L "*gen*"] true false false in
  let es := [EDir (L "sub") [EFile (L "x.cpp") true; EFile (L "b.cpp") false]; EDir (L "skip") [EFile (L "y.cpp") false];
             EFile (L "z.cpp") false; EFile (L "gen.cpp") false; EFile (L "a.h") false] in
  tree posix es /\ list_dir posix o (L "/d/") (Some es) = Some ([(L "/d/sub/x.cpp", true); (L "/d/z.cpp", false)], []).
Proof.
  cbv zeta. split; [|vm_compute; reflexivity]. split.
  - repeat apply Forall_cons; try apply Forall_nil; repeat (first [apply proper_file|apply proper_dir|apply Forall_cons|apply Forall_nil|ok_name|apply NoDup_cons|apply NoDup_nil|cbn; intuition discriminate]).
  - cbn. repeat (apply NoDup_cons; [cbn; intuition discriminate|]). apply NoDup_nil.
Qed.

(** Finding: a directory like "..data" is taken for the parent: what it holds is not listed. *)
Theorem C73_dots_refuted : ~ (forall p path es f n ro way, tree p es -> holds p path es f n ro way -> exists l, list_dir p (mkO [] [] [] [] true false false) path (Some es) = Some l /\ In (f, ro) (fst l)).
Proof.
  intros H. destruct (H posix (L "/d/") [EDir (L "..data") [EFile (L "x") false]] (L "/d/..data/x") (L "x") false [(L "..data", L "/d/..data/")]) as (l&E&I).
  - split; [|cbn; apply NoDup_cons; [intros []|apply NoDup_nil]]. apply Forall_cons; [|apply Forall_nil]. apply proper_dir; [ok_name| |cbn; apply NoDup_cons; [intros []|apply NoDup_nil]].
    apply Forall_cons; [|apply Forall_nil]. apply proper_file. ok_name.
  - apply (holds_below posix (L "/d/") _ (L "..data") [EFile (L "x") false]); [now left|]. apply (holds_here posix (L "/d/..data/")). now left.
  - vm_compute in E. injection E as <-. destruct I.
Qed.
Print Assumptions C73_dots_refuted.

(** * Stamps *)
(** Two listings of a directory have different stamps when a file or directory was added, removed or renamed, or, if asked
    for, made read-only or writable: unless the hash collides, or the full path of the directory occurs again in what
    it holds. *)
Definition stamp_item (o : opts) (f : str * bool) : str := fst f ++ if hash_read_only o then [if snd f then ascii_of_nat 1 else nul] else [].
Lemma stamp_text_concat o l : stamp_text o l = concat (map (stamp_item o) (fst l) ++ snd l).
Proof. unfold stamp_text. rewrite concat_app. f_equal. now rewrite flat_map_concat_map. Qed.
Lemma clear_byte path r b : path <> [] -> ~ In b path -> clear_of path r -> clear_of path (r ++ [b]).
Proof.
  intros NP NB C x y E. rewrite <- app_assoc in E. cbn [app] in E. assert (LEN := f_equal (@List.length _) E). rewrite !app_length in LEN. cbn in LEN.
  destruct (Nat.le_gt_cases (List.length x) (List.length r)) as [LX|LX]; [|destruct y; [reflexivity|cbn in LEN; lia]].
  exfalso. symmetry in E. apply app_split in E as (e&->&E); [|exact LX].
  destruct (Nat.le_gt_cases (List.length path) (List.length e)) as [LE|LT].
  - apply app_split in E as (g&->&_); [|exact LE]. assert (X : (x ++ path ++ g) ++ path = x ++ path ++ (g ++ path)) by (now rewrite <- !app_assoc). apply C in X.
    apply app_eq_nil in X as [_ X]. contradiction.
  - symmetry in E. apply app_split in E as (g&E1&E2); [|lia]. destruct g as [|c g]; [rewrite app_nil_r in E1; subst; lia|]. injection E2 as <- _. apply NB. rewrite E1. apply in_or_app. right. now left.
Qed.
Lemma parts_split (A : str -> Prop) l : forall l' m m', Forall A l -> Forall A l' -> Forall (fun s => ~ A s) m -> Forall (fun s => ~ A s) m' -> l ++ m = l' ++ m' -> l = l' /\ m = m'.
Proof.
  induction l as [|a l IH]; intros [|b l'] m m' F F' G G' E; cbn in E.
  - auto.
  - subst m. inversion F'; inversion G; subst; contradiction.
  - subst m'. inversion F; inversion G'; subst; contradiction.
  - injection E as <- E. inversion F; inversion F'; subst. destruct (IH l' m m') as [-> ->]; auto.
Qed.
Lemma holds_name p path es f n ro w : Forall (proper p) es -> holds p path es f n ro w -> exists d r, f = path ++ r /\ f = d ++ n /\ name_ok p n.
Proof.
  intros FA H. induction H as [path es n ro I|path es d es' f n ro w I H IH]; rewrite Forall_forall in FA.
  - exists path, n. split; [reflexivity|]. split; [reflexivity|]. apply (proper_name p _ (FA _ I)).
  - pose proof (FA _ I) as Q. inversion Q as [|? ? ? FA' _]; subst. destruct (IH FA') as (d'&r&E1&E2&N). exists d', ((d ++ [native p]) ++ r). split; [now rewrite E1, <- !app_assoc|auto].
Qed.
Lemma holds_dir_name p path es f n w : Forall (proper p) es -> holds_dir p path es f n w -> exists r, f = path ++ r /\ r <> [] /\ exists d, f = d ++ [native p].
Proof.
  intros FA H. induction H as [path es n sub I|path es d es' f n w I H IH]; rewrite Forall_forall in FA.
  - exists (n ++ [native p]). split; [reflexivity|]. split; [now destruct n|]. exists (path ++ n). now rewrite <- app_assoc.
  - pose proof (FA _ I) as Q. inversion Q as [|? ? ? FA' _]; subst. destruct (IH FA') as (r&E&NR&d'&E'). exists ((d ++ [native p]) ++ r). split; [now rewrite E, <- !app_assoc|]. split; [now destruct d, r|eauto].
Qed.
Lemma last_snoc (s : str) c d : last (s ++ [c]) d = c.
Proof. now rewrite last_last. Qed.

Theorem C74_stamp : forall p hash o path es es' l l', tree p es -> tree p es' -> path <> [] -> ~ In nul path -> ~ In (ascii_of_nat 1) path -> native p <> ascii_of_nat 1 -> native p <> nul ->
  list_dir p o path (Some es) = Some l -> list_dir p o path (Some es') = Some l' ->
  (forall x r, In x (map fst (fst l) ++ snd l ++ map fst (fst l') ++ snd l') -> x = path ++ r -> clear_of path r) ->
  (hash (stamp_text o l) = hash (stamp_text o l') -> stamp_text o l = stamp_text o l') -> hash (stamp_text o l) <> 1%N -> hash (stamp_text o l') <> 1%N ->
  stamp hash o l = stamp hash o l' ->
  map fst (fst l) = map fst (fst l') /\ snd l = snd l' /\ (hash_read_only o = true -> l = l').
Proof.
  intros p hash o path es es' l l' T T' NP NN N1 P1 P0 EL EL' CL INJ H1 H1' ES.
  destruct (C73_listing p o path es T) as (fs&ds&E&F&D&_). rewrite E in EL. injection EL as <-. destruct (C73_listing p o path es' T') as (fs'&ds'&E'&F'&D'&_). rewrite E' in EL'. injection EL' as <-. cbn [fst snd] in *.
  destruct T as [FA _], T' as [FA' _].
  assert (TX : stamp_text o (fs, ds) = stamp_text o (fs', ds')).
  { unfold stamp in ES. destruct fs as [|a fs], ds as [|b ds], fs' as [|a' fs'], ds' as [|b' ds']; try congruence; auto. }
  rewrite !stamp_text_concat in TX. cbn [fst snd] in TX.
  assert (IT : forall es fs, Forall (proper p) es -> (forall f ro, In (f, ro) fs -> exists n w, holds p path es f n ro w) -> (forall x r, In x (map fst fs) -> x = path ++ r -> clear_of path r) ->
    Forall (item path) (map (stamp_item o) fs) /\ Forall (fun s => last s nul <> native p) (map (stamp_item o) fs)).
  { clear - NP NN N1 P1 P0. intros es fs FA H C. rewrite !Forall_forall. split; intros x I; apply in_map_iff in I as ([f ro]&<-&I); destruct (H f ro I) as (n&w&HO); destruct (holds_name p path es f n ro w FA HO) as (d&r&E1&E2&N); unfold stamp_item; cbn [fst snd].
    - assert (CR : clear_of path r) by (apply (C f r); [apply in_map_iff; now exists (f, ro)|exact E1]). subst f. destruct (hash_read_only o).
      + exists (r ++ [if ro then ascii_of_nat 1 else nul]). split; [now rewrite <- app_assoc|]. apply clear_byte; auto. now destruct ro.
      + exists r. split; [now rewrite app_nil_r|exact CR].
    - destruct (hash_read_only o); [rewrite last_snoc; destruct ro; congruence|]. rewrite app_nil_r, E2. destruct N as (NE&_&NI). destruct (exists_last NE) as (n'&c&->). rewrite app_assoc, last_snoc. intros ->. apply NI, in_or_app. right. now left. }
  assert (IU : forall es ds, Forall (proper p) es -> (forall d, In d ds -> exists n w, holds_dir p path es d n w) -> (forall x r, In x ds -> x = path ++ r -> clear_of path r) ->
    Forall (item path) ds /\ Forall (fun s => ~ last s nul <> native p) ds).
  { clear. intros es ds FA H C. rewrite !Forall_forall. split; intros x I; destruct (H x I) as (n&w&HO); destruct (holds_dir_name p path es x n w FA HO) as (r&E1&NR&d&E2).
    - exists r. split; [exact E1|]. now apply (C x).
    - intros Q. apply Q. rewrite E2. apply last_snoc. }
  destruct (IT es fs FA) as [A1 A2]; [intros f ro I; apply F in I as (n&w&H&_); eauto|intros x r I; apply CL, in_or_app; now left|].
  destruct (IT es' fs' FA') as [A1' A2']; [intros f ro I; apply F' in I as (n&w&H&_); eauto|intros x r I; apply CL; rewrite !in_app_iff; auto|].
  destruct (IU es ds FA) as [B1 B2]; [intros d I; apply D in I as (_&n&w&H&_); eauto|intros x r I; apply CL; rewrite !in_app_iff; auto|].
  destruct (IU es' ds' FA') as [B1' B2']; [intros d I; apply D' in I as (_&n&w&H&_); eauto|intros x r I; apply CL; rewrite !in_app_iff; auto|].
  apply (items_inj path NP) in TX; [|apply Forall_app; auto|apply Forall_app; auto].
  apply (parts_split (fun s => last s nul <> native p)) in TX as [TF ->]; auto.
  assert (Z : map fst fs = map fst fs' /\ (hash_read_only o = true -> fs = fs')).
  { clear - TF. revert fs' TF. induction fs as [|[f ro] fs IH]; intros [|[f' ro'] fs'] E; cbn in E; try discriminate; [auto|]. injection E as E1 E2. destruct (IH fs' E2) as [X Y]. unfold stamp_item in E1. cbn [fst snd] in E1.
    destruct (hash_read_only o).
    - apply app_inj_tail in E1 as [-> Q]. split; [cbn; now rewrite X|]. intros _. rewrite Y by reflexivity. f_equal. f_equal. destruct ro, ro'; (reflexivity || discriminate Q).
    - rewrite !app_nil_r in E1. subst f'. split; [cbn; now rewrite X|discriminate]. }
  destruct Z as [Z1 Z2]. split; [exact Z1|]. split; [reflexivity|]. intros R. now rewrite (Z2 R).
Qed.
Print Assumptions C74_stamp.

(** Nothing else goes into it: two equal listings have equal stamps, whatever the trees are like. *)
Theorem C74_stable : forall p hash o path es es' l, tree p es -> tree p es' -> 
  (forall f n ro way, holds p path es f n ro way <-> holds p path es' f n ro way) ->
  (forall d n way, holds_dir p path es d n way <-> holds_dir p path es' d n way) ->
  list_dir p o path (Some es) = Some l -> exists l', list_dir p o path (Some es') = Some l' /\ stamp hash o l' = stamp hash o l.
Proof. intros p hash o path es es' l T T' HF HD E. exists l. split; [|reflexivity]. rewrite <- E. symmetry. now apply C73_any_order. Qed.
Print Assumptions C74_stable.

Example C74_case :
  let o := mkO [] [] [] [] true false true in
  let es := [EFile (L "a") false; EFile (L "b") true] in let es' := [EFile (L "a") false; EFile (L "b") false] in
  list_dir posix o (L "/d/") (Some es) = Some ([(L "/d/a", false); (L "/d/b", true)], []) /\
  stamp_text o ([(L "/d/a", false); (L "/d/b", true)], []) = L "/d/a" ++ [nul] ++ L "/d/b" ++ [ascii_of_nat 1] /\
  stamp_text o ([(L "/d/a", false); (L "/d/b", true)], []) <> stamp_text o ([(L "/d/a", false); (L "/d/b", false)], []) /\
  clear_of (L "/d/") (L "a").
Proof.
  cbv zeta. split; [vm_compute; reflexivity|]. split; [reflexivity|]. split; [discriminate|].
  intros a b E. destruct a as [|c a]; [discriminate|]. injection E as <- E. destruct a as [|c a]; [now injection E as <-|]. exfalso. injection E as <- E. destruct a as [|c a]; [discriminate|]. injection E as <- E. destruct a as [|c a]; [discriminate|]. injection E as <- E. now destruct a.
Qed.

(** Finding: the names are hashed one after the other with nothing between them.  With the files a and b, the stamp is that of
    the one file d/b in the directory a, whatever the hash is. *)
Theorem C74_joined_refuted : ~ (forall p hash o path es es' l l', tree p es -> tree p es' -> list_dir p o path (Some es) = Some l -> list_dir p o path (Some es') = Some l' ->
  (hash (stamp_text o l) = hash (stamp_text o l') -> stamp_text o l = stamp_text o l') -> stamp hash o l = stamp hash o l' -> l = l').
Proof.
  intros H. assert (Q := H posix (fun _ => 5%N) (mkO [] [] [] [] true false false) (L "/d/") [EFile (L "a") false; EFile (L "b") false] [EDir (L "a") [EDir (L "d") [EFile (L "b") false]]]
    ([(L "/d/a", false); (L "/d/b", false)], []) ([(L "/d/a/d/b", false)], [])). discriminate Q; clear Q H.
  - split; [|cbn; repeat (apply NoDup_cons; [cbn; intuition discriminate|]); apply NoDup_nil]. repeat (apply Forall_cons; [apply proper_file; ok_name|]). apply Forall_nil.
  - split; [|cbn; repeat (apply NoDup_cons; [cbn; intuition discriminate|]); apply NoDup_nil].
    repeat (first [apply Forall_cons|apply Forall_nil|apply proper_dir|apply proper_file|ok_name|cbn; apply NoDup_cons; [intros []|apply NoDup_nil]]).
  - vm_compute. reflexivity.
  - vm_compute. reflexivity.
  - intros _. reflexivity.
  - reflexivity.
Qed.
Print Assumptions C74_joined_refuted.

(** * RemoveDir *)
(** Whatever the settings and the state of the disk: only listed files are deleted, only listed directories or, if asked for,
    the root, and these only once they are empty; and after success nothing that was listed is left. *)
Theorem C75_only_listed : forall dirs root path l k, exists k' ok, remove_one dirs root path l k = (k', ok) /\
  (forall f, In f (ffiles k') -> In f (ffiles k)) /\ (forall d, In d (fdirs k') -> In d (fdirs k)) /\
  (forall f, In f (ffiles k) -> ~ In f (ffiles k') -> In f (map fst (fst l))) /\
  (forall d, In d (fdirs k) -> ~ In d (fdirs k') -> dirs = true /\ (In d (snd l) \/ root = true /\ d = path) /\ bare d k') /\
  (ok = true -> (forall f, In f (map fst (fst l)) -> ~ In f (ffiles k')) /\ (dirs = true -> (forall d, In d (snd l) -> ~ In d (fdirs k')) /\ (root = true -> ~ In path (fdirs k')))).
Proof. exact remove_lost. Qed.
Print Assumptions C75_only_listed.

(** When every file of the tree is listed and every directory entered, all goes, in one go: everything in the directory, and
    the directory itself if asked for; all else stays. *)
Theorem C75_all : forall p o path es k root l, tree p es -> has p k path es -> include_dirs o = true -> list_dir p o path (Some es) = Some l ->
  (forall f n ro way, holds p path es f n ro way -> open_to p o way /\ shows p o f n) ->
  (forall d n way, holds_dir p path es d n way -> open_to p o way /\ ~ dotted n) ->
  exists k', remove_one true root path l k = (k', true) /\
    (forall f, In f (ffiles k') <-> In f (ffiles k) /\ forall r, f <> path ++ r) /\
    (forall d, In d (fdirs k') <-> In d (fdirs k) /\ (forall r, d = path ++ r -> r = []) /\ (d = path -> root = false)).
Proof.
  intros p o path es k root l T (HP&HF&HD) ID EL AF AD. destruct (list_spec p o path es T) as (fs0&ds0&E&_&_&S1&_). destruct (C73_listing p o path es T) as (fs&ds&E'&F&D&_&S2).
  rewrite E in E'. injection E' as -> ->. rewrite E in EL. injection EL as <-. destruct T as [FA ND].
  assert (F1 : forall f, In f (map fst fs) <-> In f (ffiles k) /\ exists r, f = path ++ r).
  { intros f. rewrite in_map_iff. split.
    - intros ([f' ro]&<-&I). cbn [fst]. apply F in I as (n&w&H&_). destruct (holds_name p path es f' n ro w FA H) as (d&r&->&_). split; [apply HF; eauto|eauto].
    - intros (I&r&->). apply HF in I as (n&ro&w&H). exists (path ++ r, ro). split; [reflexivity|]. apply F. destruct (AF _ _ _ _ H). exists n, w. auto. }
  assert (D1 : forall d, In d ds <-> In d (fdirs k) /\ exists r, r <> [] /\ d = path ++ r).
  { intros d. split.
    - intros I. apply D in I as (_&n&w&H&_). destruct (holds_dir_name p path es d n w FA H) as (r&->&NR&_). split; [apply HD; eauto|eauto].
    - intros (I&r&NR&->). apply HD in I as (n&w&H); [|exact NR]. apply D. split; [exact ID|]. destruct (AD _ _ _ H). exists n, w. auto. }
  unfold remove_one. cbn [fst snd andb].
  destruct (unlink_all (map fst fs) k) as (k1&b1&E1&D1'&A1&B1&C1). destruct (unlink_ok (map fst fs) k) as (k1'&E1'); [|intros f I; now apply F1|].
  { clear - S1. induction S1 as [|a l S IH FL]; cbn; constructor; [|exact IH]. intros I. apply in_map_iff in I as (b&EB&I). rewrite Forall_forall in FL. specialize (FL b I). unfold by_name in FL. rewrite EB in FL. now apply before_irrefl in FL. }
  rewrite E1' in E1. injection E1 as <- <-. rewrite E1'. specialize (C1 eq_refl).
  assert (NF : forall r, ~ In (path ++ r) (ffiles k1')) by (intros r I; apply (C1 (path ++ r)); [apply F1; split; [auto|eauto]|exact I]).
  destruct (rmdir_all (rev ds) k1') as (k2&b2&E2&F2&A2&B2&C2).
  destruct (rmdir_chain ds S2 k1') as (k2'&E2').
  { intros d I. rewrite D1'. now apply D1. }
  { intros d r I _. apply D1 in I as (_&q&_&->). rewrite <- app_assoc. apply NF. }
  { intros d r I NR J. apply D1. rewrite <- D1'. split; [exact J|]. apply D1 in I as (_&q&NQ&->). exists (q ++ r). split; [now destruct q|]. now rewrite app_assoc. }
  rewrite E2' in E2. injection E2 as <- <-. rewrite E2'. specialize (C2 eq_refl). setoid_rewrite <- in_rev in C2. setoid_rewrite <- in_rev in B2.
  assert (D2 : forall d, In d (fdirs k2') <-> In d (fdirs k) /\ forall r, d = path ++ r -> r = []).
  { intros d. split.
    - intros I. split; [rewrite <- D1'; auto|]. intros r ->. destruct r as [|c r]; [reflexivity|]. destruct (C2 (path ++ c :: r)); [|exact I]. apply D1. split; [rewrite <- D1'; auto|]. exists (c :: r). split; [discriminate|reflexivity].
    - intros [I NR]. destruct (in_dec (list_eq_dec ascii_dec) d (fdirs k2')) as [J|J]; [exact J|]. rewrite <- D1' in I. destruct (B2 d I J) as [X _]. apply D1 in X as (_&r&Q&->). destruct Q. now apply NR. }
  assert (F3 : forall f, In f (ffiles k1') <-> In f (ffiles k) /\ forall r, f <> path ++ r).
  { intros f. split; [intros I; split; [auto|]; intros r ->; now apply NF in I|]. intros [I N]. apply B1; [exact I|]. intros J. apply F1 in J as (_&r&->). now apply (N r). }
  destruct root; cbn [andb].
  - assert (IP : In path (fdirs k2')) by (apply D2; split; [exact HP|]; intros r ER; rewrite <- (app_nil_r path) in ER at 1; now apply app_inv_head in ER).
    assert (EX : existsb (same path) (fdirs k2') = true) by now apply in_existsb. rewrite EX.
    assert (RM : rmdir path k2' = Some (mkD (ffiles k2') (without path (fdirs k2')))).
    { apply rmdir_iff. split; [exact IP|]. split; [|reflexivity]. intros r NR. split; [rewrite F2; apply NF|]. intros J. apply D2 in J as [_ J]. now specialize (J r eq_refl). }
    rewrite RM. eexists. split; [reflexivity|]. cbn [ffiles fdirs]. split; [intros f; rewrite F2; apply F3|]. intros d. rewrite without_iff, D2. split; [intros ([X Y]&N); split; [exact X|]; split; [exact Y|congruence]|].
    intros (X&Y&Z). split; [auto|]. intros Q. now apply Z in Q.
  - exists k2'. split; [reflexivity|]. split; [intros f; rewrite F2; apply F3|]. intros d. rewrite D2. split; [intros [X Y]; auto|]. intros (X&Y&_). auto.
Qed.
Print Assumptions C75_all.

(** So it is with the settings that hold when nothing is said: the pattern "*", no exclusions, recursive. *)
Theorem C75_plain : forall p path es k root l, tree p es -> has p k path es -> list_dir p (mkO [L "*"] [] [] [] true true false) path (Some es) = Some l ->
  (forall d n way, holds_dir p path es d n way -> ~ dotted n) ->
  exists k', remove_one true root path l k = (k', true) /\
    (forall f, In f (ffiles k') <-> In f (ffiles k) /\ forall r, f <> path ++ r) /\
    (forall d, In d (fdirs k') <-> In d (fdirs k) /\ (forall r, d = path ++ r -> r = []) /\ (d = path -> root = false)).
Proof.
  intros p path es k root l T H E ND. set (o := mkO _ _ _ _ _ _ _) in *.
  assert (OD : forall d n w, holds_dir p path es d n w -> open_to p o w).
  { intros d n w HD. clear - ND HD. 
    assert (W : forall path es d n w, holds_dir p path es d n w -> (forall d n way, holds_dir p path es d n way -> ~ dotted n) -> open_to p o w).
    { clear. intros path es d n w HD. induction HD as [path es n sub I|path es d es' f n w I H IH]; intros ND; [intros ? ? []|]. apply open_cons. split.
      - split; [reflexivity|]. split; [|intros ? []]. apply (ND (path ++ d ++ [native p]) d []). now apply holds_dir_here with es'.
      - apply IH. intros d' n' w' H'. apply (ND d' n' ((d, path ++ d ++ [native p]) :: w')). now apply holds_dir_below with es'. }
    now apply (W path es d n w). }
  apply (C75_all p o path es k root l T H eq_refl E).
  - intros f n ro w HF. split.
    + clear - ND HF. assert (W : forall path es f n ro w, holds p path es f n ro w -> (forall d n way, holds_dir p path es d n way -> ~ dotted n) -> open_to p o w).
      { clear. intros path es d n ro w HD. induction HD as [path es n ro I|path es d es' f n ro w I H IH]; intros ND; [intros ? ? []|]. apply open_cons. split.
        - split; [reflexivity|]. split; [|intros ? []]. apply (ND (path ++ d ++ [native p]) d []). now apply holds_dir_here with es'.
        - apply IH. intros d' n' w' H'. apply (ND d' n' ((d, path ++ d ++ [native p]) :: w')). now apply holds_dir_below with es'. }
      now apply (W path es f n ro w).
    + split; [right; exists (L "*"); split; [now left|]|split; intros ? []]. clear. unfold fits. rewrite <- (app_nil_r n). apply (glob_star _ n [] []). apply glob_end.
  - intros d n w HD. split; [now apply (OD d n)|now apply (ND d n w)].
Qed.
Print Assumptions C75_plain.

(** Several directories, none inside another: all that is in each of them goes. *)
Theorem C75_many : forall p o root ts k, include_dirs o = true ->
  (forall path es l, In (path, es, l) ts -> tree p es /\ has p k path es /\ list_dir p o path (Some es) = Some l /\
     (forall f n ro way, holds p path es f n ro way -> open_to p o way /\ shows p o f n) /\ (forall d n way, holds_dir p path es d n way -> open_to p o way /\ ~ dotted n)) ->
  ForallOrdPairs (fun a b => (forall r r', fst (fst a) ++ r <> fst (fst b) ++ r')) ts ->
  exists k', remove_all true root (map (fun t => (fst (fst t), snd t)) ts) k = (k', true) /\
    (forall f, In f (ffiles k') <-> In f (ffiles k) /\ forall path es l r, In (path, es, l) ts -> f <> path ++ r) /\
    (forall d, In d (fdirs k') <-> In d (fdirs k) /\ forall path es l, In (path, es, l) ts -> (forall r, d = path ++ r -> r = []) /\ (d = path -> root = false)).
Proof.
  intros p o root ts k ID H OP. revert k H. induction OP as [|[[path es] l] ts FA OP IH]; intros k H.
  { exists k. split; [reflexivity|]. split; intros x; split; intros I; try tauto; split; auto; intros; contradiction. }
  destruct (H path es l (or_introl eq_refl)) as (T&HS&E&AF&AD). destruct (C75_all p o path es k root l T HS ID E AF AD) as (k1&E1&F1&D1).
  rewrite Forall_forall in FA. cbn [map fst snd remove_all]. rewrite E1. destruct (IH k1) as (k'&E'&F'&D').
  - intros path' es' l' I. destruct (H path' es' l' (or_intror I)) as (T'&(X&Y&Z)&R). split; [exact T'|]. split; [|exact R].
    assert (NQ : forall r r', path' ++ r' <> path ++ r) by (intros r r' Q; apply (FA _ I r r'); cbn; auto).
    split; [|split].
    + apply D1. split; [exact X|]. split; [intros r Q; rewrite <- (app_nil_r path') in Q; now apply NQ in Q|]. intros Q. rewrite <- (app_nil_r path'), <- (app_nil_r path) in Q. now apply NQ in Q.
    + intros r. rewrite <- Y, F1. split; [tauto|]. intros J. split; [exact J|]. intros r'. apply NQ.
    + intros r NR. rewrite <- Z by exact NR. rewrite D1. split; [tauto|]. intros J. split; [exact J|]. split; [intros r' Q; now apply NQ in Q|]. intros Q. rewrite <- (app_nil_r path) in Q. now apply NQ in Q.
  - exists k'. split; [exact E'|]. split.
    + intros f. rewrite F', F1. split.
      * intros [[X Y] Z]. split; [exact X|]. intros q e m r [Q|I]; [injection Q as <- <- <-; apply Y|now apply (Z q e m)].
      * intros [X Y]. split; [split; [exact X|]; intros r; apply (Y path es l); now left|]. intros q e m r I. apply (Y q e m). now right.
    + intros d. rewrite D', D1. split.
      * intros [[X Y] Z]. split; [exact X|]. intros q e m [Q|I]; [injection Q as <- <- <-; exact Y|now apply (Z q e m)].
      * intros [X Y]. split; [split; [exact X|]; apply (Y path es l); now left|]. intros q e m I. apply (Y q e m). now right.
Qed.
Print Assumptions C75_many.

Definition plain_o : opts := mkO [L "*"] [] [] [] true true false.
Example C75_case :
  let es := [EFile (L "a") false; EDir (L "e") [EFile (L "b") false; EDir (L "g") []]] in
  let k := mkD [L "/d/a"; L "/d/e/b"; L "/x"] [L "/"; L "/d/"; L "/d/e/"; L "/d/e/g/"] in
  list_dir posix plain_o (L "/d/") (Some es) = Some ([(L "/d/a", false); (L "/d/e/b", false)], [L "/d/e/"; L "/d/e/g/"]) /\
  remove_one true true (L "/d/") ([(L "/d/a", false); (L "/d/e/b", false)], [L "/d/e/"; L "/d/e/g/"]) k = (mkD [L "/x"] [L "/"], true).
Proof. cbv zeta. split; vm_compute; reflexivity. Qed.

(** Findings.  A directory named in .RemoveExcludePaths is deleted all the same when it is empty; *)
Theorem C75_excluded_refuted : ~ (forall p o path es l k k' ok d, tree p es -> has p k path es -> list_dir p o path (Some es) = Some l -> In d (excl_paths o) ->
  remove_one true false path l k = (k', ok) -> In d (fdirs k) -> In d (fdirs k')).
Proof.
  intros H. assert (Q := H posix (mkO [L "*"] [L "/d/e/"] [] [] true true false) (L "/d/") [EDir (L "e") []] ([], [L "/d/e/"]) (mkD [] [L "/d/"; L "/d/e/"]) (mkD [] [L "/d/"]) true (L "/d/e/")). destruct Q as [Q|[]]; try discriminate Q.
  - split; [|cbn; apply NoDup_cons; [intros []|apply NoDup_nil]]. apply Forall_cons; [|apply Forall_nil]. apply proper_dir; [ok_name|apply Forall_nil|apply NoDup_nil].
  - split; [now left|]. split.
    + intros r. split; [intros []|]. intros (n&ro&w&HO). inversion HO as [? ? ? ? I|? ? ? ? ? ? ? ? I HI]; subst; destruct I as [I|[]]; [discriminate I|]. injection I as <- <-. inversion HI; subst; match goal with J : In _ [] |- _ => destruct J end.
    + intros r NR. cbn [fdirs]. split.
      * intros [I|[I|[]]]; [exfalso; apply NR; injection I as I; now symmetry|]. exists (L "e"), []. rewrite <- I. apply (holds_dir_here posix (L "/d/") _ (L "e") []). now left.
      * intros (n&w&HO). inversion HO as [? ? ? ? I E1|? ? ? ? ? ? ? I HI]; subst; destruct I as [I|[]]; injection I as <- <-; [right; left; first [congruence|cbn in *; congruence]|]. inversion HI; subst; match goal with J : In _ [] |- _ => destruct J end.
  - vm_compute. reflexivity.
  - now left.
  - vm_compute. reflexivity.
  - right. now left.
Qed.
Print Assumptions C75_excluded_refuted.

(** and when it is not, the build fails; so it does when sub-directories are not searched, and when one of the
    directories to remove is inside another: *)
Theorem C75_fails_refuted :
  (let o := mkO [L "*"] [L "/d/e/"] [] [] true true false in
   let es := [EFile (L "a") false; EDir (L "e") [EFile (L "b") false]] in
   exists l, list_dir posix o (L "/d/") (Some es) = Some l /\
     remove_one true false (L "/d/") l (mkD [L "/d/a"; L "/d/e/b"] [L "/d/"; L "/d/e/"]) = (mkD [L "/d/e/b"] [L "/d/"; L "/d/e/"], false)) /\
  (let o := mkO [L "*"] [] [] [] false true false in
   let es := [EDir (L "e") [EFile (L "b") false]] in
   exists l, list_dir posix o (L "/d/") (Some es) = Some l /\ snd (remove_one true false (L "/d/") l (mkD [L "/d/e/b"] [L "/d/"; L "/d/e/"])) = false) /\
  (let es := [EDir (L "e") [EFile (L "b") false]] in
   exists l l', list_dir posix plain_o (L "/d/") (Some es) = Some l /\ list_dir posix plain_o (L "/d/e/") (Some [EFile (L "b") false]) = Some l' /\
     remove_all true false [(L "/d/", l); (L "/d/e/", l')] (mkD [L "/d/e/b"] [L "/d/"; L "/d/e/"]) = (mkD [] [L "/d/"], false)).
Proof. cbv zeta. split; [|split]; repeat eexists; vm_compute; reflexivity. Qed.
Print Assumptions C75_fails_refuted.
