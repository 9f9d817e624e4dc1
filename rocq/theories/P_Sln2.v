(** Proofs about whole solutions for Visual Studio. *)
From Coq Require Import String Ascii List Arith Bool NArith Lia Permutation Sorted.
From Verif Require Import M_Path M_Names M_Sort M_Dir M_Drv M_Xcode S_Sort S_Dir P_Sort P_Dir2 P_Xcode P_Drv P_Vcx P_Vcx2 T_Path M_Vcx S_Vcx M_Sln S_Sln P_Sln.
Import ListNotations.
Local Open Scope list_scope.

Lemma each_ok {A B} (f : A -> option B) (l : list A) : (forall x, In x l -> exists y, f x = Some y) -> exists r, each f l = Some r /\ Forall2 (fun x y => f x = Some y) l r.
Proof.
  induction l as [|x l IH]; intros H; [exists []; split; [easy|constructor]|]. destruct (H x (or_introl eq_refl)) as (y&E). destruct IH as (r&E1&F); [intros z I; apply H; now right|].
  exists (y :: r). cbn [each]. rewrite E, E1. split; [easy|now constructor].
Qed.
Lemma forall2_map {A B} (f : A -> B) l : Forall2 (fun x y => y = f x) l (map f l).
Proof. induction l; constructor; auto. Qed.
Lemma forall2_weaken {A B} (P Q : A -> B -> Prop) l r : (forall x y, In x l -> P x y -> Q x y) -> Forall2 P l r -> Forall2 Q l r.
Proof. intros H F. induction F as [|x y l r HP F IH]; constructor; [apply H; [now left|exact HP]|]. apply IH. intros a b I. apply H. now right. Qed.

Section S.
Context (p : plat) (find : str -> option node) (rel : str -> str) (crc : str -> N).
Definition holds_items (f : str) (x : sfolder) : bool := teq (lower f) (lower (path x)) && negb (match items x with [] => true | _ => false end).
Lemma sections_ok f fs : exists t, sections p rel f fs = Some t /\
  Forall2 (fun x l => exists s, Permutation (items x) s /\ S_Sort.ordered less s /\ l = map (shown_item p rel) s) (filter (holds_items f) fs) t.
Proof.
  induction fs as [|x fs (t&E&F)]; [exists []; split; [easy|constructor]|]. cbn [sections filter]. rewrite E. fold (holds_items f x). destruct (holds_items f x); [|now exists t].
  destruct (shell_sort_spec less (items x)) as (s&ES&PS&OS). rewrite ES. eexists. split; [reflexivity|]. constructor; [|exact F]. exists s. split; [exact PS|]. split; [apply OS, less_weak|easy].
Qed.

Lemma solve_is s : unique find -> (forall n, mentions s n -> find n <> None) -> exists qs ps fl,
  let fs := collapse (sfolders s) in
  StronglySorted (fun a b => before (pname a) (pname b)) qs /\ (forall q, In q qs <-> member find s q) /\
  StronglySorted before ps /\ (forall a, In a ps <-> folder_of s a) /\
  Forall2 (fun a l => list_folder p rel crc fs a = Some l) ps fl /\
  solve p find rel crc s = Some (Output (map (list_project p rel s qs) qs) fl (flat_map (config_lines (configs s)) qs)
                                        (flat_map (project_to_folder p crc fs) qs ++ flat_map (parent_of p crc) ps)).
Proof.
  intros U H. set (fs := collapse (sfolders s)).
  destruct (gather_ok find U (mentioned s fs) []) as (g&E1&N1&I1); [intros n I; apply H, mentioned_iff, I|intros q []|constructor|].
  destruct (shell_sort_spec node_less g) as (qs&E2&P2&O2). destruct (shell_sort_spec less (folder_paths fs)) as (ps&E3&P3&O3). specialize (O3 less_weak).
  destruct (folder_paths_ok fs) as (N3&I3).
  destruct (each_ok (list_folder p rel crc fs) ps) as (fl&E4&F4).
  { intros a _. unfold list_folder. destruct (sections_ok a fs) as (t&E&_). rewrite E. eexists. reflexivity. }
  exists qs, ps, fl. cbn zeta. fold fs. split; [|split; [|split; [|split; [|split]]]].
  - apply (ordered_strong pname); [apply O2; destruct less_weak as [A B C]; split; unfold node_less; [intros x; apply A|intros x y z; apply B|intros x y z; apply C]|]. apply (Permutation_NoDup (Permutation_map pname P2)), N1.
  - intros q. split.
    + intros I. apply (Permutation_in _ (Permutation_sym P2)), I1 in I. destruct I as [[]|(n&I&E)]. exists n. split; [now apply mentioned_iff|exact E].
    + intros (n&I&E). apply (Permutation_in _ P2), I1. right. exists n. split; [now apply mentioned_iff|exact E].
  - apply (ordered_strong (fun x => x)); [exact O3|]. rewrite map_id. apply (Permutation_NoDup P3), N3.
  - intros a. split.
    + intros I. apply (Permutation_in _ (Permutation_sym P3)), I3 in I. destruct I as (x&I&W). destruct (collapse_path _ _ I) as (g'&J&E). exists g', (path x). split; [exact J|]. split; [apply canonical_iff; now symmetry|exact W].
    + intros (g'&c&I&F&W). apply canonical_iff in F. destruct (path_collapse _ _ I) as (x&J&E). apply (Permutation_in _ P3), I3. exists x. split; [exact J|]. rewrite E, <- F. exact W.
  - exact F4.
  - unfold solve. fold fs. now rewrite E1, E2, E3, E4.
Qed.
Lemma solve_none s n : mentions s n -> find n = None -> solve p find rel crc s = None.
Proof. intros M E. unfold solve. rewrite (gather_none find _ [] n); [easy|now apply mentioned_iff|exact E]. Qed.

Lemma to_folder_iff s q x y : In (x, y) (project_to_folder p crc (collapse (sfolders s)) q) <-> exists c, put_in s q c /\ x = upper (pguid q) /\ y = folder_guid p crc c.
Proof.
  unfold project_to_folder. rewrite in_flat_map. split.
  - intros (f&I&J). destruct (names (holds f) (pname q)) eqn:N; [|destruct J]. destruct J as [J|[]]. injection J as <- <-. apply names_iff in N. apply (collapse_holds _ _ _ I) in N. destruct N as (g&G1&G2&G3).
    exists (path f). split; [|easy]. exists g. split; [exact G1|]. split; [apply canonical_iff; now symmetry|exact G3].
  - intros (c&(g&G1&G2&G3)&->&->). apply canonical_iff in G2. destruct (path_collapse _ _ G1) as (f&J&E). exists f. split; [exact J|].
    assert (N : names (holds f) (pname q) = true) by (apply names_iff, (collapse_holds _ _ _ J); exists g; repeat split; [exact G1|now symmetry|exact G3]). rewrite N. left. now rewrite E, G2.
Qed.
Lemma parent_iff f x y : native p = "\"%char -> In (x, y) (parent_of p crc f) <-> exists b, around b f /\ x = folder_guid p crc f /\ y = folder_guid p crc b.
Proof.
  intros W. unfold parent_of. rewrite W. change "\"%char with back. split.
  - destruct (last_at back f) as [k|] eqn:E; [|intros []]. intros [Q|[]]. injection Q as <- <-. destruct (last_some _ _ _ E) as (F&N&_). exists (firstn k f). split; [now exists (skipn (S k) f)|easy].
  - intros (b&(n&F&N)&->&->). assert (E : last_at back f = Some (length b)) by (rewrite F; now apply last_at_app). rewrite E. left. f_equal. f_equal. now rewrite F, firstn_app, Nat.sub_diag, firstn_all, app_nil_r.
Qed.
Lemma no_slash s : ~ In "/"%char (slashes s).
Proof. unfold slashes. intros I. apply in_map_iff in I. destruct I as (c&E&_). destruct (Ascii.eqb_spec c "/"); [discriminate|congruence]. Qed.
Lemma folder_no_slash s a : folder_of s a -> ~ In "/"%char a.
Proof.
  intros (g&c&_&F&W) I. assert (J : In "/"%char c) by (destruct W as [->|(r&->)]; [exact I|apply in_or_app; now left]). apply (no_slash (path g)). destruct F as [->|(->&_)]; [apply in_or_app; now left|exact J].
Qed.
Lemma parent_posix s a : native p = "/"%char -> folder_of s a -> parent_of p crc a = [].
Proof. intros W F. unfold parent_of. rewrite W. rewrite last_at_none; [easy|]. now apply (folder_no_slash s). Qed.

Lemma guid_named_iff qs n g : NoDup (map pname qs) -> In g (guid_named qs n) <-> exists r, In r qs /\ pname r = n /\ g = pguid r.
Proof.
  intros N. unfold guid_named. split.
  - destruct (List.find _ qs) as [q|] eqn:E; [|intros []]. intros [<-|[]]. apply find_some in E. destruct E as (I&T). apply teq_eq in T. now exists q.
  - intros (r&I&E&->). destruct (List.find (fun q => teq (pname q) n) qs) as [q|] eqn:F.
    + apply find_some in F. destruct F as (J&T). apply teq_eq in T. left. f_equal. clear - N I J E T. induction qs as [|x qs IH]; [destruct I|]. cbn in N. inversion N as [|? ? N1 N2]; subst.
      destruct I as [->|I], J as [->|J]; [easy| | |now apply IH]; exfalso; apply N1; [rewrite <- T|rewrite T]; now apply in_map.
    + exfalso. pose proof (find_none _ _ F r I) as Q. cbn in Q. apply teq_ne in Q. congruence.
Qed.
Lemma strong_nodup qs : StronglySorted (fun a b => before (pname a) (pname b)) qs -> NoDup (map pname qs).
Proof.
  induction 1 as [|x l S IH F]; [constructor|]. cbn. constructor; [|exact IH]. intros I. apply in_map_iff in I. destruct I as (y&E&I). rewrite Forall_forall in F. specialize (F y I). rewrite E in F. now apply before_irrefl in F.
Qed.
Lemma depends_iff s qs q g : NoDup (map pname qs) -> In g (depends (sdeps s) qs q) <->
  exists d r, In d (sdeps s) /\ In (pname q) (who d) /\ In (pname r) (what d) /\ In r qs /\ g = pguid r.
Proof.
  intros N. unfold depends. rewrite in_flat_map. split.
  - intros (d&I&J). destruct (names (who d) (pname q)) eqn:E; [|destruct J]. apply names_iff in E. apply in_flat_map in J. destruct J as (n&K&J). apply (guid_named_iff _ _ _ N) in J. destruct J as (r&J1&J2&->). exists d, r. subst n. now repeat split.
  - intros (d&r&I&A&B&C&->). exists d. split; [exact I|]. rewrite (proj2 (names_iff _ _) A). apply in_flat_map. exists (pname r). split; [exact B|]. apply (guid_named_iff _ _ _ N). now exists r.
Qed.
Lemma lines_iff cs q x : In x (config_lines cs q) <-> exists c u, In c cs /\ x = (upper (pguid q), in_solution c, u, in_project c) /\
  match u with Active => True | Build => exists b, In b (build c) /\ lower b = lower (pname q) | Deploy => exists b, In b (deploy c) /\ lower b = lower (pname q) end.
Proof.
  unfold config_lines. rewrite in_flat_map. split.
  - intros (c&I&[<-|J]); [exists c, Active; now repeat split|]. apply in_app_iff in J. destruct J as [J|J].
    + destruct (named_i (build c) (pname q)) eqn:E; [|destruct J]. destruct J as [<-|[]]. apply named_i_iff in E. exists c, Build. now repeat split.
    + destruct (named_i (deploy c) (pname q)) eqn:E; [|destruct J]. destruct J as [<-|[]]. apply named_i_iff in E. exists c, Deploy. now repeat split.
  - intros (c&u&I&->&H). exists c. split; [exact I|]. destruct u; [now left| |]; apply named_i_iff in H; rewrite H; right; apply in_or_app; [left; now left|right; now left].
Qed.
Lemma last_part_ok a : last_name a (last_part a).
Proof.
  unfold last_part, last_name. destruct (last_at back a) as [k|] eqn:E; [|left; split; [now apply last_none|easy]]. destruct (last_some _ _ _ E) as (F&N&_). right. split; [exact N|]. now exists (firstn k a).
Qed.
Lemma base_name_ok d n e : ~ In (native p) (n ++ dot :: e) -> ~ In dot e -> base_name p (d ++ native p :: n ++ dot :: e) = Some n.
Proof.
  intros H D. assert (F : d ++ native p :: n ++ dot :: e = (d ++ native p :: n) ++ dot :: e) by now rewrite <- app_assoc.
  assert (A1 : last_at (native p) (d ++ native p :: n ++ dot :: e) = Some (length d)) by now apply last_at_app.
  assert (A2 : last_at dot (d ++ native p :: n ++ dot :: e) = Some (length d + S (length n))) by (rewrite F, last_at_app by exact D; now rewrite app_length).
  unfold base_name. rewrite A1, A2. cbn zeta iota.
  destruct (Nat.ltb_spec (length d + S (length n)) (S (length d))); [lia|]. f_equal. replace (length d + S (length n) - S (length d)) with (length n) by lia.
  rewrite skipn_app, skipn_all2 by lia. replace (S (length d) - length d) with 1 by lia. cbn [List.app skipn]. now rewrite firstn_app, Nat.sub_diag, firstn_all, app_nil_r.
Qed.
End S.
