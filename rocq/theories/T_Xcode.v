(** C93: the XCode project. *)
From Coq Require Import String Ascii List Arith Bool NArith Lia Permutation.
From Verif Require Import M_Path M_Names M_Xcode S_Xcode P_Xcode P_Xcode2 P_Xcode3 P_Xcode4 P_Xcode5.
Import ListNotations.
Local Open Scope list_scope.
Local Notation "'length'" := List.length.

(** Whatever files and configurations are given, a project is written; its main group and each of its other groups and file references is
    listed in exactly one place: the main group nowhere, everything else as the child of one group, once.  There is one reference and one
    entry of the build phase for each file. *)
Theorem C93_tree : forall p bases adds configs, configs <> [] ->
  exists prj k cl main ts, generate p bases adds configs = Some prj /\ In (k, Project cl main ts) prj /\
    Permutation (main :: children prj) (ids (filter is_group prj) ++ ids (filter is_ref prj)) /\
    length (filter is_ref prj) = length adds /\
    flat_map (fun x => mentions (snd x)) (filter is_build prj) = ids (filter is_ref prj) /\
    exists k', In (k', Sources (ids (filter is_build prj))) prj.
Proof.
  intros p bases adds [|c0 cs] N; [congruence|]. destruct (generate_spec p bases adds c0 cs) as (ps&fo&go&A&B&G&ND&SH&E).
  exists (prj p (relative p bases) ps adds fo go A B c0 cs), (project_id 0), (list_id 0), (group_id 0), [legacy_id 0; native_id 0]. split; [exact E|]. split; [apply prj_project|].
  split; [exact (tree_once _ _ _ _ G _ _ _ _ SH c0 cs)|]. split; [|split; [apply prj_builds|exists (phase_id 0); apply prj_sources]].
  destruct (kinds p (relative p bases) ps adds fo go A B c0 cs) as (_&K&_). rewrite K, map_length. apply (fo_len _ _ _ _ _ _ _ _ SH).
Qed.
Print Assumptions C93_tree.

(** No identifier is given twice, as long as there are at most a hundred configurations, and every identifier that is mentioned exists. *)
Theorem C93_identifiers : forall p bases adds configs prj, generate p bases adds configs = Some prj -> (N.of_nat (length prj) < 2 ^ 32)%N ->
  (NoDup (ids prj) <-> length configs <= 100) /\
  forall x r, In x prj -> In r (mentions (snd x)) -> In r (ids prj).
Proof.
  intros p bases adds [|c0 cs] prj' E FIT; [unfold generate in E; destruct (add_files p bases adds start); discriminate|].
  destruct (generate_spec p bases adds c0 cs) as (ps&fo&go&A&B&G&ND&SH&E'). rewrite E' in E. injection E as <-. split; [split|].
  - intros N. destruct (le_gt_dec (length (c0 :: cs)) 100) as [L|L]; [exact L|]. exfalso. revert N. now apply prj_dup.
  - intros L. now apply prj_nodup.
  - intros x r. apply mention_all; assumption.
Qed.
Print Assumptions C93_identifiers.

(** A file is found under the folders of its path relative to the longest base path, with its name and its full path, and nothing else is
    found; there are no groups that are not on the way to a file.  This is for folders whose names need no quotes. *)
Theorem C93_place : forall p bases adds configs prj, p = posix \/ p = win -> generate p bases adds configs = Some prj -> (N.of_nat (length prj) < 2 ^ 32)%N ->
  (forall f, In f adds -> ~ In (other p) f) ->
  (forall f r n, In f adds -> Relative p bases f r -> In n (folders_of (native p) r) -> plain n) ->
  forall k cl main ts, In (k, Project cl main ts) prj ->
    (forall f, In f adds -> exists r, Relative p bases f r /\ listed prj main (folders_of (native p) r) (name_of (native p) r) f) /\
    (forall ns n f, listed prj main ns n f -> In f adds /\ forall r, Relative p bases f r -> ns = folders_of (native p) r /\ n = name_of (native p) r) /\
    (forall ns g, reach prj main ns g -> ns = [] \/ exists f r t, In f adds /\ Relative p bases f r /\ folders_of (native p) r = ns ++ t).
Proof.
  intros p bases adds [|c0 cs] prj' HP E FIT CL PL k cl main ts HM; [unfold generate in E; destruct (add_files p bases adds start); discriminate|].
  destruct (generate_spec p bases adds c0 cs) as (ps&fo&go&A&B&G&ND&SH&E'). rewrite E' in E. injection E as <-.
  assert (MG : main = group_id 0).
  { unfold prj in HM. rewrite !in_app_iff in HM. destruct HM as [H|[H|[H|H]]]; try (apply in_map_iff in H as (i&H&_); discriminate H).
    unfold tail_of, targets_of, configs_of in H. rewrite !in_app_iff in H. destruct H as [H|[H|[H|[H|H]]]]; try (apply in_map_iff in H as (i&H&_); discriminate H).
    cbn [In] in H. destruct H as [H|[H|[H|[H|[]]]]]; try discriminate H. now injection H. }
  subst main. set (rel := relative p bases) in *.
  assert (RS : forall f, Relative p bases f (rel f)) by (intros f; now apply relative_spec).
  assert (RU : forall f r, Relative p bases f r -> r = rel f) by (intros f r H; now apply relative_spec).
  assert (SN : forall f, In f adds -> short_name (rel f) = name_of (native p) (rel f)).
  { intros f I. apply short_spec; [exact HP|]. intros J. apply (CL f I). unfold rel, relative in J. rewrite <- (firstn_skipn (length (best p f bases [])) f). apply in_app_iff. now right. }
  assert (PLAIN : forall q n, In q ps -> group_name p q = Some n -> denotes n n).
  { intros q n I GN. apply plain_denotes. assert (NQ : q <> []) by (intros ->; discriminate GN). destruct (ND q I) as [->|(f&IF&AB)]; [congruence|].
    apply (PL f (rel f)); [exact IF|apply RS|]. apply above_names in AB as (t&AB). rewrite folders_parent, AB. destruct (names_parent p q NQ) as (n'&GN'&E). rewrite E. rewrite GN in GN'. injection GN' as <-.
    rewrite !in_app_iff. left. right. now left. }
  split; [|split].
  - intros f I. exists (rel f). split; [apply RS|]. destruct (In_nth adds f ([] : str) I) as (i&L&Q). rewrite <- (SN f I).
    pose proof (listed_all p rel ps adds G fo go A B SH c0 cs FIT PLAIN process_denotes i L) as H. rewrite Q in H. exact H.
  - intros ns n f H. destruct (listed_only p rel ps adds G fo go A B SH c0 cs FIT PLAIN process_denotes ns n f H) as (I&X&Y). split; [exact I|]. intros r R. rewrite (RU f r R). rewrite <- (SN f I). auto.
  - intros ns g H. destruct (reach_only p rel ps adds G fo go A B SH c0 cs FIT PLAIN ns g H) as (j&L&_&Q). destruct (ND _ (nth_In ps [] L)) as [Z|(f&IF&AB)].
    + left. rewrite Q. apply (f_equal (names (native p))) in Z. exact Z.
    + right. apply above_names in AB as (t&AB). exists f, (rel f), t. split; [exact IF|]. split; [apply RS|]. rewrite folders_parent, Q. exact AB.
Qed.
Print Assumptions C93_place.

(** Any text is read back as it was given: values in the project, and arguments in the scheme. *)
Theorem C93_values : forall v, denotes (process_string v) v.
Proof. exact process_denotes. Qed.
Print Assumptions C93_values.
Theorem C93_arguments : forall s rest, (forall c, In c s -> 32 <= nat_of_ascii c) ->
  exists k, forall k', k <= k' -> attribute k' (escape_argument s ++ [ascii_of_nat 34] ++ rest) = Some (s, rest).
Proof. intros s rest H. exact (attribute_all s rest H). Qed.
Print Assumptions C93_arguments.

(** The name of the project is the name of the folder it is written to, without its extension. *)
Theorem C93_name : forall p d n e f, (p = posix \/ p = win) -> ~ In (native p) n -> ~ In (native p) e -> ~ In dot e -> e <> [] -> ~ In (native p) f ->
  project_name p (d ++ [native p] ++ n ++ [dot] ++ e ++ [native p] ++ f) = Some n.
Proof. intros. now apply project_name_spec. Qed.
Print Assumptions C93_name.

(** When the folder has no extension the name loses its last letter, or, when there is a dot further up, has an end before its start. *)
Theorem C93_name_refuted :
  project_name posix (L "/work/Game/project.pbxproj") = Some (L "Gam") /\ project_name posix (L "/work.v2/Game/project.pbxproj") = None.
Proof. split; reflexivity. Qed.
Print Assumptions C93_name_refuted.

(** The names of groups are written without quotes: a folder with a space in its name is not found under its name. *)
Definition spaced : list (str * object) := match generate posix [L "/w/"] [L "/w/my code/a.cpp"] [L "Debug"] with Some x => x | None => [] end.
Theorem C93_group_refuted : ids (filter is_ref spaced) <> [] /\ forall ns n f, ~ listed spaced (group_id 0) ns n f.
Proof.
  assert (E : spaced = (L "111111110000000000000000", BuildFile (L "111111111111111100000000")) ::
    (L "111111111111111100000000", FileRef (L "a.cpp") ([quote_] ++ L "/w/my code/a.cpp" ++ [quote_])) ::
    (L "222222222222222200000000", Group None [L "222222222222222200000001"]) ::
    (L "222222222222222200000001", Group (Some (L "my code")) [L "111111111111111100000000"]) :: skipn 4 spaced) by (vm_compute; reflexivity).
  assert (T : filter is_group (skipn 4 spaced) = [] /\ filter is_ref (skipn 4 spaced) = []) by (split; vm_compute; reflexivity). destruct T as [T1 T2].
  split; [rewrite E; cbn [filter is_ref snd]; discriminate|].
  assert (NG : forall g nm ch, In (g, Group nm ch) spaced -> (g = L "222222222222222200000000" /\ ch = [L "222222222222222200000001"]) \/ (g = L "222222222222222200000001" /\ nm = Some (L "my code"))).
  { intros g nm ch I. rewrite E in I. destruct I as [I|[I|[I|[I|I]]]]; try discriminate I.
    - left. injection I as <- _ <-. auto.
    - right. injection I as <- <- _. auto.
    - assert (J : In (g, Group nm ch) (filter is_group (skipn 4 spaced))) by (apply filter_In; auto). rewrite T1 in J. destruct J. }
  assert (R : forall ns g, reach spaced (group_id 0) ns g -> g = L "222222222222222200000000").
  { intros ns g H. induction H as [|ns g nm ch c t n nch H IH HG HC HX D]; [reflexivity|]. exfalso. apply NG in HX. destruct HX as [[-> _]|[_ HX]].
    - apply NG in HG as [[_ ->]|[Q _]]; [|subst g; discriminate IH]. destruct HC as [HC|[]]. discriminate HC.
    - injection HX as ->. specialize (D []). discriminate D. }
  intros ns n f (g&nm&ch&r&tn&tp&HR&HG&HC&HF&_). apply R in HR. subst g. apply NG in HG as [[_ ->]|[Q _]]; [|discriminate Q]. destruct HC as [<-|[]].
  rewrite E in HF. destruct HF as [I|[I|[I|[I|I]]]]; try discriminate I. assert (J : In (L "222222222222222200000001", FileRef tn tp) (filter is_ref (skipn 4 spaced))) by (apply filter_In; auto). rewrite T2 in J. destruct J.
Qed.
Print Assumptions C93_group_refuted.

(** Two files and two base paths. *)
Example C93_case : match generate posix [L "/w/"; L "/w/src/"] [L "/w/src/ui/b.cpp"; L "/w/top.h"; L "/w/src/ui/a.cpp"] [L "Debug"; L "Release"] with
  | Some prj => map (fun x => (fst x, snd x)) (filter (fun x => is_group x || is_ref x) prj) =
      [(L "111111111111111100000000", FileRef (L "a.cpp") (L "/w/src/ui/a.cpp")); (L "111111111111111100000001", FileRef (L "b.cpp") (L "/w/src/ui/b.cpp"));
       (L "111111111111111100000002", FileRef (L "top.h") (L "/w/top.h"));
       (L "222222222222222200000000", Group None [L "111111111111111100000002"; L "222222222222222200000001"]);
       (L "222222222222222200000001", Group (Some (L "ui")) [L "111111111111111100000000"; L "111111111111111100000001"])]
      /\ length prj = 21
  | None => False end.
Proof. vm_compute. split; reflexivity. Qed.
Example C93_case2 : project_name posix (L "/work.v2/Game.xcodeproj/project.pbxproj") = Some (L "Game") /\ folders_of "/"%char (L "src/ui/a.cpp") = [L "src"; L "ui"]
  /\ process_string (L "my code") = [quote_] ++ L "my code" ++ [quote_].
Proof. repeat split. Qed.
