(** C97: solutions for Visual Studio. *)
From Coq Require Import String Ascii List Arith Bool NArith Lia Permutation Sorted.
From Verif Require Import M_Path M_Names M_Sort M_Dir M_Drv M_Vcx S_Sort S_Dir P_Dir2 P_Drv S_Vcx P_Vcx M_Sln S_Sln P_Sln P_Sln2.
Import ListNotations.
Local Open Scope list_scope.

Section C97.
(** [find] is how projects are found by name, [rel] the path from the directory of the solution, [crc] the checksum of a name. *)
Context (p : plat) (find : str -> option node) (rel : str -> str) (crc : str -> N) (U : unique find).

(** The solution is made exactly when all projects that it mentions exist. *)
Theorem C97_made s : (exists o, solve p find rel crc s = Some o) <-> forall n, mentions s n -> find n <> None.
Proof.
  split.
  - intros (o&E) n M F. rewrite (solve_none p find rel crc s n M F) in E. discriminate.
  - intros H. destruct (solve_is p find rel crc s U H) as (qs&ps&fl&_&_&_&_&_&E). eexists. exact E.
Qed.
Lemma found s o : solve p find rel crc s = Some o -> forall n, mentions s n -> find n <> None.
Proof. intros E. apply C97_made. now exists o. Qed.

(** It lists the projects that are mentioned anywhere, each once, in the order of their names; each with its file name
    without the extension, its path, its identifier and those
    of the projects in the solution on which it depends. *)
Theorem C97_projects s o : solve p find rel crc s = Some o -> exists qs,
  StronglySorted (fun a b => before (pname a) (pname b)) qs /\ (forall q, In q qs <-> member find s q) /\
  Forall2 (fun q l => (forall d n e, pname q = d ++ native p :: n ++ dot :: e -> ~ In (native p) (n ++ dot :: e) -> ~ In dot e -> l_name l = Some n) /\ l_guid l = upper (pguid q) /\ l_path l = (if windows p then rel (pname q) else slashes (rel (pname q))) /\
    forall g, In g (l_deps l) <-> exists d r, In d (sdeps s) /\ In (pname q) (who d) /\ In (pname r) (what d) /\ member find s r /\ g = pguid r) qs (o_projects o).
Proof.
  intros E. destruct (solve_is p find rel crc s U (found s o E)) as (qs&ps&fl&A&B&_&_&_&E'). rewrite E in E'. injection E' as ->. exists qs. split; [exact A|]. split; [exact B|]. cbn [o_projects].
  eapply forall2_weaken; [|apply forall2_map]. intros q l I ->. cbn [list_project l_name l_guid l_path l_deps]. split; [intros d n e -> H1 H2; now apply base_name_ok|]. split; [easy|]. split; [easy|]. intros g. rewrite (depends_iff s qs q g (strong_nodup qs A)).
  split; intros (d&r&H1&H2&H3&H4&H5); exists d, r; repeat split; auto; now apply B.
Qed.

(** It lists the folders that were given and the folders around them, each once and in order, by their last name. *)
Theorem C97_folders s o : solve p find rel crc s = Some o -> exists ps, StronglySorted before ps /\ (forall a, In a ps <-> folder_of s a) /\
  Forall2 (fun a l => f_guid l = folder_guid p crc a /\ last_name a (f_name l)) ps (o_folders o).
Proof.
  intros E. destruct (solve_is p find rel crc s U (found s o E)) as (qs&ps&fl&_&_&A&B&F&E'). rewrite E in E'. injection E' as ->. exists ps. split; [exact A|]. split; [exact B|]. cbn [o_folders].
  eapply forall2_weaken; [|exact F]. intros a l _ H. unfold list_folder in H. destruct (sections _ _ _ _); [|discriminate]. injection H as <-. cbn [f_guid f_name]. split; [easy|apply last_part_ok].
Qed.

(** A folder has the items that were given for it, in order, if no two folders differ only in case. *)
Theorem C97_items s o : solve p find rel crc s = Some o -> (forall a b, folder_of s a -> folder_of s b -> lower a = lower b -> a = b) ->
  exists ps, StronglySorted before ps /\ (forall a, In a ps <-> folder_of s a) /\ Forall2 (fun a l => f_guid l = folder_guid p crc a /\ exists st, S_Sort.ordered less st /\
    (forall i, In i st <-> exists g, In g (sfolders s) /\ is_for g a /\ In i (items g)) /\
    f_items l = match st with [] => [] | _ => [map (fun i => if windows p then rel i else slashes (rel i)) st] end) ps (o_folders o).
Proof.
  intros E K. destruct (solve_is p find rel crc s U (found s o E)) as (qs&ps&fl&_&_&A&B&F&E'). rewrite E in E'. injection E' as ->. exists ps. split; [exact A|]. split; [exact B|]. cbn [o_folders].
  eapply forall2_weaken; [|exact F]. intros a l IA H. unfold list_folder in H. set (fs := collapse (sfolders s)) in *. destruct (sections_ok p rel a fs) as (t&ET&FT). rewrite ET in H. injection H as <-. cbn [f_guid f_items]. split; [easy|].
  destruct (collapse_ok (sfolders s)) as (N&_&C). fold fs in N, C.
  assert (PF : forall x, In x fs -> folder_of s (path x)).
  { intros x I. destruct (collapse_path _ _ I) as (g&G1&G2). exists g, (path x). split; [exact G1|]. split; [apply canonical_iff; now symmetry|apply within_refl]. }
  assert (FI : forall x, In x (filter (holds_items a) fs) <-> In x fs /\ path x = a /\ items x <> []).
  { intros x. rewrite filter_In. unfold holds_items. rewrite andb_true_iff, negb_true_iff, teq_eq. split.
    - intros (I&L&M). split; [exact I|]. split; [symmetry; apply K; [now apply B|now apply PF|exact L]|]. intros Q. now rewrite Q in M.
    - intros (I&<-&M). split; [exact I|]. split; [easy|]. now destruct (items x). }
  assert (GI : forall x i, In x fs -> path x = a -> In i (items x) <-> exists g, In g (sfolders s) /\ is_for g a /\ In i (items g)).
  { intros x i I Q. destruct (C x I) as (_&C2). rewrite C2, in_flat_map, Q. unfold sel. split.
    - intros (g&G1&G2). apply filter_In in G1. destruct G1 as (G1&T). apply teq_eq in T. exists g. split; [exact G1|]. split; [apply canonical_iff; now symmetry|exact G2].
    - intros (g&G1&G2&G3). apply canonical_iff in G2. exists g. split; [|exact G3]. apply filter_In. split; [exact G1|]. apply teq_eq. now symmetry. }
  destruct (filter (holds_items a) fs) as [|x r] eqn:EF.
  - inversion FT; subst. exists []. split; [intros i j y z _ Q; destruct i; discriminate|]. split; [|easy]. intros i. split; [intros []|]. intros (g&G1&G2&G3). destruct (path_collapse _ _ G1) as (x&J1&J2). apply canonical_iff in G2. rewrite <- G2 in J2.
    assert (J3 : In i (items x)) by (apply (GI x i J1 J2); exists g; split; [exact G1|]; split; [now apply canonical_iff|exact G3]). apply (proj2 (FI x)). split; [exact J1|]. split; [exact J2|]. intros Q. now rewrite Q in J3.
  - destruct (proj1 (FI x) (or_introl eq_refl)) as (I1&I2&I3).
    assert (R : r = []).
    { destruct r as [|y r]; [easy|]. exfalso. destruct (proj1 (FI y) (or_intror (or_introl eq_refl))) as (_&J2&_).
      assert (N' : NoDup (map path (filter (holds_items a) fs))) by (clear - N; induction fs as [|z l IH]; [constructor|]; cbn in N; inversion N as [|? ? N1 N2]; subst; cbn [filter]; destruct (holds_items a z); [|now apply IH]; cbn; constructor; [|now apply IH]; intros Q; apply N1; apply in_map_iff in Q; destruct Q as (w&W1&W2); apply filter_In in W2; apply in_map_iff; exists w; tauto).
      rewrite EF in N'. cbn in N'. inversion N' as [|? ? N1 _]; subst. apply N1. left. exact J2. }
    subst r. inversion FT as [|? u ? t' HX FR]; subst. inversion FR; subst. destruct HX as (st&P1&O1&->). exists st. split; [exact O1|]. split.
    + intros i. rewrite <- (GI x i I1 eq_refl). split; apply Permutation_in; [now apply Permutation_sym|exact P1].
    + destruct st as [|y st]; [apply Permutation_sym, Permutation_nil in P1; congruence|reflexivity].
Qed.

(** Every project has a line for every configuration, and one more if it is to be built in it, and one more if it is to be deployed. *)
Theorem C97_configurations s o x : solve p find rel crc s = Some o -> In x (o_lines o) <->
  exists q c u, member find s q /\ In c (configs s) /\ x = (upper (pguid q), in_solution c, u, in_project c) /\
  match u with Active => True | Build => exists b, In b (build c) /\ lower b = lower (pname q) | Deploy => exists b, In b (deploy c) /\ lower b = lower (pname q) end.
Proof.
  intros E. destruct (solve_is p find rel crc s U (found s o E)) as (qs&ps&fl&_&B&_&_&_&E'). rewrite E in E'. injection E' as ->. cbn [o_lines]. rewrite in_flat_map. split.
  - intros (q&I&J). apply lines_iff in J. destruct J as (c&u&J). exists q, c, u. split; [now apply B|exact J].
  - intros (q&c&u&M&J). exists q. split; [now apply B|]. apply lines_iff. now exists c, u.
Qed.

(** The nesting of projects and folders, on Windows: every project is in the folders that hold it, and every folder in the one around it. *)
Theorem C97_nested s o x y : solve p find rel crc s = Some o -> native p = "\"%char -> In (x, y) (o_nested o) <->
  (exists q c, member find s q /\ put_in s q c /\ x = upper (pguid q) /\ y = folder_guid p crc c) \/
  (exists a b, folder_of s a /\ around b a /\ x = folder_guid p crc a /\ y = folder_guid p crc b).
Proof.
  intros E W. destruct (solve_is p find rel crc s U (found s o E)) as (qs&ps&fl&_&B&_&D&_&E'). rewrite E in E'. injection E' as ->. cbn [o_nested]. rewrite in_app_iff, !in_flat_map. split.
  - intros [(q&I&J)|(a&I&J)]; [left|right].
    + apply to_folder_iff in J. destruct J as (c&J). exists q, c. split; [now apply B|exact J].
    + apply (parent_iff _ _ _ _ _ W) in J. destruct J as (b&J). exists a, b. split; [now apply D|exact J].
  - intros [(q&c&M&J)|(a&b&M&J)]; [left; exists q; split; [now apply B|apply to_folder_iff; now exists c]|right; exists a; split; [now apply D|]]. apply (parent_iff _ _ _ _ _ W). now exists b.
Qed.
(** Elsewhere no folder is inside another one: only projects are in folders. *)
Theorem C97_flat s o x y : solve p find rel crc s = Some o -> native p = "/"%char -> In (x, y) (o_nested o) <->
  exists q c, member find s q /\ put_in s q c /\ x = upper (pguid q) /\ y = folder_guid p crc c.
Proof.
  intros E W. destruct (solve_is p find rel crc s U (found s o E)) as (qs&ps&fl&_&B&_&D&_&E'). rewrite E in E'. injection E' as ->. cbn [o_nested]. rewrite in_app_iff, !in_flat_map. split.
  - intros [(q&I&J)|(a&I&J)].
    + apply to_folder_iff in J. destruct J as (c&J). exists q, c. split; [now apply B|exact J].
    + rewrite (parent_posix p crc s a W) in J; [destruct J|now apply D].
  - intros (q&c&M&J). left. exists q. split; [now apply B|]. apply to_folder_iff. now exists c.
Qed.
(** A project is shown under its file name without the extension. *)
Theorem C97_name d n e : ~ In (native p) (n ++ dot :: e) -> ~ In dot e -> base_name p (d ++ native p :: n ++ dot :: e) = Some n.
Proof. apply base_name_ok. Qed.
End C97.

(** The folder around a folder is itself listed. *)
Theorem C97_parents_listed s a b : folder_of s a -> around b a -> folder_of s b.
Proof. intros (g&c&I&F&W) (n&E&_). exists g, c. split; [exact I|]. split; [exact F|]. eapply within_trans; [|exact W]. right. now exists n. Qed.

Definition game : node := Node (L "/w/Game.vcxproj") (L "{aa-1}").
Definition core : node := Node (L "/w/Core.vcxproj") (L "{bb-2}").
(** Projects are found whatever the case of the name. *)
Definition two (n : str) : option node :=
  if teq (lower n) (lower (pname game)) then Some game else if teq (lower n) (lower (pname core)) then Some core else None.
Lemma two_unique : unique two.
Proof. unfold unique, two. intros n m q r. destruct (teq (lower n) _), (teq (lower m) _); try destruct (teq (lower n) _); try destruct (teq (lower m) _); intros A B C; try discriminate; injection A as <-; injection B as <-; try reflexivity; discriminate C. Qed.
Definition len (s : str) : N := N.of_nat (length s).

(** Not on Linux: the folder Libs\Engine is written as if it were not inside Libs.  The parent is looked for with the slash of the system, in a
    path that has the slashes of Windows. *)
Theorem C97_nested_refuted : exists s o a b, solve posix two (fun f => f) len s = Some o /\ folder_of s a /\ around b a /\
  (forall x y, In (x, y) (o_nested o) -> x <> folder_guid posix len a).
Proof.
  exists (Solution [] [SFolder (L "Libs/Engine") [pname core] []] [] []). do 1 eexists. exists (L "Libs\Engine"), (L "Libs"). split; [vm_compute; reflexivity|]. split; [|split].
  - exists (SFolder (L "Libs/Engine") [pname core] []), (L "Libs\Engine"). split; [now left|]. split; [|apply within_refl]. right. split; [reflexivity|]. intros (d&E). apply (f_equal (fun l => last l "a"%char)) in E. rewrite last_last in E. discriminate.
  - exists (L "Engine"). split; [reflexivity|]. cbn. intros H. repeat destruct H as [H|H]; try discriminate H; exact H.
  - intros x y I. cbn in I. destruct I as [I|[]]. injection I as <- <-. discriminate.
Qed.
(** A dependency whose name is written in another case is accepted but left out. *)
Theorem C97_dependency_refuted : exists s o d, solve win two (fun f => f) len s = Some o /\ In d (sdeps s) /\
  (exists n m, In n (who d) /\ two n = Some game /\ In m (what d) /\ two m = Some core) /\ Forall (fun l => l_deps l = []) (o_projects o).
Proof.
  exists (Solution [pname game; pname core] [] [SDep [pname game] [L "/w/core.vcxproj"]] []). do 1 eexists. exists (SDep [pname game] [L "/w/core.vcxproj"]). split; [vm_compute; reflexivity|]. split; [now left|]. split.
  - exists (pname game), (L "/w/core.vcxproj"). repeat split; now left.
  - repeat constructor.
Qed.
(** For a project without extension in a directory with a period in its name, the end of the name comes before its start. *)
Theorem C97_name_refuted : exists n, base_name posix n = None.
Proof. now exists (L "/work.v2/Game"). Qed.

Example C97_case : unique two /\
  solve win two (fun f => skipn 3 f) len (Solution [pname game] [SFolder (L "Libs/Engine/") [pname core] [L "/w/b.txt"; L "/w/a.txt"]; SFolder (L "Libs\Engine") [] [L "/w/c.txt"]]
     [SDep [pname game] [pname core]] [Config (L "Debug|x64") (L "Debug|x64") [L "/w/game.VCXPROJ"] []])
  = Some (Output
      [Listing (Some (L "/w/Core")) (L "Core.vcxproj") (L "{BB-2}") []; Listing (Some (L "/w/Game")) (L "Game.vcxproj") (L "{AA-1}") [L "{bb-2}"]]
      [FListing (L "Libs") (folder_guid win len (L "Libs")) []; FListing (L "Engine") (folder_guid win len (L "Libs\Engine")) [[L "a.txt"; L "b.txt"; L "c.txt"]]]
      [(L "{BB-2}", L "Debug|x64", Active, L "Debug|x64"); (L "{AA-1}", L "Debug|x64", Active, L "Debug|x64"); (L "{AA-1}", L "Debug|x64", Build, L "Debug|x64")]
      [(L "{BB-2}", folder_guid win len (L "Libs\Engine")); (folder_guid win len (L "Libs\Engine"), folder_guid win len (L "Libs"))]).
Proof. split; [exact two_unique|vm_compute; reflexivity]. Qed.

Print Assumptions C97_made. Print Assumptions C97_projects. Print Assumptions C97_folders. Print Assumptions C97_items. Print Assumptions C97_configurations. Print Assumptions C97_nested.
Print Assumptions C97_flat. Print Assumptions C97_name. Print Assumptions C97_parents_listed. Print Assumptions C97_nested_refuted. Print Assumptions C97_dependency_refuted. Print Assumptions C97_name_refuted. Print Assumptions C97_case.
