(** C96: projects for Visual Studio. *)
From Coq Require Import String Ascii List Arith Bool NArith Lia Permutation Sorted.
From Verif Require Import M_Path M_Names M_Vcx S_Vcx S_Dir S_Xcode P_Dir2 P_Vcx P_Vcx2 P_Vcx3.
Import ListNotations.
Local Open Scope list_scope.

Section C96.
(** For both systems, every way to name a file from the directory of the project, and every hash of names. *)
Context (p : plat) (rel : str -> str) (hash : str -> N).

(** A project is always made.  Every file that was given is in it, and no others, each once: names that differ only in case are the same.
    The names are in order. *)
Theorem C96_files bases adds : exists items decl, project p rel hash bases adds = Some (items, decl) /\
  (forall n, In n (map fst items) -> exists f, In f adds /\ n = name p rel f) /\
  (forall f, In f adds -> exists n, In n (map fst items) /\ lower n = lower (name p rel f)) /\
  StronglySorted (fun a b => before (lower a) (lower b)) (map fst items).
Proof.
  destruct (project_is p rel hash bases adds) as (u&st&_&_&_&E). do 2 eexists. split; [exact E|]. destruct (listed_files p rel hash bases adds _ _ E) as (A&B&C). split; [|now split].
  intros n I. apply in_map_iff in I. destruct I as ((n'&o)&Q&I). cbn [fst] in Q. subst n'. destruct (A n o I) as (f&F1&F2&_). now exists f.
Qed.

(** The order in which the files are given makes no difference, if no file is given in two spellings. *)
Theorem C96_order bases adds adds' : (forall f, In f adds <-> In f adds') ->
  (forall f g, In f adds -> In g adds -> lower (name p rel f) = lower (name p rel g) -> slashes f = slashes g) ->
  project p rel hash bases adds = project p rel hash bases adds'.
Proof. intros S D. unfold project. now rewrite (same_files p rel adds adds' S D). Qed.

(** Every file is shown in the folder in which it is, seen from the first base path below which it has one; and else at the top. *)
Theorem C96_folder bases adds items decl : project p rel hash bases adds = Some (items, decl) -> (forall f, In f adds -> In "\"%char (slashes f)) ->
  forall n o, In (n, o) items -> exists f, In f adds /\ n = name p rel f /\ placed (bases_of p bases) (slashes f) o.
Proof.
  intros E H n o I. destruct (listed_files p rel hash bases adds _ _ E) as (A&_). destruct (A n o I) as (f&F1&F2&F3). exists f. split; [exact F1|]. split; [exact F2|]. apply F3, H, F1.
Qed.

(** The folders that are declared are those in which a file is shown and those in which such a folder is, each once, if the hashes of these
    folders differ. *)
Theorem C96_declared bases adds items decl : project p rel hash bases adds = Some (items, decl) ->
  (forall a b d e, In (Some d) (map snd items) -> In (Some e) (map snd items) -> within a d -> within b e -> hash a = hash b -> a = b) ->
  NoDup (map fst decl) /\ forall a, In a (map fst decl) <-> exists d, In (Some d) (map snd items) /\ within a d.
Proof. apply declared. Qed.
(** No two folders have the same identifier, and that of a folder depends on its name only. *)
Theorem C96_identifiers bases adds items decl : project p rel hash bases adds = Some (items, decl) ->
  NoDup (map snd decl) /\ forall a h, In (a, h) decl -> h = hash a.
Proof. apply identified. Qed.
End C96.

(** But for every hash of limited size, and so for the hash of 32 bits that is used, there are two files such that one of them is shown in a
    folder that is not declared. *)
Theorem C96_declared_refuted (hash : str -> N) B : (forall s, (hash s < B)%N) -> exists adds items decl d,
  project win (fun s => s) hash [L "C:\"] adds = Some (items, decl) /\ length adds = 2 /\ In (Some d) (map snd items) /\ ~ In d (map fst decl).
Proof. intros H. destruct (undeclared hash B H) as (i&j&items&decl&d&E&I&N). exists [in_run i; in_run j], items, decl, d. now repeat split. Qed.

(** The value of a setting reads back as it is. *)
Theorem C96_value tag v rest : v <> [] -> exists t, pg_item tag v ++ rest = L "    <" ++ tag ++ L ">" ++ t /\
  exists k, forall k', k <= k' -> text k' t = Some (v, L "</" ++ tag ++ L ">" ++ [ascii_of_nat 10] ++ rest).
Proof.
  intros N. exists (flat_map pg_char v ++ "<"%char :: "/"%char :: tag ++ L ">" ++ [ascii_of_nat 10] ++ rest). split.
  - destruct v as [|c v]; [congruence|]. unfold pg_item. set (w := flat_map pg_char (c :: v)). rewrite <- !app_assoc. reflexivity.
  - apply text_all.
Qed.
Theorem C96_no_value tag : pg_item tag [] = [].
Proof. reflexivity. Qed.
(** So does the name of a file, if it has none of the characters that XML keeps for itself. *)
Theorem C96_name n rest : (forall c, In c n -> 32 <= nat_of_ascii c /\ c <> "&"%char /\ c <> "<"%char /\ c <> ascii_of_nat 34) ->
  exists t, file_item n ++ rest = L "    <CustomBuild Include=" ++ [ascii_of_nat 34] ++ t /\ exists k, forall k', k <= k' -> attribute k' t = Some (n, L ">" ++ [ascii_of_nat 10] ++ rest).
Proof.
  intros H. exists (n ++ ascii_of_nat 34 :: ">"%char :: ascii_of_nat 10 :: rest). split; [|now apply attribute_plain].
  unfold file_item. rewrite <- !app_assoc. reflexivity.
Qed.
(** But names are written as they are: with an ampersand, which file systems allow, the project cannot be read. *)
Theorem C96_name_refuted : exists n, (forall c, In c n -> 32 <= nat_of_ascii c /\ c <> "<"%char /\ c <> ascii_of_nat 34) /\
  forall t rest k, file_item n ++ rest = L "    <CustomBuild Include=" ++ [ascii_of_nat 34] ++ t -> attribute k t = None.
Proof.
  exists (L "R&D.cpp"). split.
  - intros c I. assert (H : forallb (fun c => (32 <=? nat_of_ascii c) && negb (Ascii.eqb c "<") && negb (Ascii.eqb c (ascii_of_nat 34))) (L "R&D.cpp") = true) by reflexivity.
    rewrite forallb_forall in H. specialize (H c I). rewrite !andb_true_iff, !negb_true_iff, Nat.leb_le, !Ascii.eqb_neq in H. tauto.
  - intros t rest k E. assert (T : t = L "R&D.cpp" ++ ascii_of_nat 34 :: ">"%char :: ascii_of_nat 10 :: rest).
    { change (file_item (L "R&D.cpp") ++ rest) with (L "    <CustomBuild Include=" ++ [ascii_of_nat 34] ++ (L "R&D.cpp" ++ ascii_of_nat 34 :: ">"%char :: ascii_of_nat 10 :: rest)) in E. apply app_inv_head in E. apply app_inv_head in E. now symmetry. }
    subst t. destruct k as [|[|k]]; reflexivity.
Qed.

(** Files that differ only in case are the same, but folders are not: both are declared, although for Visual Studio they have the same name. *)
Theorem C96_spelling_refuted : exists (hash : str -> N) adds items decl a b, project win (fun s => s) hash [L "C:\"] adds = Some (items, decl) /\
  In a (map fst decl) /\ In b (map fst decl) /\ a <> b /\ lower a = lower b.
Proof.
  exists (fun s => match s with c :: _ => N_of_ascii c | [] => 0%N end), [L "C:\ui\a.h"; L "C:\UI\b.h"]. do 2 eexists. exists (L "ui"), (L "UI"). split; [vm_compute; reflexivity|]. cbn. split; [now left|]. split; [right; now left|]. split; [discriminate|reflexivity].
Qed.
(** Which of two spellings of a file is kept depends on the order in which they are given. *)
Theorem C96_order_refuted : exists (hash : str -> N) a b, lower a = lower b /\
  project win (fun s => s) hash [] [a; b] <> project win (fun s => s) hash [] [b; a].
Proof. exists (fun _ => 0%N), (L "C:\a.h"), (L "C:\A.h"). split; [reflexivity|]. vm_compute. discriminate. Qed.

(** A project of four files, of which one is given in two spellings. *)
Definition sum (s : str) : N := fold_left (fun h c => (h * 31 + N_of_ascii c) mod 4294967296)%N s 7%N.
Example C96_case :
  project win (fun s => skipn 5 s) sum [L "C:\w\src\"; L "C:\w\"] [L "C:/w/src/ui/win/b.cpp"; L "C:\w\src\main.cpp"; L "C:\w\SRC\ui\win\b.cpp"; L "C:\w\readme.txt"; L "C:\w\src\ui\a.h"]
  = Some ([(L "readme.txt", None); (L "src\main.cpp", Some (L "src")); (L "src\ui\a.h", Some (L "ui")); (L "SRC\ui\win\b.cpp", Some (L "ui\win"))],
          [(L "src", sum (L "src")); (L "ui", sum (L "ui")); (L "ui\win", sum (L "ui\win"))])
  /\ NoDup (map sum [L "src"; L "ui"; L "ui\win"]).
Proof. split; [vm_compute; reflexivity|]. repeat constructor; cbn [map In]; intros H; repeat destruct H as [H|H]; try discriminate H; exact H. Qed.

Print Assumptions C96_files. Print Assumptions C96_order. Print Assumptions C96_folder. Print Assumptions C96_declared. Print Assumptions C96_identifiers.
Print Assumptions C96_declared_refuted. Print Assumptions C96_value. Print Assumptions C96_no_value. Print Assumptions C96_name. Print Assumptions C96_name_refuted. Print Assumptions C96_spelling_refuted. Print Assumptions C96_order_refuted. Print Assumptions C96_case.
