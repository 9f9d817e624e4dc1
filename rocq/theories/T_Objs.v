(** C76, C77: the objects of an object list, and the copies of CopyDir. *)
From Coq Require Import String List Arith Bool Ascii Lia.
From Verif Require Import M_Path M_Names M_Dir M_Objs S_Dir S_Objs T_Path P_Dir P_Dir3 P_Objs P_Objs2.
Import ListNotations.
Open Scope list_scope.

(** When an object list finds its inputs without error, every input (but the one that makes the precompiled header, on
    Windows) has an object that belongs to this list and compiles this file, up to case, under the name that is made
    from it; there is no other object but the precompiled header; and inputs that differ, not just in case, never share
    an object.  Nodes that were there are kept. *)
Theorem C76_objects : forall p c g l g' ds, unique g -> gather p c g l = Some (g', ds) ->
  unique g' /\ (forall n, In n g -> In n g') /\
  (forall i, In i l -> windows p = true /\ how i = FromDir /\ akin (file i) (pch_cpp c) \/
     exists d src, In d ds /\ compiles g' d src (owner c) /\ akin src (file i) /\ akin d (obj_name p c (match how i with Loose => file i | _ => src end) (base i))) /\
  (forall d, In d ds -> In d (pch c) \/ exists i src, In i l /\ compiles g' d src (owner c) /\ akin src (file i)) /\
  (forall d d' src src' own own', compiles g' d src own -> compiles g' d' src' own' -> akin d d' -> d = d' /\ src = src' /\ own = own').
Proof.
  intros p c g l g' ds U H. unfold gather in H. destruct (gather_all p c g l) as [[g1 d1]|] eqn:E; [|discriminate]. injection H as <- <-. apply gather_all_spec in E as (U1&G&A&B); [|exact U].
  split; [exact U1|]. split; [exact G|]. split; [|split].
  - intros i I. destruct (A i I) as [SK|(d&J&src&M)]; [left; exact SK|right]. exists d, src. split; [apply in_or_app; now left|exact M].
  - intros d I. apply in_app_or in I as [I|I]; [|now left]. right. destruct (B d I) as (i&J&src&C&K&_). exists i, src. auto.
  - intros d d' src src' own own' C C' K. pose proof (unique_in g1 _ _ U1 C C' K) as Q. injection Q as <- <- <-. auto.
Qed.
Print Assumptions C76_objects.

(** The source of every object is a node of the graph that is a file, never an alias or another group of files. *)
Lemma file_iff n : is_a_file n = true <-> kind n <> KOther false.
Proof. unfold is_a_file. destruct (kind n) as [| | |[]]; split; congruence. Qed.
Lemma sound_iff g : sound g <-> (forall d src own, compiles g d src own -> exists m, In m g /\ nname m = src /\ kind m <> KOther false).
Proof. split; intros S d src own C; destruct (S d src own C) as (m&I&E&F); exists m; split; auto; split; auto; now apply file_iff. Qed.
Theorem C76_sources : forall p c g l g' ds, (forall d src own, compiles g d src own -> exists m, In m g /\ nname m = src /\ kind m <> KOther false) ->
  gather p c g l = Some (g', ds) -> forall d src own, compiles g' d src own -> exists m, In m g' /\ nname m = src /\ kind m <> KOther false.
Proof.
  intros p c g l g' ds S H. apply sound_iff. apply sound_iff in S. unfold gather in H. destruct (gather_all p c g l) as [[g1 d1]|] eqn:E; [|discriminate]. injection H as -> <-.
  revert g d1 S E. induction l as [|i l IH]; intros g d1 S E; cbn [gather_all] in E; [now injection E as <- <-|].
  destruct (gather_one p c g i) as [[g1 d2]|] eqn:E1; [|discriminate]. destruct (gather_all p c g1 l) as [[g3 d3]|] eqn:E2; [|discriminate]. injection E as -> <-.
  eapply IH; [|exact E2]. eapply gather_one_sound; eauto.
Qed.
Print Assumptions C76_sources.

(** Without conflicts it succeeds: if the object names are new, differ for different inputs, and no two inputs differ only
    in case. *)
Theorem C76_succeeds : forall p c g l, (forall i, In i l -> how i <> FromList) ->
  (forall i m, In i l -> In m g -> akin (nname m) (file i) -> nname m = file i /\ kind m <> KOther false) ->
  (forall i m, In i l -> In m g -> ~ akin (nname m) (obj_name p c (file i) (base i))) ->
  (forall i j, In i l -> In j l -> ~ akin (obj_name p c (file i) (base i)) (file j)) ->
  (forall i j, In i l -> In j l -> akin (obj_name p c (file i) (base i)) (obj_name p c (file j) (base j)) -> file i = file j) ->
  (forall i j, In i l -> In j l -> akin (file i) (file j) -> file i = file j) ->
  exists g' ds, gather p c g l = Some (g', ds).
Proof.
  intros p c g l H0 H1' H2 H3 H4 H5. assert (H1 : forall i m, In i l -> In m g -> akin (nname m) (file i) -> nname m = file i /\ is_a_file m = true) by (intros i m I J K; rewrite file_iff; eauto). destruct (ok_all p c g l H0 H1 H2 H3 H4 H5 l (fun i I => I) g) as (g'&ds&E&_); [intros m I; now left|]. unfold gather. rewrite E. eauto.
Qed.
Print Assumptions C76_succeeds.

(** The next build, with the same inputs, changes nothing and fails at nothing, if files given by name are written in the case
    under which they are known. *)
Theorem C76_again : forall p c g l g' ds, unique g -> (forall d src own, compiles g d src own -> exists m, In m g /\ nname m = src /\ kind m <> KOther false) ->
  gather p c g l = Some (g', ds) -> (forall i m, In i l -> how i = Loose -> In m g' -> akin (nname m) (file i) -> nname m = file i) -> gather p c g' l = Some (g', ds).
Proof.
  intros p c g l g' ds U S' H X. pose proof (proj2 (sound_iff g) S') as S. unfold gather in *. destruct (gather_all p c g l) as [[g1 d1]|] eqn:E; [|discriminate]. injection H as -> <-. pose proof (gather_all_spec p c l g g' d1 U E) as (U1&_).
  rewrite (gather_all_again p c l g g' d1 g' U S E U1); [reflexivity|intros n I; exact I|]. intros i I L m Im K. now apply (X i m).
Qed.
Print Assumptions C76_again.

(** Names: the place of a file below the directory that was listed, or below .CompilerInputFilesRoot, is kept. *)
Theorem C76_names : forall p c base r dir st e, parts p r dir st e ->
  ((exists b, base = b ++ [native p]) -> obj_name p c (base ++ r) base = out_path c ++ dir ++ prefix c ++ (if keep_ext c then st ++ e else st) ++ obj_ext p c) /\
  ((exists b, root c = b ++ [native p]) -> obj_name p c (root c ++ r) [] = out_path c ++ dir ++ prefix c ++ (if keep_ext c then st ++ e else st) ++ obj_ext p c) /\
  (root c = [] -> obj_name p c r [] = out_path c ++ prefix c ++ (if keep_ext c then st ++ e else st) ++ obj_ext p c).
Proof. intros p c base r dir st e P. split; [|split]; intros H; [now apply name_in_base|now apply name_in_root|now apply name_flat with dir]. Qed.
Print Assumptions C76_names.

(** So two files of one listed directory have the same object name only if they differ just in their extensions, and with
    .CompilerOutputKeepBaseExtension never. *)
Theorem C76_apart : forall p c base r dir st e r' dir' st' e', (exists b, base = b ++ [native p]) -> parts p r dir st e -> parts p r' dir' st' e' ->
  obj_name p c (base ++ r) base = obj_name p c (base ++ r') base -> dir = dir' /\ (if keep_ext c then r = r' else st = st').
Proof.
  intros p c base r dir st e r' dir' st' e' B P P' E. rewrite (name_in_base p c base r dir st e B P), (name_in_base p c base r' dir' st' e' B P') in E. apply app_inv_head in E. rewrite !app_assoc in E. apply app_inv_tail in E. rewrite <- !app_assoc in E.
  destruct (parts_clean p _ _ _ _ P) as (D&N1&N2), (parts_clean p _ _ _ _ P') as (D'&N1'&N2'). pose proof P as (->&_). pose proof P' as (->&_).
  destruct (keep_ext c); apply (names_apart p) in E as [-> E]; auto. split; [reflexivity|]. now rewrite E.
Qed.
Print Assumptions C76_apart.

Definition cfg : ocfg := mkC (L "/o/") [] [] [] false (L "list") [] [].
Example C76_case :
  let l := [mkI FromDir (L "/s/a/x.cpp") (L "/s/"); mkI FromDir (L "/s/b/x.cpp") (L "/s/"); mkI Loose (L "/t/y.c") []] in
  gather posix cfg [mkN (L "list") (KOther false)] l =
    Some ([mkN (L "list") (KOther false); mkN (L "/s/a/x.cpp") KFile; mkN (L "/o/a/x.o") (KObj (L "/s/a/x.cpp") (L "list"));
           mkN (L "/s/b/x.cpp") KFile; mkN (L "/o/b/x.o") (KObj (L "/s/b/x.cpp") (L "list"));
           mkN (L "/o/y.o") (KObj (L "/t/y.c") (L "list")); mkN (L "/t/y.c") KFile], [L "/o/a/x.o"; L "/o/b/x.o"; L "/o/y.o"]) /\
  gather posix cfg [] [mkI Loose (L "/s/x.cpp") []; mkI Loose (L "/t/x.cpp") []] = None /\
  parts posix (L "a/x.cpp") (L "a/") (L "x") (L ".cpp").
Proof.
  cbv zeta. split; [vm_compute; reflexivity|]. split; [vm_compute; reflexivity|]. split; [reflexivity|]. split; [right; exists (L "a"); reflexivity|]. split; [cbn; intuition discriminate|].
  left. exists (L "cpp"). split; [reflexivity|]. split; [cbn; intuition discriminate|discriminate].
Qed.

(** Finding: of two files whose names differ only in case, which Linux allows, only one is compiled, without any message. *)
Theorem C76_case_refuted : ~ (forall p c g l g' ds i, windows p = false -> unique g -> gather p c g l = Some (g', ds) -> In i l -> exists d own, compiles g' d (file i) own).
Proof.
  intros H. destruct (H posix cfg [] [mkI FromDir (L "/s/A.cpp") (L "/s/"); mkI FromDir (L "/s/a.cpp") (L "/s/")]
    [mkN (L "/s/A.cpp") KFile; mkN (L "/o/A.o") (KObj (L "/s/A.cpp") (L "list"))] [L "/o/A.o"; L "/o/A.o"] (mkI FromDir (L "/s/a.cpp") (L "/s/"))) as (d&own&C).
  - reflexivity.
  - constructor.
  - vm_compute. reflexivity.
  - right. now left.
  - destruct C as [C|[C|[]]]; discriminate C.
Qed.
Print Assumptions C76_case_refuted.

(** Finding: a file given in another case than it is known by builds once; the next build fails with a conflict of the file with
    itself. *)
Theorem C76_again_refuted : exists g l g' ds, unique g /\ gather posix cfg g l = Some (g', ds) /\ gather posix cfg g' l = None.
Proof.
  exists [mkN (L "/s/A.cpp") KFile], [mkI Loose (L "/s/a.cpp") []], [mkN (L "/s/A.cpp") KFile; mkN (L "/o/a.o") (KObj (L "/s/A.cpp") (L "list"))], [L "/o/a.o"].
  split; [constructor; [apply Forall_nil|constructor]|]. split; vm_compute; reflexivity.
Qed.
Print Assumptions C76_again_refuted.

(** * CopyDir *)
(** When CopyDir finds its files without error, each has, in this order, a copy at its place below the destination, made from
    this file, up to case; and files that differ, not just in case, never share a destination.  The next build finds the
    same. *)
Theorem C77_copies : forall dest g l g' ds, unique g -> copy_all dest g l = Some (g', ds) ->
  unique g' /\ (forall n, In n g -> In n g') /\
  Forall2 (fun x d => exists src, copies g' d src /\ akin src (snd x) /\ forall rel, snd x = fst x ++ rel -> akin d (dest ++ rel)) l ds /\
  (forall d d' src src', copies g' d src -> copies g' d' src' -> akin d d' -> d = d' /\ src = src') /\
  copy_all dest g' l = Some (g', ds).
Proof.
  intros dest g l g' ds U H. pose proof (copy_all_spec dest l g g' ds U H) as (U1&G&F). split; [exact U1|]. split; [exact G|]. split; [|split].
  - clear - F. induction F as [|x d l ds (src&C&K&KD) F IH]; constructor; auto. exists src. split; [exact C|]. split; [exact K|]. intros rel E. destruct x as [a s]. cbn [fst snd] in *. subst s. now rewrite skip_base in KD.
  - intros d d' src src' C C' K. pose proof (unique_in g' _ _ U1 C C' K) as Q. injection Q as <- <-. auto.
  - apply (copy_all_again dest l g g' ds g' U H U1). intros n I. exact I.
Qed.
Print Assumptions C77_copies.

Example C77_case :
  copy_all (L "/o/") [] [(L "/s/", L "/s/a/x"); (L "/s/", L "/s/y")] =
    Some ([mkN (L "/s/a/x") KFile; mkN (L "/o/a/x") (KCopy (L "/s/a/x")); mkN (L "/s/y") KFile; mkN (L "/o/y") (KCopy (L "/s/y"))], [L "/o/a/x"; L "/o/y"]) /\
  copy_all (L "/o/") [] [(L "/s/", L "/s/x"); (L "/t/", L "/t/x")] = None.
Proof. split; vm_compute; reflexivity. Qed.

(** Finding: of two files whose names differ only in case only one is copied. *)
Theorem C77_case_refuted : ~ (forall dest g l g' ds path s, unique g -> copy_all dest g l = Some (g', ds) -> In (path, s) l -> exists d, copies g' d s).
Proof.
  intros H. destruct (H (L "/o/") [] [(L "/s/", L "/s/README"); (L "/s/", L "/s/Readme")] [mkN (L "/s/README") KFile; mkN (L "/o/README") (KCopy (L "/s/README"))] [L "/o/README"; L "/o/README"] (L "/s/") (L "/s/Readme")) as (d&C).
  - constructor.
  - vm_compute. reflexivity.
  - right. now left.
  - destruct C as [C|[C|[]]]; discriminate C.
Qed.
Print Assumptions C77_case_refuted.
