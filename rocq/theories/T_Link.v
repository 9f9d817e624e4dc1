From Coq Require Import String List Arith Bool Ascii Lia.
From Verif Require Import M_Path M_Names M_Args S_Args M_Drv S_Drv P_Drv3 P_Drv4 M_Link S_Link P_Link P_Link2 P_Link3 P_Link4.
Import ListNotations.
Open Scope list_scope.

(** *** C84: the command lines of linkers and librarians *)
(** A program is linked from what its libraries are made of, in their order: libraries by name or by their objects, lists
    of objects by their objects, shared libraries by their import library, copies by what was copied; objects of
    precompiled headers that are there already are left out. *)
Theorem C84_program_inputs : forall objs ns, Forall well_made ns ->
  exists ess, Forall2 (links objs) ns ess /\ inputs objs ns = listed_files [] (List.concat ess).
Proof. exact inputs_spec. Qed.
Print Assumptions C84_program_inputs.

(** So nothing is missing, nothing is added, and the object of a precompiled header is there once. *)
Theorem C84_nothing_missing : forall objs ns ess, Forall well_made ns -> Forall2 (links objs) ns ess ->
  inputs objs ns = listed_files [] (List.concat ess) ->
  (forall f, In f (inputs objs ns) <-> exists es e, In es ess /\ In e es /\ file_of e = f) /\
  (forall f, ~ In (Plain_ f) (List.concat ess) -> count_occ (list_eq_dec ascii_dec) (inputs objs ns) f <= 1).
Proof.
  intros objs ns ess _ _ E. rewrite E. split.
  - intros f. assert (X : In f (map file_of (List.concat ess)) <-> exists es e, In es ess /\ In e es /\ file_of e = f).
    { rewrite in_map_iff. split.
      - intros (e&F&I). apply in_concat in I. destruct I as (es&I&J). now exists es, e.
      - intros (es&e&I&J&F). exists e. split; [exact F|]. apply in_concat. now exists es. }
    rewrite <- X. split; [apply listed_in|]. intros I. destruct (listed_all f _ [] I) as [[]|J]. exact J.
  - intros f N. apply (listed_once f _ N []).
Qed.
Print Assumptions C84_nothing_missing.

(** A library is made from its objects and, with [objs], from those of the libraries in it; resources likewise. *)
Theorem C84_library_inputs : forall objs ds, Forall no_copies ds ->
  exists es, makes_all objs ds es /\ lists_inputs objs ds [] = listed_files [] es.
Proof.
  intros objs ds C. apply (lists_inputs_spec objs ds []). induction C; [exact I|split; assumption].
Qed.
Print Assumptions C84_library_inputs.
Theorem C84_resources : forall ns, Forall no_copies ns ->
  exists ess, Forall2 embeds ns ess /\ resources ns = listed_files [] (List.concat ess).
Proof. intros ns C. apply (resource_spec ns [] C). Qed.
Print Assumptions C84_resources.

(** Each argument in the linker's options becomes what its placeholder asks for, or stays what it is; with MSVC's linker,
    /LIBPATH: is cleaned and put in quotes.  When those are arguments (their spaces are inside quotes) the linker is given
    exactly them. *)
Theorem C84_linker : forall cpr c options,
  let ops := link_ops cpr c options in
  let places := link_places (msvc c) (inputs (link_objects c) (libs1 c)) (inputs (link_objects c) (libs2 c))
                            (inputs (link_objects c) (libs1 c ++ libs2 c)) [name c] (resources (res c)) in
  exists outss, Forall2 (argument_of (msvc c) cpr places) (tokenize space options) outss /\
    filter nonempty (pieces ops [] []) = filter nonempty (List.concat outss) /\
    (Forall single (List.concat outss) -> tokenize space (fst (run_args ops [] [])) = List.concat outss).
Proof.
  intros cpr c options ops places. destruct (link_ops_spec cpr c (tokenize space options)) as (outss&outs&A&M&F&P).
  exists outss. split; [exact A|]. fold (link_ops cpr c options) in M. fold ops in M. split.
  - now rewrite (pieces_end _ _ M), filter_end, F.
  - intros S. rewrite (args_text _ _ M (P S)), F. now apply filter_single.
Qed.
Print Assumptions C84_linker.
Theorem C84_librarian : forall lib nm ds options,
  let ops := librarian_ops lib nm ds options in
  exists outss, Forall2 (lib_argument (lists_inputs (negb lib) ds []) nm) (tokenize space options) outss /\
    filter nonempty (pieces ops [] []) = filter nonempty (List.concat outss) /\
    (Forall single (List.concat outss) -> tokenize space (fst (run_args ops [] [])) = List.concat outss).
Proof.
  intros lib nm ds options ops. destruct (librarian_ops_spec lib nm ds (tokenize space options)) as (outss&outs&A&M&F&P).
  exists outss. split; [exact A|]. fold (librarian_ops lib nm ds options) in M. fold ops in M. split.
  - now rewrite (pieces_end _ _ M), filter_end, F.
  - intros S. rewrite (args_text _ _ M (P S)), F. now apply filter_single.
Qed.
Print Assumptions C84_librarian.

Definition cleanw (s : str) : str := match clean_path win (L "C:\w") s false with Some x => x | None => [] end.
Definition cleanf (p : plat) (wd s : str) : str := match clean_path p wd s true with Some x => x | None => [] end.
(** A directory in the argument behind "/LIBPATH:" is read as one when dependencies are looked for, but the linker is given
    an empty directory and the other argument as an input. *)
Theorem C84_libpath_refuted : exists c options,
  scan (cleanf win (L "C:\w")) win true false (tokenize space options) = Some [LibPath (L "C:\libs\")] /\
  tokenize space (fst (run_args (link_ops cleanw c options) [] [])) = [L "/LIBPATH:" ++ [quote; quote]; L "C:\libs"].
Proof. exists (mkL true false (L "p.exe") [] [] []), (L "/LIBPATH: C:\libs"). split; vm_compute; reflexivity. Qed.
Print Assumptions C84_libpath_refuted.

Definition two_lists : list inode :=
  [OList [Obj (L "pch.obj") (Some (true, L "p.obj")); Obj (L "a.obj") None]; Copy (Lib (L "l.lib") [Obj (L "b.obj") None]);
   OList [Obj (L "pch.obj") (Some (true, L "p.obj")); Obj (L "c.obj") None]; Dll (L "d.dll") [] DMsvc].
Example C84_case :
  Forall well_made two_lists /\
  inputs true two_lists = [L "p.obj"; L "a.obj"; L "b.obj"; L "c.obj"; L "d.lib"] /\
  (let c := mkL true false (L "out.exe") (firstn 2 two_lists) (skipn 2 two_lists) [Other (L "r.res")] in
   tokenize space (fst (run_args (link_ops cleanw c (L "/OUT:""%2"" -libpath:C:\x\..\y\ ""%1[1]"" %1[0] /R:%3 /DEBUG")) [] [])) =
   [L "/OUT:""out.exe"""; L "-LIBPATH:""C:\y"""; L """p.obj"""; L """c.obj"""; L """d.lib"""; L "p.obj"; L "a.obj"; L "l.lib"; L "/R:r.res"; L "/DEBUG"]) /\
  tokenize space (fst (run_args (librarian_ops false (L "o.a") [Obj (L "x.o") None; Lib (L "l.a") [Obj (L "y.o") None]] (L "rcs ""%2"" -i%1")) [] [])) =
   [L "rcs"; L """o.a"""; L "-ix.o"; L "-iy.o"].
Proof. split; [repeat constructor|]. split; [reflexivity|]. split; vm_compute; reflexivity. Qed.

(** *** C85: libraries named in linker options are dependencies *)
(** The libraries that the options mention are looked for in the directories of the options, then in those of the LIB
    variable; the first place that has a node or a file is the dependency.  A node that is not a file is an error. *)
Theorem C85_found : forall cp p disk is_msvc lib_env options g r,
  other_libraries cp p disk is_msvc lib_env options g = Some r ->
  exists ms defaults first, reads cp p is_msvc false (tokenize space options) ms /\
    let dirs := dirs_of (tokenize ";"%char lib_env) ms in
    (NoDup (map lower (m_defaults ms)) -> keeps_only (stays ms) (m_defaults ms) defaults) /\
    Forall2 (looks_at cp p dirs) (m_inputs ms ++ defaults) first /\
    let places := first ++ (if is_msvc then [] else dash_places cp p dirs ms) in
    match r with
    | Some (deps, g') => finds_all disk g places deps g'
    | None => exists a s b deps g', places = a ++ s :: b /\ finds_all disk g a deps g' /\ ends_badly disk g' s
    end.
Proof.
  intros cp p disk is_msvc lib_env options g r H. unfold other_libraries in H.
  pose proof (scan_spec cp p is_msvc (List.length (tokenize space options)) (tokenize space options) false (le_n _) (tokens_nonempty options)) as A.
  destruct (scan cp p is_msvc false (tokenize space options)) as [ms|]; [|discriminate H]. cbn [option_map answer] in *. injection H as <-.
  destruct (searches_spec cp p is_msvc (tokenize ";"%char lib_env) ms) as (first&F&E).
  exists ms, (defaults_left ms), first. split; [exact A|]. cbn zeta. split; [exact (defaults_spec cp ms)|]. split; [exact F|]. rewrite <- E.
  apply run_spec.
Qed.
Print Assumptions C85_found.

(** Reading past the end of the options happens only when an option without its value stands at the end... *)
Theorem C85_value_missing : forall cp p disk is_msvc lib_env options g,
  other_libraries cp p disk is_msvc lib_env options g = None -> value_missing cp p is_msvc (tokenize space options).
Proof.
  intros cp p disk is_msvc lib_env options g H. unfold other_libraries in H.
  pose proof (scan_spec cp p is_msvc (List.length (tokenize space options)) (tokenize space options) false (le_n _) (tokens_nonempty options)) as A.
  destruct (scan cp p is_msvc false (tokenize space options)) as [ms|]; [discriminate H|]. exact A.
Qed.
Print Assumptions C85_value_missing.
(** ... and then it does. *)
Theorem C85_past_end_refuted : forall cp p disk lib_env g,
  other_libraries cp p disk false lib_env (L "%1 -o %2 -L") g = None /\ other_libraries cp p disk false lib_env (L "%1 -o %2 -l") g = None /\
  other_libraries cp p disk true lib_env (L "%1 /OUT:%2 /DEFAULTLIB:") g = None /\ other_libraries cp p disk true lib_env (L "%1 /OUT:%2 /LIBPATH:") g = None.
Proof. intros. repeat split; reflexivity. Qed.
Print Assumptions C85_past_end_refuted.

(** A library given by its full path is not a dependency on Linux and macOS. *)
Theorem C85_absolute_refuted : exists disk options,
  In (L "/usr/lib/libz.a") (tokenize space options) /\ disk (L "/usr/lib/libz.a") = true /\
  other_libraries (cleanf posix (L "/w")) posix disk false [] options [] = Some (Some ([], [])) /\
  other_libraries (cleanf posix (L "/w")) posix disk false [] (options ++ L " -L/opt") [] = Some (Some ([], [])).
Proof.
  exists (fun f => teq f (L "/usr/lib/libz.a")), (L "%1 -o %2 /usr/lib/libz.a").
  split; [vm_compute; right; right; right; now left|]. split; [reflexivity|]. split; vm_compute; reflexivity.
Qed.
Print Assumptions C85_absolute_refuted.

(** A default library that is given twice survives /NODEFAULTLIB: *)
Theorem C85_default_twice_refuted : exists disk options g',
  In (L "/NODEFAULTLIB:a.lib") (tokenize space options) /\
  other_libraries (cleanf win (L "C:\w")) win disk true [] options [] = Some (Some ([L "C:\x\a.lib"], g')).
Proof.
  exists (fun f => teq f (L "C:\x\a.lib")), (L "/LIBPATH:C:\x /DEFAULTLIB:a.lib /DEFAULTLIB:a.lib /NODEFAULTLIB:a.lib"). eexists.
  split; [vm_compute; right; right; right; now left|]. vm_compute. reflexivity.
Qed.
Print Assumptions C85_default_twice_refuted.

(** .Libraries: every name is a dependency, aliases by their targets, and only what cannot be linked is an error. *)
Theorem C85_libraries : forall look names, exists xss, Forall2 (library_named look) names xss /\
  match depend_on_names look names [] with
  | Some deps => Forall (fun x => snd x <> KUnsupported) (List.concat xss) /\ deps = map weak_on (List.concat xss)
  | None => Exists (fun x => snd x = KUnsupported) (List.concat xss)
  end.
Proof.
  intros look names.
  cut (forall acc, exists xss, Forall2 (library_named look) names xss /\ dep_answer (List.concat xss) acc (depend_on_names look names acc)).
  { intros H. apply (H []). }
  induction names as [|nm r IH]; intros acc.
  - exists []. split; [constructor|]. split; [constructor|]. cbn. now rewrite app_nil_r.
  - cbn [depend_on_names].
    assert (X : exists xs, library_named look nm xs /\ dep_answer xs acc (depend_on_name look nm acc)).
    { unfold depend_on_name. destruct (teq nm []) eqn:T.
      - apply P_Drv.teq_eq in T. subst. exists []. split; [constructor|]. split; [constructor|]. cbn. now rewrite app_nil_r.
      - apply P_Drv.teq_ne in T. destruct (look nm) as [n|] eqn:K.
        + destruct (proj1 (depend_spec (lweight n)) n acc (le_n _)) as (xs&S&D). exists xs. split; [econstructor; eassumption|exact D].
        + exists [(nm, KFile)]. split; [now constructor|]. split; [now repeat constructor|reflexivity]. }
    destruct X as (xs&LN&D). destruct (depend_on_name look nm acc) as [acc'|]; cbn [dep_answer] in D.
    + destruct D as [D1 ->]. destruct (IH (acc ++ accepted xs)) as (xss&F&D'). exists (xs :: xss). split; [now constructor|]. cbn [List.concat].
      destruct (depend_on_names look r _) as [e|]; cbn [dep_answer] in *.
      * destruct D' as [D2 ->]. split; [now apply Forall_app|]. unfold accepted. now rewrite map_app, app_assoc.
      * apply Exists_app. now right.
    + destruct (IH []) as (xss&F&_). exists (xs :: xss). split; [now constructor|]. cbn [List.concat]. apply Exists_app. now left.
Qed.
Print Assumptions C85_libraries.

Example C85_case :
  (let disk f := mem f [L "/opt/liba.a"; L "/x/libb.so"; L "/x/libb.a"; L "/env/c.o"] in
   other_libraries (cleanf posix (L "/w")) posix disk false (L "/env;/y") (L "%1 -o %2 -L/opt -L /x -la -lb -Wl,-Bstatic -lb c.o -lnone -l:libq") [(L "/opt/libq", true)] =
   Some (Some ([L "/env/c.o"; L "/opt/liba.a"; L "/x/libb.so"; L "/x/libb.a"; L "/opt/libq"],
     [(L "/opt/libq", true); (L "/env/c.o", true); (L "/opt/liba.a", true); (L "/x/libb.so", true); (L "/x/libb.a", true)]))) /\
  other_libraries (cleanf posix (L "/w")) posix (fun _ => false) false [] (L "-L/opt -l:q") [(L "/opt/q", false)] = Some None /\
  depend_on_names (fun n => if teq n (L "all") then Some (Alias [Leaf (L "a.lib") KLibrary; Leaf (L "d.dll") KDll]) else None) [L "all"; []; L "x.lib"] [] =
    Some [(L "a.lib", false); (L "d.dll", true); (L "x.lib", false)].
Proof. repeat split; vm_compute; reflexivity. Qed.

(** *** C86: which linker it is and what its options ask for *)
Theorem C86_by_name : forall exe type, type = [] \/ type = L "auto" -> first_fit (exe_named exe) by_name LUnknown (linker_of type exe).
Proof. exact linker_by_name. Qed.
Print Assumptions C86_by_name.
Theorem C86_by_type : forall exe type, type <> [] -> type <> L "auto" -> first_fit (eq type) by_type LUnknown (linker_of type exe).
Proof. exact linker_by_type. Qed.
Print Assumptions C86_by_type.

(** MSVC's linker makes a DLL, links incrementally, and treats warnings as errors, exactly when its options say so. *)
Theorem C86_msvc : forall options dll incremental wx, linker_flags LMsvc options = (dll, incremental, wx) ->
  let toks := tokenize space options in
  (dll = true <-> exists t, In t toks /\ option_ t (L "DLL")) /\
  (incremental = true <-> (exists t, In t toks /\ (option_ t (L "DEBUG") \/ option_ t (L "INCREMENTAL"))) /\ ~ exists t, In t toks /\ from_scratch t) /\
  (wx = true <-> exists t, In t toks /\ option_ t (L "WX")).
Proof. exact flags_msvc. Qed.
Print Assumptions C86_msvc.

(** The others make a shared library when one of these options is there. *)
Theorem C86_shared : forall k options dll incremental wx, k <> LMsvc -> linker_flags k options = (dll, incremental, wx) ->
  (dll = true <-> exists t, In t (tokenize space options) /\ In (lower t) [L "-shared"; L "-dynamiclib"; L "--oformat=prx"; L "/dll"]) /\
  incremental = false /\ wx = false.
Proof.
  intros k options dll incremental wx K H. assert (E : linker_flags k options = (existsb shared_token (tokenize space options), false, false)) by (destruct k; [contradiction|reflexivity..]).
  rewrite E in H. injection H as <- <- <-. split; [|auto]. apply ex_iff. intros t. unfold shared_token. rewrite !orb_true_iff, !P_Drv.teq_eq, andb_true_iff, starts_iff.
  cbn [In]. split.
  - intros [[[[H|H]|H]|H]|[(x&H) _]]; auto 6. exfalso. destruct t as [|a [|b r]]; try discriminate H.
    cbn in H. injection H as _ H _. clear - H. destruct b as [[|] [|] [|] [|] [|] [|] [|] [|]]; discriminate H.
  - intros [H|[H|[H|[H|[]]]]]; auto 6.
Qed.
Print Assumptions C86_shared.
(** "-Wl,--oformat=prx" is meant to be one of them, but the options are turned to lower case before "-Wl" is looked for. *)
Theorem C86_wl_refuted : linker_flags LOrbis (L "-Wl,--oformat=prx %1 -o %2") = (false, false, false) /\
  linker_flags LOrbis (L "--oformat=prx %1 -o %2") = (true, false, false).
Proof. split; reflexivity. Qed.
Print Assumptions C86_wl_refuted.

(** The import library is the value of the last /IMPLIB: *)
Theorem C86_implib : forall options, implib_of (tokenize space options) [] (implib (tokenize space options) []).
Proof. intros. now apply (implib_spec (List.length (tokenize space options))). Qed.
Print Assumptions C86_implib.

Example C86_case :
  linker_of (L "auto") (L "C:\VS\bin\LLD-Link.EXE") = LMsvc /\ linker_of [] (L "/usr/bin/arm-gcc") = LGcc /\ linker_of (L "gcc") (L "link.exe") = LGcc /\
  linker_flags LMsvc (L "/dll -debug /WX %1 /out:%2 /OPT:NOREF") = (true, true, true) /\
  linker_flags LMsvc (L "/INCREMENTAL %1 /out:%2 /opt:ref,noicf") = (false, false, false) /\
  linker_flags LGcc (L "-shared %1 -o %2") = (true, false, false) /\
  implib (tokenize space (L "/IMPLIB:a.lib %1 /implib: ""b c.lib"" %2")) [] = L "b c.lib".
Proof. repeat split; vm_compute; reflexivity. Qed.
