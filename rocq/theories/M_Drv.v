(** Model of how the command line of a compiler is made from the options in the BFF file.  Sources (in
    Code/Tools/FBuild/FBuildCore): Graph/ObjectNode.cpp BuildArgs 1787-1893, ExpandCompilerForceUsing 1897-1914,
    SaveRemote 1211-1252, GetCommandLineKey 1388-1407, DetermineFlags 897-1161, CreateDriver 2963-3010,
    ShouldUseDeoptimization 2662-2707, ShouldUseCache 2729-2756; ExeDrivers/Compiler/CompilerDriver*.cpp. *)
From Coq Require Import String List Arith Bool Ascii NArith.
From Verif Require Import M_Path M_Args.
Import ListNotations.
Open Scope list_scope.

(** Which driver, ObjectNode.cpp CreateDriver 2967-3007.  [Cl]: cl.exe, or clang-cl when true; [Gcc]: GCC, or
    Clang when true.  Code Warrior, Green Hills, SNC and CUDA have drivers that do the same. *)
Inductive fam := Cl (clang_cl : bool) | Gcc (clang : bool) | Vbcc | QtRcc | Orbis | Snc | Cuda | Wii | WiiU | Generic.

(** ObjectNode.h enum Pass: compile the source, preprocess it, compile the preprocessed text. *)
Inductive pass := Compile | Preprocess | CompilePreprocessed | SimpleDist.

(** What a driver is given: CompilerDriverBase.h, Init and the Set functions; CompilerDriverBase.cpp 28-33,
    ObjectNode.cpp 1803-1822.  [base]: m_RelativeBasePath; [over]: m_OverrideSourceFile; [upd_x]:
    IsClangGCCUpdateXLanguageArgEnabled; [using]: names of the force-using files; [pdb]: the name of the PDB when
    one is in use. *)
Record ctx := mkC {
  family : fam; local : bool; plt : plat;
  source : str; object : str; over : str; base : str;
  colour : bool; mapping : str; work_dir : str; remote_root : str;
  upd_x : bool; rewrite : bool; creating_pch : bool;
  pch_object : str; using_files : list str; pdb : option str }.

Definition teq (a b : str) : bool := if list_eq_dec ascii_dec a b then true else false.

(** CompilerDriverBase::StripToken, CompilerDriverBase.cpp 158-170. *)
Definition strip_token (o t : str) (begins : bool) : bool := if begins then starts_with o t else teq t o.

(** CompilerDriverBase::StripTokenWithArg, CompilerDriverBase.cpp 136-154.  The result says whether the token is
    removed, and then whether the next one is.  The recursion takes off two characters each time, so [fuel] = the
    length of the token is enough. *)
Fixpoint strip_with_arg_ (fuel : nat) (o t : str) : option bool :=
  if starts_with o t then Some (teq t o)
  else
    match fuel with
    | 0 => None
    | S f =>
        match t, rev t with
        | a :: m, b :: _ =>
            if Ascii.eqb a quote && Ascii.eqb b quote && (2 <? List.length t) then strip_with_arg_ f o (removelast m) else None
        | _, _ => None
        end
    end.
Definition strip_with_arg (o t : str) : option bool := strip_with_arg_ (List.length t) o t.

(** CompilerDriver_CL::IsCompilerArg_MSVC 312-331 and IsStartOfCompilerArg_MSVC 335-354 (the same functions are in
    ObjectNode.cpp 1165-1207).  Tokens are not empty. *)
Definition dash (t : str) : bool := match t with c :: _ => Ascii.eqb c "/"%char || Ascii.eqb c "-"%char | [] => false end.
Definition is_arg (t o : str) : bool := dash t && (List.length t - 1 =? List.length o) && ends_with t o.
Definition is_start (t o : str) : bool := dash t && negb (List.length t - 1 <? List.length o) && starts_with o (tl t).
(** StripTokenWithArg_MSVC 358-369, StripToken_MSVC 373-383. *)
Definition strip_with_arg_cl (o t : str) : option bool := if is_start t o then Some (is_arg t o) else None.
Definition strip_token_cl (o t : str) (begins : bool) : bool := if begins then is_start t o else is_arg t o.

(** What a driver does with one token: nothing (the next rule is tried), or it appends something and skips the
    next token or not; [Bad]: the C++ code has undefined behaviour. *)
Inductive act := Pass_ | Did (out : list arg_op) (skip : bool) | Bad.
(** Chaining of the rules: the first that answers wins. *)
Definition orelse (a b : act) : act := match a with Pass_ => b | _ => a end.
Definition gone (b : bool) : act := if b then Did [] false else Pass_.
Definition gone_arg (o : option bool) : act := match o with Some s => Did [] s | None => Pass_ end.
Fixpoint first_of (l : list act) : act := match l with [] => Pass_ | a :: r => orelse a (first_of r) end.

(** Rules shared by Clang and clang-cl: CompilerDriver_GCCClang.cpp 41-52, CompilerDriver_CL.cpp 49-59. *)
Definition analyzer (t : str) : act :=
  first_of [gone (strip_token (L "--analyze") t false); gone_arg (strip_with_arg (L "-Xanalyzer") t);
            gone_arg (strip_with_arg (L "-analyzer-output") t); gone_arg (strip_with_arg (L "-analyzer-config") t);
            gone_arg (strip_with_arg (L "-analyzer-checker") t)].

(** ProcessArg_PreprocessorOnly: CompilerDriver_GCCClang.cpp 28-67, CompilerDriver_CL.cpp 30-62, and the same
    function of the other drivers (SNC, CUDA, CodeWarriorWii, GreenHillsWiiU, OrbisWavePSSLC: "-o" and "-c"; VBCC:
    "-o"; QtRCC 20-33; base class: nothing). *)
Definition preprocessor_only (c : ctx) (t : str) : act :=
  match family c with
  | Gcc clang =>
      first_of [gone_arg (strip_with_arg (L "-include-pch") t); if clang then analyzer t else Pass_;
                gone_arg (strip_with_arg (L "-o") t); gone (strip_token (L "-c") t false)]
  | Cl clang_cl =>
      first_of [if strip_token_cl (L "ZW") t false then Did [Append (L "/D__cplusplus_winrt ")] false else Pass_;
                gone_arg (strip_with_arg_cl (L "Yc") t); if clang_cl then analyzer t else Pass_]
  | Snc | Cuda | Wii | WiiU | Orbis =>
      first_of [gone_arg (strip_with_arg (L "-o") t); gone (strip_token (L "-c") t false)]
  | Vbcc => gone_arg (strip_with_arg (L "-o") t)
  | QtRcc => first_of [gone_arg (strip_with_arg (L "--output") t); gone_arg (strip_with_arg (L "-o") t)]
  | Generic => Pass_
  end.

(** ProcessArg_XLanguageOption, CompilerDriver_GCCClang.cpp 214-263; an empty [next] stands for no next token. *)
Definition x_language (c : ctx) (t next : str) : act :=
  if upd_x c && teq t (L "-x") && negb (teq next []) then
    Did [Append t; AddDelimiter;
         Append (if teq next (L "c") then L "cpp-output"
                 else if teq next (L "c++") || teq next (L "objective-c") || teq next (L "objective-c++") then next ++ L "-cpp-output"
                 else next); AddDelimiter] true
  else Pass_.
(** ProcessArg_DependencyOption, CompilerDriver_GCCClang.cpp 267-292. *)
Definition dependency_option (t : str) : act :=
  first_of [gone (strip_token (L "-MD") t false); gone_arg (strip_with_arg (L "-MF") t)].

(** The /I rule of CompilerDriver_CL.cpp 99-131.  [start] and [end_]: positions in the token; when [end_] is before
    [start], a string with a negative length is made. *)
Definition include_dir (c : ctx) (t : str) : act :=
  if negb (local c) && is_start t (L "I") then
    let start := match skipn 2 t with q :: _ => if Ascii.eqb q quote then 3 else 2 | [] => 2 end in
    let end_ := match rev t with q :: _ => if Ascii.eqb q quote then List.length t - 1 else List.length t | [] => 0 end in
    if end_ <? start then Bad
    else
      let path := firstn (end_ - start) (skipn start t) in
      if is_full (plt c) path then Pass_
      else Did [Append (firstn start t); Append (remote_root c); Append [bslash]; Append path; Append (skipn end_ t); AddDelimiter]
               (match strip_with_arg_cl (L "I") t with Some s => s | None => false end)
  else Pass_.

(** /sourceDependencies, CompilerDriver_CL.cpp 143-152 and 296-305. *)
Definition source_dependencies (t : str) : act :=
  first_of [if is_arg t (L "sourceDependencies") then Did [] true else Pass_;
            if is_start t (L "sourceDependencies") then Did [] false else Pass_].

(** ProcessArg_CompilePreprocessed: CompilerDriver_GCCClang.cpp 71-127, CompilerDriver_CL.cpp 66-155,
    CompilerDriver_OrbisWavePSSLC.cpp 40-54; the other drivers have none. *)
Definition compile_preprocessed (c : ctx) (t next : str) : act :=
  match family c with
  | Gcc clang =>
      first_of [if clang then gone_arg (strip_with_arg (L "-I") t) else Pass_;
                gone_arg (strip_with_arg (L "-isysroot") t);
                if local c then x_language c t next else Pass_;
                if local c then dependency_option t else Pass_;
                gone_arg (strip_with_arg (L "-include-pch") t); gone_arg (strip_with_arg (L "-include") t)]
  | Cl _ =>
      first_of [gone_arg (strip_with_arg_cl (L "Yu") t); gone_arg (strip_with_arg_cl (L "Fp") t);
                if local c then Pass_ else gone_arg (strip_with_arg_cl (L "Fd") t);
                include_dir c t; gone_arg (strip_with_arg_cl (L "FI") t); source_dependencies t]
  | Orbis => gone_arg (strip_with_arg (L "-include") t)
  | _ => Pass_
  end.

(** ProcessArg_Common: CompilerDriver_GCCClang.cpp 131-147, CompilerDriver_CL.cpp 159-193. *)
Definition common_arg (c : ctx) (t : str) : act :=
  match family c with
  | Gcc _ =>
      if colour c then first_of [gone (strip_token (L "-fdiagnostics-color") t true); gone (strip_token (L "-fno-diagnostics-color") t false)]
      else Pass_
  | Cl _ =>
      first_of [gone (strip_token_cl (L "MP") t true); gone (strip_token_cl (L "Gm") t false);
                if is_start t (L "I" ++ [quote]) && ends_with t [bslash; quote]
                then Did [Append (firstn (List.length t - 2) t); Append [quote]; AddDelimiter] false else Pass_]
  | _ => Pass_
  end.

(** AString::Find of a short text: what is before the first occurrence and what is after it. *)
Fixpoint find (o t : str) : option (str * str) :=
  if starts_with o t then Some ([], skipn (List.length o) t)
  else match t with [] => None | x :: r => option_map (fun p => (x :: fst p, snd p)) (find o r) end.

(** ProcessArg_BuildTimeSubstitution: CompilerDriverBase.cpp 66-120, CompilerDriver_CL.cpp 197-230;
    ExpandCompilerForceUsing, ObjectNode.cpp 1897-1914. *)
Definition shown_name (c : ctx) (n : str) : str := if negb (teq (base c) []) then relative_path (plt c) (base c) n else n.
Definition put_name (c : ctx) (o n t : str) : act :=
  match find o t with
  | Some (a, b) => Did [Append a; Append n; Append b; AddDelimiter] false
  | None => Pass_
  end.
Definition substitute (c : ctx) (t : str) : act :=
  let files := first_of [put_name c (L "%1") (if teq (over c) [] then shown_name c (source c) else over c) t;
                         put_name c (L "%2") (shown_name c (object c)) t] in
  match family c with
  | Cl _ =>
      first_of [put_name c (L "%3") (pch_object c) t;
                match find (L "%4") t with
                | Some (a, b) => Did (flat_map (fun n => [Append a; Append n; Append b; AddDelimiter]) (using_files c) ++ [AddDelimiter]) false
                | None => Pass_
                end; files]
  | _ => files
  end.

(** One round of the loop in BuildArgs, ObjectNode.cpp 1826-1859. *)
Definition one_token (c : ctx) (p : pass) (t next : str) : act :=
  first_of [match p with Preprocess => preprocessor_only c t | _ => Pass_ end;
            match p with CompilePreprocessed => compile_preprocessed c t next | _ => Pass_ end;
            common_arg c t; substitute c t; Did [Append t; AddDelimiter] false].

(** A loop over the tokens, in which a round may skip the next token; [None]: undefined behaviour. *)
Fixpoint each_token (one : str -> str -> act) (toks : list str) : option (list arg_op) :=
  match toks with
  | [] => Some []
  | t :: r =>
      match one t (hd [] r) with
      | Did out skip =>
          option_map (app out) (if skip then match r with [] => Some [] | _ :: r' => each_token one r' end else each_token one r)
      | Pass_ => each_token one r
      | Bad => None
      end
  end.

(** AddAdditionalArgs_Preprocessor: CompilerDriver_GCCClang.cpp 151-170, CompilerDriver_CL.cpp 234-254, and the other
    drivers. *)
Definition extra_preprocessor (c : ctx) : str :=
  match family c with
  | Gcc clang => L "-E" ++ (if creating_pch c then L " -dD" else []) ++ (if clang && rewrite c then L " -frewrite-includes" else [])
  | Cl _ => L "/E" ++ (if creating_pch c then L " /d1PP" else [])
  | QtRcc => L " --list"
  | Generic => []
  | _ => L "-E"
  end.
(** AddAdditionalArgs_Common: CompilerDriver_GCCClang.cpp 174-193, CompilerDriver_CL.cpp 258-286. *)
Definition prefix_map (c : ctx) : str := quote :: L "-fdebug-prefix-map=" ++ work_dir c ++ L "=" ++ mapping c ++ [quote].
Definition extra_common (c : ctx) : str :=
  match family c with
  | Gcc _ => (if colour c then L " -fdiagnostics-color=always" else []) ++
             (if negb (teq (mapping c) []) && local c then L " " ++ prefix_map c else [])
  | Cl clang_cl =>
      (match pdb c with Some n => if local c then [] else L " /Fd" ++ [quote] ++ n ++ [quote] | None => [] end) ++
      (if clang_cl && negb (teq (mapping c) []) && local c then L " -Xclang " ++ L " " ++ prefix_map c else [])
  | _ => []
  end.

(** BuildArgs without its last step (Args::Finalize is in M_Args), ObjectNode.cpp 1789-1875. *)
Definition build_ops (c : ctx) (p : pass) (show_includes : bool) (options : str) : option (list arg_op) :=
  option_map (fun out => out ++ [Append (match p with Preprocess => extra_preprocessor c | _ => [] end);
                                 Append (extra_common c); Append (if show_includes then L " /showIncludes" else [])])
             (each_token (one_token c p) (tokenize space options)).
Definition build_args (c : ctx) (p : pass) (show_includes : bool) (options : str) : option str :=
  option_map (fun ops => fst (run_args ops [] [])) (build_ops c p show_includes options).

(** ProcessArg_PreparePreprocessedForRemote: CompilerDriver_GCCClang.cpp 197-210, CompilerDriver_CL.cpp 290-308; and the
    loop of SaveRemote, ObjectNode.cpp 1232-1251. *)
Definition for_remote (c : ctx) (t next : str) : act :=
  first_of [match family c with
            | Gcc _ => first_of [x_language c t next; dependency_option t]
            | Cl _ => source_dependencies t
            | _ => Pass_
            end; Did [Append t; AddDelimiter] false].
Definition save_remote (c : ctx) (options : str) : option str :=
  option_map (fun ops => fst (run_args ops [] [])) (each_token (for_remote c) (tokenize space options)).
(** DoBuild_Remote 222-231 and DoBuildWithPreProcessor2 580-594 on the worker: the options that were received, with
    the name of the temporary file that holds the preprocessed text. *)
Definition remote_args (c : ctx) (received : str) : option str := build_args c CompilePreprocessed false received.

(** ** The command line in the cache key: GetCommandLineKey, ObjectNode.cpp 1388-1407, up to the hash.  The override
    and the source mapping are not set (1395, 1821-1822). *)
Definition set_names (c : ctx) (o m : str) : ctx :=
  mkC (family c) (local c) (plt c) (source c) (object c) o (base c) (colour c) m (work_dir c) (remote_root c)
      (upd_x c) (rewrite c) (creating_pch c) (pch_object c) (using_files c) (pdb c).
Definition key_text (c : ctx) (options : str) : option str :=
  option_map (fun a => if local c then a ++ [space] ++ mapping c else a)
             (build_args (set_names c [] []) CompilePreprocessed false options).

(** ShouldUseDeoptimization, ObjectNode.cpp 2662-2707.  [content]: [None] when the file cannot be opened or read. *)
Definition marker : str := L "FASTBUILD_DEOPTIMIZE_OBJECT".
Fixpoint c_text (s : str) : str := match s with [] => [] | c :: r => if Ascii.eqb c nul then [] else c :: c_text r end.
Definition deoptimize (unity with_token always read_only : bool) (content : option str) : bool :=
  if unity then false
  else if negb with_token && negb always then false
  else if read_only then false
  else if always then true
  else match content with
       | Some s => match find marker (c_text (firstn (N.to_nat 1024) s)) with Some _ => true | None => false end
       | None => false
       end.

(** Which options are used and which are in the key: DoBuild 188-207, GetCommandLineKey 1391 (always false) and
    GetCommandLine 3012-3029. *)
Definition options_used (deopt : bool) (normal deoptimized : str) : str := if deopt then deoptimized else normal.
Definition options_in_key (deopt : bool) (normal deoptimized : str) : str := options_used false normal deoptimized.
