(** Model of how programs and libraries are linked.  Sources (in Code/Tools/FBuild/FBuildCore/Graph): LinkerNode.cpp
    BuildArgs 478-572, GetInputFiles 576-676, GetAssemblyResourceFiles 680-705, DetermineLinkerTypeFlags 709-774,
    DetermineFlags 778-901, IsLinkerArg_MSVC and its kin 905-969, GetImportLibName 1061-1093, GetOtherLibraries
    1097-1345, GetOtherLibrary 1349-1441, GetOtherLibsArg 1445-1522, DependOnNode 1526-1630; LibraryNode.cpp BuildArgs
    239-323; ObjectListNode.cpp GetInputFiles 630-683; DLLNode.cpp GetImportLibName 35-62.
    Not modelled: the limits on the sizes of strings, and running the linker. *)
From Coq Require Import String List Arith Bool Ascii.
From Verif Require Import M_Path M_Names M_Args M_Drv.
Import ListNotations.
Open Scope list_scope.

(** AString::EqualsI, EndsWithI and FindI: case of the letters A-Z is ignored, AString.cpp 1025-1050. *)
Definition teq_i (a b : str) : bool := teq (lower a) (lower b).
Definition ends_with_i (s suf : str) : bool := ends_with (lower s) (lower suf).
Definition has_i (o t : str) : bool := match find (lower o) (lower t) with Some _ => true | None => false end.

(** IsLinkerArg_MSVC, LinkerNode.cpp 905-924; IsStartOfLinkerArg_MSVC 928-947; IsStartOfLinkerArg 951-970.  Tokens are
    not empty. *)
Definition is_larg (t o : str) : bool := dash t && (List.length t - 1 =? List.length o) && ends_with_i t o.
Definition is_lstart (t o : str) : bool := dash t && negb (List.length t - 1 <? List.length o) && starts_with (lower o) (lower (tl t)).
Definition is_start_gcc (t o : str) : bool :=
  match t with c :: r => Ascii.eqb c "-"%char && negb (List.length r <? List.length o) && starts_with o r | [] => false end.

(** ** Inputs *)
(** How a shared library is linked to, DLLNode.cpp 47-61. *)
Inductive dkind := DMsvc | DOrbis | DOther.
(** Nodes an executable is linked from, each with those it is made of (the dependencies form a tree here; a node shared
    by two others appears twice).  [Obj n None]: an object; [Obj n (Some (own, o))]: one that creates a precompiled
    header, with the object [o] to link when [own] (MSVC and clang-cl). *)
Inductive inode :=
| Obj (name : str) (pch : option (bool * str))
| OList (deps : list inode)
| Lib (name : str) (deps : list inode)
| Dll (name implib : str) (k : dkind)
| Copy (src : inode)
| Other (name : str).

(** DLLNode::GetImportLibName, DLLNode.cpp 35-62. *)
Definition import_lib (name implib : str) (k : dkind) : str :=
  if negb (teq implib []) then implib
  else match k with
       | DMsvc => strip_ext name ++ L ".lib"
       | DOrbis => strip_ext name ++ L "_stub_weak.a"
       | DOther => name
       end.
(** Node::GetName; the name of an object list or of a copy is not used below. *)
Definition mem (x : str) (l : list str) : bool := existsb (teq x) l.

(** ObjectListNode::GetInputFiles, ObjectListNode.cpp 630-683, for one dependency; [acc]: outInputs. *)
Fixpoint list_inputs (objs : bool) (n : inode) (acc : list str) {struct n} : list str :=
  let all := fix all (ds : list inode) (acc : list str) {struct ds} : list str :=
    match ds with [] => acc | d :: r => all r (list_inputs objs d acc) end in
  match n with
  | Obj _ (Some (true, o)) => if mem o acc then acc else acc ++ [o]
  | Obj _ (Some (false, _)) => acc
  | OList ds => all ds acc
  | Lib nm ds => if objs then all ds acc else acc ++ [nm]
  | Obj nm None | Dll nm _ _ | Other nm => acc ++ [nm]
  | Copy _ => acc
  end.
Definition lists_inputs (objs : bool) : list inode -> list str -> list str :=
  fix all (ds : list inode) (acc : list str) {struct ds} : list str :=
    match ds with [] => acc | d :: r => all r (list_inputs objs d acc) end.
(** LinkerNode::GetInputFiles for one node, LinkerNode.cpp 638-676; [objs]: m_LinkerLinkObjects. *)
Fixpoint node_inputs (objs : bool) (n : inode) (acc : list str) : list str :=
  match n with
  | Lib nm ds => if objs then lists_inputs objs ds acc else acc ++ [nm]
  | OList ds => lists_inputs objs ds acc
  | Dll nm imp k => acc ++ [import_lib nm imp k]
  | Copy s => node_inputs objs s acc
  | Obj nm _ | Other nm => acc ++ [nm]
  end.
(** LinkerNode.cpp 613-634: all dependencies of a range. *)
Definition inputs (objs : bool) (ns : list inode) : list str := fold_left (fun acc n => node_inputs objs n acc) ns [].
(** GetAssemblyResourceFiles, LinkerNode.cpp 680-705. *)
Definition resource_inputs (n : inode) (acc : list str) : list str :=
  match n with
  | OList ds | Lib _ ds => lists_inputs false ds acc
  | Obj nm _ | Dll nm _ _ | Other nm => acc ++ [nm]
  | Copy _ => acc
  end.
Definition resources (ns : list inode) : list str := fold_left (fun acc n => resource_inputs n acc) ns [].

(** ** Command lines *)
(** What LinkerNode::BuildArgs uses: its three groups of dependencies, its own name, and whether the linker is MSVC's. *)
Record lctx := mkL { msvc : bool; link_objects : bool; name : str; libs1 : list inode; libs2 : list inode; res : list inode }.

(** A token repeated for each name, LinkerNode.cpp 627-633. *)
Definition each (a b : str) (names : list str) : list arg_op :=
  flat_map (fun n => [Append a; Append n; Append b; AddDelimiter]) names.
(** while ( EndsWith( backslash ) ) Trim, LinkerNode.cpp 539-542. *)
Fixpoint drop_bslashes (r : str) : str := match r with c :: r' => if Ascii.eqb c bslash then drop_bslashes r' else r | [] => [] end.
Definition trim_bslashes (s : str) : str := rev (drop_bslashes (rev s)).

Section Cleaner.
(** NodeGraph::CleanPath: [cpr] with makeFullPath false. *)
Variable cpr : str -> str.

(** LinkerNode::GetInputFiles for a token, LinkerNode.cpp 576-609. *)
Definition token_inputs (c : lctx) (t : str) : list arg_op :=
  match find (L "%1[0]") t with
  | Some (a, b) => each a b (inputs (link_objects c) (libs1 c))
  | None =>
      match find (L "%1[1]") t with
      | Some (a, b) => each a b (inputs (link_objects c) (libs2 c))
      | None =>
          match find (L "%1") t with
          | Some (a, b) => each a b (inputs (link_objects c) (libs1 c ++ libs2 c))
          | None => []
          end
      end
  end.
(** One token, LinkerNode.cpp 486-558. *)
Definition link_token (c : lctx) (t : str) : list arg_op :=
  match find (L "%1") t with
  | Some _ => token_inputs c t ++ [AddDelimiter]
  | None =>
      match find (L "%2") t with
      | Some (a, b) => [Append a; Append (name c); Append b; AddDelimiter]
      | None =>
          let untouched := [Append t; AddDelimiter] in
          if msvc c then
            match find (L "%3") t with
            | Some (a, b) => each a b (resources (res c))
            | None =>
                if is_lstart t (L "LIBPATH:") then
                  [Append (firstn 1 t); Append (L "LIBPATH:" ++ [quote]);
                   Append (trim_bslashes (cpr (strip_quotes (skipn 9 t)))); Append [quote]; AddDelimiter]
                else untouched
            end
          else untouched
      end
  end.
(** LinkerNode::BuildArgs, LinkerNode.cpp 478-559. *)
Definition link_ops (c : lctx) (options : str) : list arg_op := flat_map (link_token c) (tokenize space options).
End Cleaner.

(** LibraryNode::BuildArgs, LibraryNode.cpp 239-302, one token.  [lib]: LIB_FLAG_LIB. *)
Definition librarian_token (lib : bool) (nm : str) (ds : list inode) (t : str) : list arg_op :=
  let ins := lists_inputs (negb lib) ds [] in
  let cut n := firstn (List.length t - n) t in
  (if ends_with t (L "%1") then flat_map (fun i => [Append (cut 2); Append i; AddDelimiter]) ins
   else if ends_with t (quote :: L "%1" ++ [quote]) then flat_map (fun i => [Append (cut 3); Append i; Append [quote]; AddDelimiter]) ins
   else if ends_with t (L "%2") then [Append (cut 2); Append nm]
   else if ends_with t (quote :: L "%2" ++ [quote]) then [Append (cut 3); Append nm; Append [quote]]
   else [Append t]) ++ [AddDelimiter].
Definition librarian_ops (lib : bool) (nm : str) (ds : list inode) (options : str) : list arg_op :=
  flat_map (librarian_token lib nm ds) (tokenize space options).

(** ** Kinds of linkers, LinkerNode.cpp 709-774 *)
Inductive linker := LMsvc | LGcc | LSnc | LOrbis | LElxr | LWarrior | LUnknown.
Definition ends_exe (nm o : str) : bool := ends_with_i nm (o ++ L ".exe") || ends_with_i nm o.
Definition linker_of (type exe : str) : linker :=
  if teq type [] || teq type (L "auto") then
    if ends_exe exe (L "link") then LMsvc
    else if ends_exe exe (L "gcc") then LGcc
    else if ends_exe exe (L "ps3ppuld") then LSnc
    else if ends_exe exe (L "orbis-ld") then LOrbis
    else if ends_exe exe (L "elxr") then LElxr
    else if ends_exe exe (L "mwldeppc") then LWarrior
    else LUnknown
  else if teq type (L "msvc") then LMsvc
  else if teq type (L "gcc") then LGcc
  else if teq type (L "snc-ps3") then LSnc
  else if teq type (L "clang-orbis") then LOrbis
  else if teq type (L "greenhills-exlr") then LElxr
  else if teq type (L "codewarrior-ld") then LWarrior
  else LUnknown.

(** DetermineFlags, LinkerNode.cpp 778-901: the local variables, and the flags. *)
Record lflags := mkF { f_dll : bool; f_debug : bool; f_inc : bool; f_incno : bool; f_wx : bool; f_opt : bool; f_order : bool }.
Definition no_flags : lflags := mkF false false false false false false false.
(** One of REF, ICF, LBR in /OPT, LinkerNode.cpp 829-842 (the three variables are only used together, so [f_opt] is any of them). *)
Definition opt_on (t o : str) : bool := has_i o t && negb (has_i (L "NO" ++ o) t).
Definition flag_token (t : str) (f : lflags) : lflags :=
  if is_larg t (L "DLL") then mkF true (f_debug f) (f_inc f) (f_incno f) (f_wx f) (f_opt f) (f_order f)
  else if is_larg t (L "DEBUG") then mkF (f_dll f) true (f_inc f) (f_incno f) (f_wx f) (f_opt f) (f_order f)
  else if is_larg t (L "INCREMENTAL") then mkF (f_dll f) (f_debug f) true (f_incno f) (f_wx f) (f_opt f) (f_order f)
  else if is_larg t (L "INCREMENTAL:NO") then mkF (f_dll f) (f_debug f) (f_inc f) true (f_wx f) (f_opt f) (f_order f)
  else if is_larg t (L "WX") then mkF (f_dll f) (f_debug f) (f_inc f) (f_incno f) true (f_opt f) (f_order f)
  else if is_lstart t (L "OPT") then
    mkF (f_dll f) (f_debug f) (f_inc f) (f_incno f) (f_wx f)
        (f_opt f || opt_on t (L "REF") || opt_on t (L "ICF") || opt_on t (L "LBR")) (f_order f)
  else if is_lstart t (L "ORDER") then mkF (f_dll f) (f_debug f) (f_inc f) (f_incno f) (f_wx f) (f_opt f) true
  else f.
(** The other linkers, LinkerNode.cpp 879-898. *)
Definition shared_token (t : str) : bool :=
  let t := lower t in
  teq t (L "-shared") || teq t (L "-dynamiclib") || teq t (L "--oformat=prx") || teq t (L "/dll") ||
  (starts_with (L "-Wl") t && match find (L "--oformat=prx") t with Some _ => true | None => false end).
(** The flags DLL, INCREMENTAL and WARNINGS_AS_ERRORS_MSVC. *)
Definition linker_flags (k : linker) (options : str) : bool * bool * bool :=
  let toks := tokenize space options in
  match k with
  | LMsvc => let f := fold_left (fun f t => flag_token t f) toks no_flags in
             (f_dll f, (f_debug f || f_inc f) && negb (f_incno f || f_opt f || f_order f), f_wx f)
  | _ => (existsb shared_token toks, false, false)
  end.

(** GetImportLibName, LinkerNode.cpp 1061-1093; [cur]: importLibName. *)
Fixpoint implib (toks : list str) (cur : str) {struct toks} : str :=
  match toks with
  | [] => cur
  | t :: r =>
      if is_lstart t (L "IMPLIB:") then
        match skipn 8 t with
        | [] => match r with v :: r' => implib r' (strip_quotes v) | [] => cur end
        | v => implib r (strip_quotes v)
        end
      else implib r cur
  end.

(** ** Libraries named in the options *)
(** What GetOtherLibraries collects, LinkerNode.cpp 1110-1117.  Its eight arrays are the mentions of each kind, in order. *)
Inductive mention :=
| NoDefaults | NoDefault (s : str) | Default (s : str) | LibPath (s : str)
| Input (s : str) | DashDyn (s : str) | DashStatic (s : str) | DashFile (s : str).

Section Others.
(** NodeGraph::CleanPath with makeFullPath true, and the slashes of the platform. *)
Variable cp : str -> str.
Variable p : plat.

(** GetOtherLibsArg, LinkerNode.cpp 1445-1499.  [None]: not this option.  The value is [None] when there is none; the
    flag says whether the next token is used up (also when there is no next token). *)
Definition libs_arg (msvc : bool) (o : str) (canon : bool) (t : str) (next : option str) : option (option str * bool) :=
  if (if msvc then is_lstart t o else is_start_gcc t o) then
    let clean v := if canon && negb (teq v []) then ensure_trailing p (cp v) else v in
    match skipn (1 + List.length o) t with
    | [] => Some (option_map (fun n => clean (strip_quotes n)) next, true)
    | v => Some (Some (clean (strip_quotes v)), false)
    end
  else None.
(** The version for lists, LinkerNode.cpp 1503-1522: empty values are not stored. *)
Definition stored (k : str -> mention) (a : option str) : list mention :=
  match a with Some (c :: v) => [k (c :: v)] | _ => [] end.

(** What is left, LinkerNode.cpp 1221-1236. *)
Definition plain_token (t : str) : list mention :=
  if starts_with (L "%") t || starts_with (L "'%") t || starts_with (quote :: L "%") t then [] else [Input (strip_quotes t)].
(** One token for MSVC, LinkerNode.cpp 1129-1159, and for the others 1162-1218.  The results: the mentions, whether the
    next token is used up, and isBstatic. *)
Definition step_msvc (t : str) (next : option str) : list mention * bool :=
  if is_larg t (L "NODEFAULTLIB") then ([NoDefaults], false)
  else match libs_arg true (L "NODEFAULTLIB:") false t next with Some (a, s) => (stored NoDefault a, s) | None =>
       match libs_arg true (L "DEFAULTLIB:") false t next with Some (a, s) => (stored Default a, s) | None =>
       match libs_arg true (L "LIBPATH:") true t next with Some (a, s) => (stored LibPath a, s) | None =>
       if dash t then ([], false) else (plain_token t, false) end end end.
Definition dynamic_options : list str :=
  [L "-Wl,-Bdynamic"; L "-Bdynamic"; L "-Wl,-dy"; L "-dy"; L "-Wl,-call_shared"; L "-call_shared"].
Definition static_options : list str :=
  [L "-Wl,-Bstatic"; L "-Bstatic"; L "-Wl,-dn"; L "-dn"; L "-Wl,-non_shared"; L "-non_shared"; L "-Wl,-static"].
Definition dash_l (st : bool) (v : str) : mention :=
  match v with
  | c :: r => if Ascii.eqb c ":"%char then DashFile r else if st then DashStatic v else DashDyn v
  | [] => if st then DashStatic v else DashDyn v
  end.
Definition step_gcc (st : bool) (t : str) (next : option str) : list mention * bool * bool :=
  match libs_arg false (L "L") false t next with
  | Some (a, s) => (stored LibPath a, s, st)
  | None =>
      match libs_arg false (L "l") false t next with
      | Some (a, s) => ([dash_l st (match a with Some v => v | None => [] end)], s, st)
      | None =>
          if mem t dynamic_options then ([], false, false)
          else if mem t static_options then ([], false, true)
          else if starts_with (L "-") t then ([], false, st)
          else (plain_token t, false, st)
      end
  end.
Definition step (msvc st : bool) (t : str) (next : option str) : list mention * bool * bool :=
  if msvc then (step_msvc t next, st) else step_gcc st t next.
(** The loop, LinkerNode.cpp 1124-1237.  When an option that wants a value is the last token, [it] is moved to the end
    by GetOtherLibsArg and then past it by the loop: it reads tokens that do not exist ([None]). *)
Fixpoint scan (msvc st : bool) (toks : list str) {struct toks} : option (list mention) :=
  match toks with
  | [] => Some []
  | t :: r =>
      let '(ms, skip, st') := step msvc st t (hd_error r) in
      option_map (app ms) (if skip then match r with _ :: r' => scan msvc st' r' | [] => None end else scan msvc st' r)
  end.

(** Filtering of default libraries, LinkerNode.cpp 1240-1259: for each ignored name the first match is erased. *)
Fixpoint erase_first (s : str) (l : list str) : list str :=
  match l with [] => [] | x :: r => if teq_i s x then r else x :: erase_first s r end.
Definition pick {A} (f : mention -> option A) (ms : list mention) : list A :=
  flat_map (fun m => match f m with Some a => [a] | None => [] end) ms.
Definition get_ignored m := match m with NoDefault s => Some s | _ => None end.
Definition get_default m := match m with Default s => Some s | _ => None end.
Definition get_path m := match m with LibPath s => Some s | _ => None end.
Definition get_input m := match m with Input s => Some s | _ => None end.
Definition get_dyn m := match m with DashDyn s => Some s | _ => None end.
Definition get_static m := match m with DashStatic s => Some s | _ => None end.
Definition get_file m := match m with DashFile s => Some s | _ => None end.
Definition all_ignored m := match m with NoDefaults => true | _ => false end.
Definition defaults_left (ms : list mention) : list str :=
  if existsb all_ignored ms then [] else fold_left (fun l s => erase_first s l) (pick get_ignored ms) (pick get_default ms).

(** The graph: names of nodes, and whether they are files; the first node with the name, in any case, is the one found
    (NodeGraph.cpp 1411-1432). *)
Definition lgraph := list (str * bool).
Definition node_named (g : lgraph) (f : str) : option (str * bool) := List.find (fun n => teq_i (fst n) f) g.
Variable disk : str -> bool. (* LinkerNodeFileExistsCache::FileExists *)

(** GetOtherLibrary for one path, LinkerNode.cpp 1349-1392.  [Stop]: an error was emitted. *)
Inductive search := Stop | NotHere | Here (dep : str) (g : lgraph).
Definition at_path (g : lgraph) (path lib : str) : search :=
  let f := cp ((if teq path [] then [] else ensure_trailing p path) ++ lib) in
  match node_named g f with
  | Some (d, true) => Here d g
  | Some (_, false) => Stop
  | None => if disk f then Here f (g ++ [(f, true)]) else NotHere
  end.
(** GetOtherLibrary for a list of paths, LinkerNode.cpp 1396-1417, and the loops for -l 1302-1322: the places to look at, in order. *)
Fixpoint at_places (g : lgraph) (places : list (str * str)) : option (list str * lgraph) :=
  match places with
  | [] => Some ([], g)
  | (path, lib) :: r => match at_path g path lib with Stop => None | Here d g' => Some ([d], g') | NotHere => at_places g r end
  end.
Definition is_drive (lib : str) : bool := (2 <? List.length lib) && Ascii.eqb (nth 1 lib nul) ":"%char.
Definition so_name (l : str) : str := L "lib" ++ l ++ L ".so".
Definition a_name (l : str) : str := L "lib" ++ l ++ L ".a".
(** The order of the searches, LinkerNode.cpp 1265-1342. *)
Definition searches (msvc : bool) (env : list str) (ms : list mention) : list (list (str * str)) :=
  let paths := pick get_path ms ++ env in
  let along l := map (fun q => (q, l)) paths in
  map (fun l => if is_drive l then [([], l)] else along l) (pick get_input ms ++ defaults_left ms) ++
  (if msvc then [] else
   map (fun l => flat_map (fun q => [(q, so_name l); (q, a_name l)]) paths) (pick get_dyn ms) ++
   map (fun l => along (a_name l)) (pick get_static ms) ++ map along (pick get_file ms)).
Fixpoint run_searches (g : lgraph) (ss : list (list (str * str))) : option (list str * lgraph) :=
  match ss with
  | [] => Some ([], g)
  | s :: r =>
      match at_places g s with
      | None => None
      | Some (d, g') => option_map (fun q => (d ++ fst q, snd q)) (run_searches g' r)
      end
  end.
(** GetOtherLibraries, LinkerNode.cpp 1097-1345.  Outer [None]: reads past the end; inner [None]: an error is reported. *)
Definition other_libraries (msvc : bool) (lib_env options : str) (g : lgraph) : option (option (list str * lgraph)) :=
  option_map (fun ms => run_searches g (searches msvc (tokenize ";"%char lib_env) ms)) (scan msvc false (tokenize space options)).
End Others.

(** ** .Libraries: LinkerNode::DependOnNode, LinkerNode.cpp 1556-1630 *)
(** A node that can be named there: an alias, or another node, with its type. *)
Inductive lkind := KLibrary | KObjectList | KDll | KFile | KCopyFile | KExec | KUnsupported.
Inductive lnode := Leaf (name : str) (k : lkind) | Alias (targets : list lnode).
(** The dependencies that are added, each with whether it is weak; [None]: an error. *)
Fixpoint depend_on (n : lnode) (acc : list (str * bool)) {struct n} : option (list (str * bool)) :=
  let all := fix all (l : list lnode) (acc : list (str * bool)) {struct l} : option (list (str * bool)) :=
    match l with [] => Some acc | d :: r => match depend_on d acc with None => None | Some acc' => all r acc' end end in
  match n with
  | Leaf nm KUnsupported => None
  | Leaf nm KDll => Some (acc ++ [(nm, true)])
  | Leaf nm _ => Some (acc ++ [(nm, false)])
  | Alias l => all l acc
  end.
(** DependOnNode by name, LinkerNode.cpp 1526-1552; [look]: FindNode. *)
Definition depend_on_name (look : str -> option lnode) (nm : str) (acc : list (str * bool)) : option (list (str * bool)) :=
  if teq nm [] then Some acc
  else match look nm with Some n => depend_on n acc | None => Some (acc ++ [(nm, false)]) end.
(** LinkerNode.cpp 121-129: all of .Libraries. *)
Fixpoint depend_on_names (look : str -> option lnode) (l : list str) (acc : list (str * bool)) : option (list (str * bool)) :=
  match l with [] => Some acc | x :: r => match depend_on_name look x acc with None => None | Some acc' => depend_on_names look r acc' end end.
