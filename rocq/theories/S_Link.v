(** Specification vocabulary: what a linker should be given, what it depends on, and what its options mean.  Uses only the
    shapes of the data from the model ([inode], [mention], [lkind], [lnode]). *)
From Coq Require Import String List Arith Bool Ascii.
From Verif Require Import M_Path M_Names M_Args S_Args M_Drv S_Drv M_Link.
Import ListNotations.
Open Scope list_scope.

(** ** Inputs *)
(** One input: a file, or the object that goes with a precompiled header, of which one is enough. *)
Inductive entry := Plain_ (f : str) | Once (f : str).
Definition file_of (e : entry) : str := match e with Plain_ f | Once f => f end.
(** What a list of objects is made of; with [objs], libraries in it are replaced by their objects. *)
Inductive makes (objs : bool) : inode -> list entry -> Prop :=
| mk_obj nm : makes objs (Obj nm None) [Plain_ nm]
| mk_pch nm o : makes objs (Obj nm (Some (true, o))) [Once o]
| mk_no_pch nm o : makes objs (Obj nm (Some (false, o))) []
| mk_list ds es : makes_all objs ds es -> makes objs (OList ds) es
| mk_lib nm ds : objs = false -> makes objs (Lib nm ds) [Plain_ nm]
| mk_objs nm ds es : objs = true -> makes_all objs ds es -> makes objs (Lib nm ds) es
| mk_dll nm i k : makes objs (Dll nm i k) [Plain_ nm]
| mk_other nm : makes objs (Other nm) [Plain_ nm]
with makes_all (objs : bool) : list inode -> list entry -> Prop :=
| mk_nil : makes_all objs [] []
| mk_cons d es r es' : makes objs d es -> makes_all objs r es' -> makes_all objs (d :: r) (es ++ es').
(** What a program is linked from: for a shared library that is its import library, for a copy what was copied. *)
Inductive links (objs : bool) : inode -> list entry -> Prop :=
| lk_list ds es : makes_all objs ds es -> links objs (OList ds) es
| lk_lib nm ds : objs = false -> links objs (Lib nm ds) [Plain_ nm]
| lk_objs nm ds es : objs = true -> makes_all objs ds es -> links objs (Lib nm ds) es
| lk_dll_named nm i k : i <> [] -> links objs (Dll nm i k) [Plain_ i]
| lk_dll_msvc nm : links objs (Dll nm [] DMsvc) [Plain_ (strip_ext nm ++ L ".lib")]
| lk_dll_orbis nm : links objs (Dll nm [] DOrbis) [Plain_ (strip_ext nm ++ L "_stub_weak.a")]
| lk_dll nm : links objs (Dll nm [] DOther) [Plain_ nm]
| lk_copy s es : links objs s es -> links objs (Copy s) es
| lk_obj nm o : links objs (Obj nm o) [Plain_ nm]
| lk_other nm : links objs (Other nm) [Plain_ nm].
(** Copies do not occur inside lists of objects. *)
Fixpoint no_copies (n : inode) : Prop :=
  match n with
  | OList ds | Lib _ ds => (fix all (l : list inode) : Prop := match l with [] => True | d :: r => no_copies d /\ all r end) ds
  | Copy _ => False
  | _ => True
  end.
Fixpoint well_made (n : inode) : Prop :=
  match n with Copy s => well_made s | OList _ | Lib _ _ => no_copies n | _ => True end.
(** The files of a list of entries, without those that are there already and needed only once. *)
Fixpoint listed_files (before : list str) (es : list entry) : list str :=
  match es with
  | [] => []
  | Plain_ f :: r => f :: listed_files (before ++ [f]) r
  | Once f :: r => if in_dec (list_eq_dec ascii_dec) f before then listed_files before r else f :: listed_files (before ++ [f]) r
  end.

(** ** Command lines *)
(** The placeholders of a linker's options with the names that replace them.  The first in this list that occurs in an
    argument is replaced, at its first place, and the argument is repeated for each of the names. *)
Definition link_places (is_msvc : bool) (one two both nms rs : list str) : list (str * list str) :=
  [(L "%1[0]", one); (L "%1[1]", two); (L "%1", both); (L "%2", nms)] ++ (if is_msvc then [(L "%3", rs)] else []).
(** A directory of libraries for MSVC's linker: given in quotes, and without a backslash before the closing quote. *)
Definition lib_path (cpr : str -> str) (t : str) (out : str) : Prop :=
  exists d o v clean k, (d = "/"%char \/ d = "-"%char) /\ t = d :: o ++ v /\ lower o = L "libpath:" /\
    cpr (strip_quotes v) = clean ++ repeat bslash k /\ last clean nul <> bslash /\
    out = [d] ++ L "LIBPATH:" ++ [quote] ++ clean ++ [quote].
Inductive argument_of (is_msvc : bool) (cpr : str -> str) (places : list (str * list str)) (t : str) : list str -> Prop :=
| ar_place l1 o names l2 a b :
    places = l1 ++ (o, names) :: l2 -> Forall (fun x => ~ has (fst x) t) l1 -> cuts o t a b ->
    argument_of is_msvc cpr places t (map (fun n => a ++ n ++ b) names)
| ar_path out : Forall (fun x => ~ has (fst x) t) places -> is_msvc = true -> lib_path cpr t out -> argument_of is_msvc cpr places t [out]
| ar_same : Forall (fun x => ~ has (fst x) t) places -> (is_msvc = true -> forall out, ~ lib_path cpr t out) -> argument_of is_msvc cpr places t [t].

(** A librarian's placeholders are at the end of an argument, with or without quotes. *)
Inductive lib_argument (ins : list str) (nm : str) (t : str) : list str -> Prop :=
| la_in a : t = a ++ L "%1" -> lib_argument ins nm t (map (fun i => a ++ i) ins)
| la_in_q a : t = a ++ [quote] ++ L "%1" ++ [quote] -> lib_argument ins nm t (map (fun i => a ++ [quote] ++ i ++ [quote]) ins)
| la_out a : t = a ++ L "%2" -> lib_argument ins nm t [a ++ nm]
| la_out_q a : t = a ++ [quote] ++ L "%2" ++ [quote] -> lib_argument ins nm t [a ++ [quote] ++ nm ++ [quote]]
| la_same : (forall a o, o = L "%1" \/ o = L "%2" -> t <> a ++ o /\ t <> a ++ [quote] ++ o ++ [quote]) -> lib_argument ins nm t [t].

(** ** Options *)
(** An option of MSVC's linker: a slash or a dash, then its name in any case. *)
Definition option_ (t o : str) : Prop := exists d x, (d = "/"%char \/ d = "-"%char) /\ t = d :: x /\ lower x = lower o.
Definition option_with (t o v : str) : Prop := exists d x, (d = "/"%char \/ d = "-"%char) /\ t = d :: x ++ v /\ lower x = lower o.
Definition has_any_case (o t : str) : Prop := has (lower o) (lower t).
Definition keeps (t : str) : Prop :=
  exists o, In o [L "REF"; L "ICF"; L "LBR"] /\ has_any_case o t /\ ~ has_any_case (L "NO" ++ o) t.
(** Options with which MSVC links from scratch. *)
Definition from_scratch (t : str) : Prop :=
  option_ t (L "INCREMENTAL:NO") \/ ((exists v, option_with t (L "OPT") v) /\ keeps t) \/ (exists v, option_with t (L "ORDER") v).
Definition exe_named (exe o : str) : Prop :=
  exists a x, exe = a ++ x /\ (lower x = o \/ lower x = o ++ L ".exe").
(** The linkers that are told by the name of their file, in the order in which they are tried. *)
Definition by_name : list (str * linker) :=
  [(L "link", LMsvc); (L "gcc", LGcc); (L "ps3ppuld", LSnc); (L "orbis-ld", LOrbis); (L "elxr", LElxr); (L "mwldeppc", LWarrior)].
Definition by_type : list (str * linker) :=
  [(L "msvc", LMsvc); (L "gcc", LGcc); (L "snc-ps3", LSnc); (L "clang-orbis", LOrbis); (L "greenhills-exlr", LElxr); (L "codewarrior-ld", LWarrior)].

(** The import library of the options: the value of the last /IMPLIB:, attached or in the next argument. *)
Inductive implib_of : list str -> str -> str -> Prop :=
| il_nil cur : implib_of [] cur cur
| il_here t v r cur x : option_with t (L "IMPLIB:") v -> v <> [] -> implib_of r (strip_quotes v) x -> implib_of (t :: r) cur x
| il_next t v r cur x : option_ t (L "IMPLIB:") -> implib_of r (strip_quotes v) x -> implib_of (t :: v :: r) cur x
| il_none t cur : option_ t (L "IMPLIB:") -> implib_of [t] cur cur
| il_other t r cur x : (forall v, ~ option_with t (L "IMPLIB:") v) -> implib_of r cur x -> implib_of (t :: r) cur x.

(** ** Libraries named in the options *)
(** An option with a value: for MSVC as above, for the others a dash and the name, in this case. *)
Definition given (is_msvc : bool) (t o v : str) : Prop := if is_msvc then option_with t o v else t = "-"%char :: o ++ v.
(** The options that are read, and what their values mean. *)
Definition kept_if (k : str -> mention) (v : str) : list mention := match v with [] => [] | _ => [k v] end.
Definition valued (cp : str -> str) (p : plat) (is_msvc static : bool) : list (str * (str -> list mention)) :=
  if is_msvc then
    [(L "NODEFAULTLIB:", kept_if NoDefault); (L "DEFAULTLIB:", kept_if Default);
     (L "LIBPATH:", fun v => kept_if LibPath (match v with [] => [] | _ => ensure_trailing p (cp v) end))]
  else
    [(L "L", kept_if LibPath);
     (L "l", fun v => match v with ":"%char :: f => [DashFile f] | _ => [if static then DashStatic v else DashDyn v] end)].
Definition to_dynamic : list str := [L "-Bdynamic"; L "-dy"; L "-call_shared"; L "-Wl,-Bdynamic"; L "-Wl,-dy"; L "-Wl,-call_shared"].
Definition to_static : list str := [L "-Bstatic"; L "-dn"; L "-non_shared"; L "-Wl,-Bstatic"; L "-Wl,-dn"; L "-Wl,-non_shared"; L "-Wl,-static"].
Definition starts_option (is_msvc : bool) (t : str) : Prop := exists x, t = "-"%char :: x \/ (is_msvc = true /\ t = "/"%char :: x).
Definition placeholder (t : str) : Prop := exists x, t = "%"%char :: x \/ t = "'"%char :: "%"%char :: x \/ t = quote :: "%"%char :: x.
(** What a list of arguments mentions. *)
Inductive reads (cp : str -> str) (p : plat) (is_msvc : bool) : bool -> list str -> list mention -> Prop :=
| rd_nil st : reads cp p is_msvc st [] []
| rd_none st t r ms : is_msvc = true -> option_ t (L "NODEFAULTLIB") -> reads cp p is_msvc st r ms -> reads cp p is_msvc st (t :: r) (NoDefaults :: ms)
| rd_here st t r ms o f v : In (o, f) (valued cp p is_msvc st) -> given is_msvc t o v -> v <> [] ->
    reads cp p is_msvc st r ms -> reads cp p is_msvc st (t :: r) (f (strip_quotes v) ++ ms)
| rd_next st t v r ms o f : In (o, f) (valued cp p is_msvc st) -> given is_msvc t o [] ->
    reads cp p is_msvc st r ms -> reads cp p is_msvc st (t :: v :: r) (f (strip_quotes v) ++ ms)
| rd_dynamic st t r ms : is_msvc = false -> In t to_dynamic -> reads cp p is_msvc false r ms -> reads cp p is_msvc st (t :: r) ms
| rd_static st t r ms : is_msvc = false -> In t to_static -> reads cp p is_msvc true r ms -> reads cp p is_msvc st (t :: r) ms
| rd_option st t r ms : starts_option is_msvc t -> (is_msvc = true -> ~ option_ t (L "NODEFAULTLIB")) ->
    (forall o f v, In (o, f) (valued cp p is_msvc st) -> ~ given is_msvc t o v) ->
    (is_msvc = false -> ~ In t to_dynamic /\ ~ In t to_static) ->
    reads cp p is_msvc st r ms -> reads cp p is_msvc st (t :: r) ms
| rd_place st t r ms : ~ starts_option is_msvc t -> placeholder t -> reads cp p is_msvc st r ms -> reads cp p is_msvc st (t :: r) ms
| rd_input st t r ms : ~ starts_option is_msvc t -> ~ placeholder t -> reads cp p is_msvc st r ms -> reads cp p is_msvc st (t :: r) (Input (strip_quotes t) :: ms).

(** An option that wants a value stands at the end. *)
Definition value_missing (cp : str -> str) (p : plat) (is_msvc : bool) (toks : list str) : Prop :=
  exists pre t o f, toks = pre ++ [t] /\ In (o, f) (valued cp p is_msvc false) /\ given is_msvc t o [].

(** Where a library is looked for. *)
Definition below (p : plat) (dir f : str) : str := match dir with [] => f | _ => ensure_trailing p dir ++ f end.
Definition in_dirs (cp : str -> str) (p : plat) (dirs : list str) (f : str) : list str := map (fun d => cp (below p d f)) dirs.
(** "C:..." *)
Definition drive_path (f : str) : Prop := exists a b r, f = a :: ":"%char :: b :: r.
Definition dirs_of (env : list str) (ms : list mention) : list str := flat_map (fun m => match m with LibPath d => [d] | _ => [] end) ms ++ env.
(** The default libraries that stay. *)
Definition stays (ms : list mention) (d : str) : Prop :=
  ~ In NoDefaults ms /\ forall s, In (NoDefault s) ms -> lower s <> lower d.

(** One search: the first of these places at which there is something.  [known]: the nodes, each with whether it is a file. *)
Definition known_as (g : list (str * bool)) (f : str) (n : str * bool) : Prop :=
  exists a b, g = a ++ n :: b /\ lower (fst n) = lower f /\ Forall (fun m => lower (fst m) <> lower f) a.
Definition nothing_at (g : list (str * bool)) (disk : str -> bool) (f : str) : Prop :=
  Forall (fun m => lower (fst m) <> lower f) g /\ disk f = false.
Inductive finds (disk : str -> bool) (g : list (str * bool)) : list str -> list str -> list (str * bool) -> Prop :=
| fi_none places : Forall (nothing_at g disk) places -> finds disk g places [] g
| fi_node a f b d : Forall (nothing_at g disk) a -> known_as g f (d, true) -> finds disk g (a ++ f :: b) [d] g
| fi_file a f b : Forall (nothing_at g disk) a -> Forall (fun m => lower (fst m) <> lower f) g -> disk f = true ->
    finds disk g (a ++ f :: b) [f] (g ++ [(f, true)]).
(** A search that ends at something that is not a file is an error. *)
Definition ends_badly (disk : str -> bool) (g : list (str * bool)) (places : list str) : Prop :=
  exists a f b d, places = a ++ f :: b /\ Forall (nothing_at g disk) a /\ known_as g f (d, false).
Inductive finds_all (disk : str -> bool) : list (str * bool) -> list (list str) -> list str -> list (str * bool) -> Prop :=
| fa_nil g : finds_all disk g [] [] g
| fa_cons g s r d g' ds g'' : finds disk g s d g' -> finds_all disk g' r ds g'' -> finds_all disk g (s :: r) (d ++ ds) g''.

(** ** .Libraries *)
(** What a name stands for: itself, or what an alias stands for. *)
Inductive stands_for : lnode -> list (str * lkind) -> Prop :=
| sf_leaf nm k : stands_for (Leaf nm k) [(nm, k)]
| sf_alias l xs : stand_for l xs -> stands_for (Alias l) xs
with stand_for : list lnode -> list (str * lkind) -> Prop :=
| sf_nil : stand_for [] []
| sf_cons n xs r ys : stands_for n xs -> stand_for r ys -> stand_for (n :: r) (xs ++ ys).

(** Resources to embed: lists of objects (and libraries) by their objects, anything else by its name. *)
Inductive embeds : inode -> list entry -> Prop :=
| em_list ds es : makes_all false ds es -> embeds (OList ds) es
| em_lib nm ds es : makes_all false ds es -> embeds (Lib nm ds) es
| em_obj nm o : embeds (Obj nm o) [Plain_ nm]
| em_dll nm i k : embeds (Dll nm i k) [Plain_ nm]
| em_other nm : embeds (Other nm) [Plain_ nm].

(** The first of a list of choices that fits. *)
Definition first_fit {A} (fits : str -> Prop) (l : list (str * A)) (none : A) (x : A) : Prop :=
  (exists l1 o l2, l = l1 ++ (o, x) :: l2 /\ fits o /\ Forall (fun q => ~ fits (fst q)) l1) \/ (Forall (fun q => ~ fits (fst q)) l /\ x = none).

(** The members of a list that have a property, in order. *)
Inductive keeps_only (Q : str -> Prop) : list str -> list str -> Prop :=
| ko_nil : keeps_only Q [] []
| ko_yes x l r : Q x -> keeps_only Q l r -> keeps_only Q (x :: l) (x :: r)
| ko_no x l r : ~ Q x -> keeps_only Q l r -> keeps_only Q (x :: l) r.

(** Where the libraries of the options are looked for: a path with a drive where it is, anything else in the directories. *)
Inductive looks_at (cp : str -> str) (p : plat) (dirs : list str) (l : str) : list str -> Prop :=
| la_drive : drive_path l -> looks_at cp p dirs l [cp l]
| la_dirs : ~ drive_path l -> looks_at cp p dirs l (in_dirs cp p dirs l).
Definition of_kind {A} (f : mention -> list A) (ms : list mention) : list A := flat_map f ms.
Definition m_inputs := of_kind (fun m => match m with Input s => [s] | _ => [] end).
Definition m_defaults := of_kind (fun m => match m with Default s => [s] | _ => [] end).
Definition m_dynamic := of_kind (fun m => match m with DashDyn s => [s] | _ => [] end).
Definition m_static := of_kind (fun m => match m with DashStatic s => [s] | _ => [] end).
Definition m_files := of_kind (fun m => match m with DashFile s => [s] | _ => [] end).
(** -lfoo: in each directory first libfoo.so, then libfoo.a; only libfoo.a while static libraries are asked for; -l:file is that file. *)
Definition dash_places (cp : str -> str) (p : plat) (dirs : list str) (ms : list mention) : list (list str) :=
  map (fun l => flat_map (fun d => [cp (below p d (L "lib" ++ l ++ L ".so")); cp (below p d (L "lib" ++ l ++ L ".a"))]) dirs) (m_dynamic ms) ++
  map (fun l => in_dirs cp p dirs (L "lib" ++ l ++ L ".a")) (m_static ms) ++
  map (in_dirs cp p dirs) (m_files ms).

(** What a name in .Libraries stands for: nothing when it is empty; a file that is not built here when nothing has that name. *)
Inductive library_named (look : str -> option lnode) : str -> list (str * lkind) -> Prop :=
| ln_empty : library_named look [] []
| ln_known nm n xs : nm <> [] -> look nm = Some n -> stands_for n xs -> library_named look nm xs
| ln_file nm : nm <> [] -> look nm = None -> library_named look nm [(nm, KFile)].
(** Only on shared libraries is the dependency weak. *)
Definition weak_on (x : str * lkind) : str * bool := (fst x, match snd x with KDll => true | _ => false end).
