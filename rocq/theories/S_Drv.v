(** Specification vocabulary: what a compiler command line should be, given the options of the user.  Uses only the
    description of the situation ([ctx]) from the model, none of its functions on tokens. *)
From Coq Require Import String List Arith Bool Ascii.
From Verif Require Import M_Path M_Args S_Args.
From Verif Require Import M_Drv.
Import ListNotations.
Open Scope list_scope.

(** A token with pairs of quotes around it says what the token inside says. *)
Inductive unquoted : str -> str -> Prop :=
| uq_here t : unquoted t t
| uq_in t u : t <> [] -> unquoted t u -> unquoted (quote :: t ++ [quote]) u.

(** Options that are left out.  [Only o]: the token o; [Starting o]: tokens that start with o; [Taking o]: like Starting, and
    when the token is just o, its argument is the next token, which goes with it.  The forms for cl.exe leave open
    whether an option starts with a slash or a dash. *)
Inductive row := Only (o : str) | Starting (o : str) | Taking (o : str) | OnlyCl (o : str) | StartingCl (o : str) | TakingCl (o : str).
Definition dashed (t o : str) : Prop := t = "/"%char :: o \/ t = "-"%char :: o.
Definition covers (r : row) (t : str) : Prop :=
  match r with
  | Only o => t = o
  | Starting o => exists x, t = o ++ x
  | Taking o => exists x, unquoted t (o ++ x)
  | OnlyCl o => dashed t o
  | StartingCl o | TakingCl o => exists x, dashed t (o ++ x)
  end.
Definition takes (r : row) (t : str) : Prop :=
  match r with Taking o => unquoted t o | TakingCl o => dashed t o | _ => False end.

Definition analyzer_rows : list row :=
  [Only (L "--analyze"); Taking (L "-Xanalyzer"); Taking (L "-analyzer-output"); Taking (L "-analyzer-config"); Taking (L "-analyzer-checker")].
(** What is left out when preprocessing: options for the output file and for the later stages. *)
Definition removed_pre (f : fam) : list row :=
  match f with
  | Gcc clang => [Taking (L "-include-pch")] ++ (if clang then analyzer_rows else []) ++ [Taking (L "-o"); Only (L "-c")]
  | Cl clang_cl => [TakingCl (L "Yc")] ++ (if clang_cl then analyzer_rows else [])
  | Snc | Cuda | Wii | WiiU | Orbis => [Taking (L "-o"); Only (L "-c")]
  | Vbcc => [Taking (L "-o")]
  | QtRcc => [Taking (L "--output"); Taking (L "-o")]
  | Generic => []
  end.
(** What is left out when compiling preprocessed text: options the preprocessor has dealt with.  For GCC and Clang the
    dependency options are left out by the machine that preprocessed, before the options are sent to a worker. *)
Definition removed_post (f : fam) (here : bool) : list row :=
  match f with
  | Gcc clang => (if clang then [Taking (L "-I")] else []) ++ [Taking (L "-isysroot")] ++
                 (if here then [Only (L "-MD"); Taking (L "-MF")] else []) ++ [Taking (L "-include-pch"); Taking (L "-include")]
  | Cl _ => [TakingCl (L "Yu"); TakingCl (L "Fp")] ++ (if here then [] else [TakingCl (L "Fd")]) ++ [TakingCl (L "FI"); TakingCl (L "sourceDependencies")]
  | Orbis => [Taking (L "-include")]
  | _ => []
  end.
(** What is always left out. *)
Definition removed_always (f : fam) (force_colour : bool) : list row :=
  match f with
  | Gcc _ => if force_colour then [Starting (L "-fdiagnostics-color"); Only (L "-fno-diagnostics-color")] else []
  | Cl _ => [StartingCl (L "MP"); OnlyCl (L "Gm")]
  | _ => []
  end.
Definition removed (c : ctx) (p : pass) : list row :=
  match p with Preprocess => removed_pre (family c) | CompilePreprocessed => removed_post (family c) (local c) | _ => [] end
  ++ removed_always (family c) (colour c).

(** -x language, for text that is already preprocessed. *)
Definition language_kept (l : str) : str :=
  if teq l (L "c") then L "cpp-output"
  else if teq l (L "c++") || teq l (L "objective-c") || teq l (L "objective-c++") then l ++ L "-cpp-output" else l.
Definition renames (c : ctx) (p : pass) : Prop :=
  p = CompilePreprocessed /\ (exists clang, family c = Gcc clang) /\ local c = true /\ upd_x c = true.

(** The first occurrence of [o] in [t] is between [a] and [b]. *)
Definition has (o t : str) : Prop := exists a b, t = a ++ o ++ b.
Definition cuts (o t a b : str) : Prop := t = a ++ o ++ b /\ forall a' b', t = a' ++ o ++ b' -> List.length a <= List.length a'.

(** Placeholders, in the order in which they are looked for; the first one found in a token is the one replaced, and
    the token is repeated for each name. *)
Definition from_base (c : ctx) (n : str) : str := match base c with [] => n | _ => relative_path (plt c) (base c) n end.
Definition source_name (c : ctx) : str := match over c with [] => from_base c (source c) | o => o end.
Definition places (c : ctx) : list (str * list str * list str) :=
  match family c with Cl _ => [(L "%3", [pch_object c], []); (L "%4", using_files c, [[]])] | _ => [] end
  ++ [(L "%1", [source_name c], []); (L "%2", [from_base c (object c)], [])].

(** Tokens with a rule of their own: /ZW is not for the preprocessor; on a worker a relative include directory is put
    below the root of the machine the job is from; a backslash before the closing quote of an include directory goes. *)
Inductive special (c : ctx) (p : pass) (t : str) : list str -> Prop :=
| sp_winrt clang_cl : p = Preprocess -> family c = Cl clang_cl -> dashed t (L "ZW") -> special c p t [L "/D__cplusplus_winrt"]
| sp_include clang_cl s q q' path :
    p = CompilePreprocessed -> family c = Cl clang_cl -> local c = false ->
    dashed s (L "I") -> t = s ++ q ++ path ++ q' ->
    (q = [] /\ hd nul path <> quote \/ q = [quote]) -> (q' = [] /\ last path nul <> quote \/ q' = [quote]) ->
    is_full (plt c) path = false -> special c p t [s ++ q ++ remote_root c ++ [bslash] ++ path ++ q']
| sp_slash clang_cl s x :
    family c = Cl clang_cl -> dashed s (L "I") -> t = s ++ [quote] ++ x ++ [bslash; quote] ->
    (p <> CompilePreprocessed \/ local c = true \/ is_full (plt c) (x ++ [bslash]) = true) ->
    special c p t [s ++ [quote] ++ x ++ [quote]].

(** What a token that is not left out turns into. *)
Inductive becomes (c : ctx) (p : pass) (t : str) : list str -> Prop :=
| bc_special n : special c p t n -> becomes c p t n
| bc_place l1 l2 o names more a b :
    (forall n, ~ special c p t n) ->
    places c = l1 ++ (o, names, more) :: l2 -> Forall (fun x => ~ has (fst (fst x)) t) l1 -> cuts o t a b ->
    becomes c p t (map (fun n => a ++ n ++ b) names ++ more)
| bc_same : (forall n, ~ special c p t n) -> Forall (fun x => ~ has (fst (fst x)) t) (places c) -> becomes c p t [t].

(** The arguments that come of the user's tokens. *)
Inductive edited (c : ctx) (p : pass) : list str -> list str -> Prop :=
| ed_nil : edited c p [] []
| ed_drop r t l o : In r (removed c p) -> covers r t -> (forall r', In r' (removed c p) -> ~ takes r' t) ->
    edited c p l o -> edited c p (t :: l) o
| ed_drop_last r t : In r (removed c p) -> takes r t -> edited c p [t] []
| ed_drop_arg r t a l o : In r (removed c p) -> takes r t -> edited c p l o -> edited c p (t :: a :: l) o
| ed_language l r o : renames c p -> edited c p r o -> edited c p (L "-x" :: l :: r) (L "-x" :: language_kept l :: o)
| ed_keep t l n o : (forall r, In r (removed c p) -> ~ covers r t) -> ~ (renames c p /\ t = L "-x" /\ l <> []) ->
    becomes c p t n -> edited c p l o -> edited c p (t :: l) (n ++ o).

(** What is added behind the user's arguments. *)
Definition mapped (c : ctx) : str := [quote] ++ L "-fdebug-prefix-map=" ++ work_dir c ++ L "=" ++ mapping c ++ [quote].
Definition added (c : ctx) (p : pass) (show_includes : bool) : list str :=
  match p with
  | Preprocess =>
      match family c with
      | Gcc clang => [L "-E"] ++ (if creating_pch c then [L "-dD"] else []) ++ (if clang && rewrite c then [L "-frewrite-includes"] else [])
      | Cl _ => [L "/E"] ++ (if creating_pch c then [L "/d1PP"] else [])
      | QtRcc => [L "--list"]
      | Generic => []
      | _ => [L "-E"]
      end
  | _ => []
  end ++
  match family c with
  | Gcc _ => (if colour c then [L "-fdiagnostics-color=always"] else []) ++
             (match mapping c with [] => [] | _ => if local c then [mapped c] else [] end)
  | Cl clang_cl =>
      (match pdb c with Some n => if local c then [] else [L "/Fd" ++ [quote] ++ n ++ [quote]] | None => [] end) ++
      (match mapping c with [] => [] | _ => if clang_cl && local c then [L "-Xclang"; mapped c] else [] end)
  | _ => []
  end ++ (if show_includes then [L "/showIncludes"] else []).

(** A text that is one argument: not empty, its quotes are closed and all its spaces are inside quotes. *)
Definition quotes (us : list unit_) : nat := List.length (filter (fun u => match u with QuoteMark => true | _ => false end) us).
Definition single (t : str) : Prop := t <> [] /\ fields space false (lex t) = [lex t] /\ Nat.even (quotes (lex t)) = true.

(** Command lines for which cl.exe's /I has its directory attached, and a closing quote when there is an opening one. *)
Definition attached (t : str) : Prop := forall s, dashed s (L "I") -> t <> s /\ t <> s ++ [quote].

(** ** Work sent to another machine *)
(** The same situation on a worker: only the place differs. *)
Definition away (c : ctx) : ctx :=
  mkC (family c) false (plt c) (source c) (object c) (over c) (base c) (colour c) (mapping c) (work_dir c) (remote_root c)
      (upd_x c) (rewrite c) (creating_pch c) (pch_object c) (using_files c) (pdb c).
(** An option FASTBuild looks for in this command line. *)
Definition listed (c : ctx) (t : str) : Prop := (exists r, In r (removed c CompilePreprocessed) /\ covers r t) \/ t = L "-x".
(** What stands behind an option with an argument is really an argument: it is not such an option itself. *)
Definition argument_follows (c : ctx) (a b : str) : Prop :=
  ((exists r, In r (removed c CompilePreprocessed) /\ takes r a) -> ~ listed c b) /\
  (a = L "-x" -> ~ listed c b /\ ~ has (L "%1") b /\ ~ has (L "%2") b).
Definition neighbours (R : str -> str -> Prop) (toks : list str) : Prop :=
  forall pre a b post, toks = pre ++ a :: b :: post -> R a b.

(** ** The cache key *)
(** The same build in the directory [d]: files below it, paths relative to it. *)
Definition at_dir (c : ctx) (d src obj : str) : ctx :=
  mkC (family c) (local c) (plt c) (d ++ src) (d ++ obj) (over c) d (colour c) (mapping c) d (remote_root c)
      (upd_x c) (rewrite c) (creating_pch c) (pch_object c) (using_files c) (pdb c).
Definition recolour (c : ctx) (b : bool) : ctx :=
  mkC (family c) (local c) (plt c) (source c) (object c) (over c) (base c) b (mapping c) (work_dir c) (remote_root c)
      (upd_x c) (rewrite c) (creating_pch c) (pch_object c) (using_files c) (pdb c).
