(** Vocabulary of property C90: JSON documents (RFC 8259, those parts of it that
    occur), and what a compilation database should have. *)

From Coq Require Import String List Bool Arith Ascii.
From Verif Require Import M_Path M_Args S_Args M_Drv S_Drv M_Compdb.
From Verif Require M_Objs.
Import ListNotations.
Local Open Scope list_scope.

Inductive json := JString (s : str) | JArray (l : list json) | JObject (l : list (str * json)).

Definition blank (w : str) : Prop :=
  Forall (fun c => c = " "%char \/ c = ascii_of_nat 9 \/ c = ascii_of_nat 10 \/ c = ascii_of_nat 13) w.

(** A text is a value, the elements of an array, the members of an object. *)
Inductive value : json -> str -> Prop :=
| v_string : forall s x, json_decode x = Some s -> value (JString s) ([quote] ++ x ++ [quote])
| v_empty : forall w, blank w -> value (JArray []) (L "[" ++ w ++ L "]")
| v_array : forall l x, elements l x -> value (JArray l) (L "[" ++ x ++ L "]")
| v_object : forall l x, members l x -> value (JObject l) (L "{" ++ x ++ L "}")
with elements : list json -> str -> Prop :=
| e_last : forall j w x w', blank w -> value j x -> blank w' -> elements [j] (w ++ x ++ w')
| e_more : forall j w x w' l y, blank w -> value j x -> blank w' -> elements l y ->
    elements (j :: l) (w ++ x ++ w' ++ L "," ++ y)
with members : list (str * json) -> str -> Prop :=
| m_last : forall k key w1 w2 j w3 x w4, blank w1 -> json_decode key = Some k -> blank w2 -> blank w3 -> value j x -> blank w4 ->
    members [(k, j)] (w1 ++ [quote] ++ key ++ [quote] ++ w2 ++ L ":" ++ w3 ++ x ++ w4)
| m_more : forall k key w1 w2 j w3 x w4 l y, blank w1 -> json_decode key = Some k -> blank w2 -> blank w3 -> value j x -> blank w4 ->
    members l y ->
    members ((k, j) :: l) (w1 ++ [quote] ++ key ++ [quote] ++ w2 ++ L ":" ++ w3 ++ x ++ w4 ++ L "," ++ y).

Definition document (j : json) (t : str) : Prop := exists w x w', blank w /\ value j x /\ blank w' /\ t = w ++ x ++ w'.

(** An entry of a compilation database, as the Clang documentation describes it. *)
Record entry := { e_directory : str; e_file : str; e_output : str; e_arguments : list str }.
Definition json_of (e : entry) : json :=
  JObject [(L "directory", JString (e_directory e)); (L "file", JString (e_file e)); (L "output", JString (e_output e));
           (L "arguments", JArray (map JString (e_arguments e)))].

(** Text of 7-bit characters. *)
Definition ascii_text (s : str) : Prop := Forall (fun c => nat_of_ascii c < 128) s.
Definition ascii_entry (e : entry) : Prop :=
  ascii_text (e_directory e) /\ ascii_text (e_file e) /\ ascii_text (e_output e) /\ Forall ascii_text (e_arguments e).

(** Dependencies. *)
Definition deps (nd : node) : list nat := pre nd ++ static nd ++ dynamic nd.
Definition acyclic (g : graph) : Prop := exists rank : nat -> nat, forall n nd m,
  nth_error g n = Some nd -> In m (deps nd) -> rank m < rank n.
Definition closed (g : graph) : Prop := forall n nd m, nth_error g n = Some nd -> In m (deps nd) -> m < List.length g.
Inductive reach (g : graph) (roots : list nat) : nat -> Prop :=
| r_root : forall n, In n roots -> reach g roots n
| r_dep : forall n nd m, reach g roots n -> nth_error g n = Some nd -> In m (deps nd) -> reach g roots m.

(** The sources of an object list, each with its base directory: its loose files,
    then, for each input, the files in the directory, the files of the unity, or
    the input itself if it is a file.  [unity]: the input is one of a unity, which
    may also have object lists as inputs. *)
Inductive gives (g : graph) : bool -> nat -> list (str * str) -> Prop :=
| g_dir : forall u n nd path files, nth_error g n = Some nd -> kind nd = DirList path files ->
    gives g u n (map (fun f => (f, path)) files)
| g_unity : forall n nd i ls, nth_error g n = Some nd -> kind nd = Unity i -> Forall2 (gives g true) (static nd) ls ->
    gives g false n (concat ls)
| g_list : forall n nd o ls, nth_error g n = Some nd -> kind nd = ObjList o -> library o = false ->
    Forall2 (gives g false) (firstn (last o - first o) (skipn (first o) (static nd))) ls ->
    gives g true n (map (fun f => (f, [])) (loose o) ++ concat ls)
| g_file : forall u n nd, nth_error g n = Some nd ->
    (kind nd = Plain true \/ exists o, kind nd = ObjList o /\ library o = true) -> gives g u n [(name nd, [])]
| g_none : forall u n nd, nth_error g n = Some nd ->
    (kind nd = Plain false \/ (u = true /\ exists i, kind nd = Unity i) \/ (u = false /\ exists o, kind nd = ObjList o /\ library o = false)) ->
    gives g u n [].
Definition sources (g : graph) (nd : node) (o : olist) (l : list (str * str)) : Prop :=
  exists ls, Forall2 (gives g false) (firstn (last o - first o) (skipn (first o) (static nd))) ls /\
  l = map (fun f => (f, [])) (loose o) ++ concat ls.

(** An argument with the name of the source in place of the first %1 or, if there
    is none, that of the object in place of the first %2. *)
Inductive filled (source object : str) : str -> str -> Prop :=
| f_source : forall a x y, cuts (L "%1") a x y -> filled source object a (x ++ source ++ y)
| f_object : forall a x y, ~ has (L "%1") a -> cuts (L "%2") a x y -> filled source object a (x ++ object ++ y)
| f_plain : forall a, ~ has (L "%1") a -> ~ has (L "%2") a -> filled source object a a.

(** The arguments that are kept: all but the options of MSVC that begin with /analyze. *)
Definition analyze (a : str) : Prop := exists c x, (c = "/"%char \/ c = "-"%char) /\ a = c :: L "analyze" ++ x.
Inductive kept (ms : bool) : list str -> list str -> Prop :=
| k_nil : kept ms [] []
| k_drop : forall a l l', ms = true -> analyze a -> kept ms l l' -> kept ms (a :: l) l'
| k_keep : forall a l l', (ms = true -> ~ analyze a) -> kept ms l l' -> kept ms (a :: l) (a :: l').

Definition entry_for (p : plat) (dir : str) (o : olist) (src : str * str) (e : entry) : Prop :=
  e_directory e = dir /\ e_file e = fst src /\ e_output e = M_Objs.obj_name p (cfg o) (fst src) (snd src) /\
  exists args rest, kept (msvc o) (map remove_quotes (tokenize space (options o))) args /\
  Forall2 (filled (fst src) (e_output e)) args rest /\ e_arguments e = compiler o :: rest.

(** The entries: those of every object list or library that the targets need, one
    after another, each list once. *)
Definition database (p : plat) (g : graph) (dir : str) (roots : list nat) (entries : list entry) : Prop :=
  exists order per, NoDup order /\
  (forall n, In n order <-> reach g roots n /\ exists nd o, nth_error g n = Some nd /\ kind nd = ObjList o) /\
  Forall2 (fun n es => exists nd o srcs, nth_error g n = Some nd /\ kind nd = ObjList o /\ sources g nd o srcs /\
                       Forall2 (entry_for p dir o) srcs es) order per /\
  entries = concat per.
