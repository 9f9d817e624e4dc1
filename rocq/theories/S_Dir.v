(** Specification vocabulary: what is in a tree of directories, and which of it a listing shows. *)
From Coq Require Import String List Ascii Bool.
From Verif Require Import M_Path M_Names M_Dir S_Glob.
Import ListNotations.
Open Scope list_scope.

Section P.
Context (p : plat).
(** [holds path es f n ro ds]: the directory [path] with the contents [es] has, somewhere below, the file with the full name [f], which is
    called [n] in its own directory; [ds] are the names and full names of the directories on the way. *)
Inductive holds : str -> list entry -> str -> str -> bool -> list (str * str) -> Prop :=
| holds_here path es n ro : In (EFile n ro) es -> holds path es (path ++ n) n ro []
| holds_below path es d es' f n ro ds : In (EDir d es') es -> holds (path ++ d ++ [native p]) es' f n ro ds ->
    holds path es f n ro ((d, path ++ d ++ [native p]) :: ds).
(** The same for a directory; [ds] are those on the way to it. *)
Inductive holds_dir : str -> list entry -> str -> str -> list (str * str) -> Prop :=
| holds_dir_here path es n sub : In (EDir n sub) es -> holds_dir path es (path ++ n ++ [native p]) n []
| holds_dir_below path es d es' f n ds : In (EDir d es') es -> holds_dir (path ++ d ++ [native p]) es' f n ds ->
    holds_dir path es f n ((d, path ++ d ++ [native p]) :: ds).

(** Names of files are compared as the platform does. *)
Definition alike (a b : ascii) : Prop := if windows p then lower_char a = lower_char b else a = b.
Definition fold (s : str) : str := if windows p then lower s else s.
Definition fits (pat s : str) : Prop := glob alike pat s.
Definition inside (excluded d : str) : Prop := exists x, fold d = fold excluded ++ x.
Definition is_named (f name : str) : Prop := fold f = fold name \/ exists d, fold f = d ++ native p :: fold name.
(** The name "." and names that begin with two dots. *)
Definition dotted (n : str) : Prop := n = L "." \/ exists x, n = L ".." ++ x.
(** A proper tree: names are not empty, have neither slash nor NUL, and differ in each directory. *)
Definition entry_name (e : entry) : str := match e with EFile n _ => n | EDir n _ => n end.
Definition name_ok (n : str) : Prop := n <> [] /\ ~ In nul n /\ ~ In (native p) n.
Inductive proper : entry -> Prop :=
| proper_file n ro : name_ok n -> proper (EFile n ro)
| proper_dir n es : name_ok n -> Forall proper es -> NoDup (map entry_name es) -> proper (EDir n es).
Definition tree (es : list entry) : Prop := Forall proper es /\ NoDup (map entry_name es).

(** The directories on the way are entered. *)
Definition open_to (o : opts) (ds : list (str * str)) : Prop :=
  forall d full, In (d, full) ds -> recurse o = true /\ ~ dotted d /\ forall x, In x (excl_paths o) -> ~ inside x full.
Definition shows (o : opts) (f n : str) : Prop :=
  (patterns o = [] \/ exists q, In q (patterns o) /\ fits q n) /\
  (forall x, In x (excl_files o) -> ~ is_named f x) /\ (forall q, In q (excl_patterns o) -> ~ fits q f).

(** The order of bytes. *)
Inductive before : str -> str -> Prop :=
| before_end c s : before [] (c :: s)
| before_byte a b s t : nat_of_ascii a < nat_of_ascii b -> before (a :: s) (b :: t)
| before_more a s t : before s t -> before (a :: s) (a :: t).
End P.

(** The disk [k] has the directory [path] with the contents [es]. *)
Definition has (p : plat) (k : disk) (path : str) (es : list entry) : Prop :=
  In path (fdirs k) /\
  (forall r, In (path ++ r) (ffiles k) <-> exists n ro ds, holds p path es (path ++ r) n ro ds) /\
  (forall r, r <> [] -> In (path ++ r) (fdirs k) <-> exists n ds, holds_dir p path es (path ++ r) n ds).
(** Nothing is in the directory [d]. *)
Definition bare (d : str) (k : disk) : Prop := forall r, r <> [] -> ~ In (d ++ r) (ffiles k) /\ ~ In (d ++ r) (fdirs k).
