(** Vocabulary of property C89. *)

From Coq Require Import String List Bool Arith Ascii.
From Verif Require Import M_Path M_Args.
Import ListNotations.
Local Open Scope list_scope.

(** What a compiler takes for one option: one argument, or an argument with its
    value in the next one. *)
Inductive arg := One (t : str) | Two (o v : str).

(** The arguments of a command line. *)
Definition words (a : arg) : list str := match a with One t => [t] | Two o v => [o; v] end.
Definition line (args : list arg) : list str := flat_map words args.

(** The options text [opts] is this command line. *)
Definition spells (opts : str) (args : list arg) : Prop :=
  map remove_quotes (tokenize space opts) = line args.

(** [v] is the value that an option gives to a group of options that begin with
    one of some prefixes: the next argument, or what follows the first prefix
    that fits. *)
Inductive gives (group : list str) : arg -> str -> Prop :=
| g_next : forall o v, In o group -> gives group (Two o v) v
| g_rest : forall a p b v, group = a ++ p :: b -> (forall q, In q a -> forall x, p ++ v <> q ++ x) ->
    gives group (One (p ++ v)) v.

(** An option that is not of the group. *)
Definition foreign (group : list str) (a : arg) : Prop :=
  match a with One t => forall p x, In p group -> t <> p ++ x | Two o _ => ~ In o group end.

(** The values for the group, in order. *)
Inductive values (group : list str) : list arg -> list str -> Prop :=
| vs_nil : values group [] []
| vs_gives : forall a v r l, gives group a v -> values group r l -> values group (a :: r) (v :: l)
| vs_other : forall a r l, foreign group a -> values group r l -> values group (a :: r) l.

(** The arguments can be told from each other by their beginnings: no argument
    that is a value begins like an option of the group, none that is an option
    with a value of its own but not of the group does, and an option of the
    group that needs a value has one. *)
Definition tidy (group : list str) (a : arg) : Prop :=
  match a with
  | One t => ~ In t group
  | Two o v => (forall p x, In p group -> v <> p ++ x) /\
               (In o group \/ forall p x, In p group -> o <> p ++ x)
  end.

(** A value without the quotes around it.  A quote alone is nothing of the kind. *)
Inductive unwrapped : str -> str -> Prop :=
| uw_in : forall w, unwrapped (quote :: w ++ [quote]) w
| uw_as : forall v, v <> [quote] -> (forall w, v <> quote :: w ++ [quote]) -> unwrapped v v.

Definition nonempty (v : str) : bool := match v with [] => false | _ => true end.

(** A backslash before each quote. *)
Inductive escaped : str -> str -> Prop :=
| esc_nil : escaped [] []
| esc_quote : forall a b, escaped a b -> escaped (quote :: a) (bslash :: quote :: b)
| esc_char : forall c a b, c <> quote -> escaped a b -> escaped (c :: a) (c :: b).

(** How values are handed on. *)
Definition handed (esc : bool) : str -> str -> Prop := if esc then escaped else eq.

(** Options that name include directories, in the order in which compilers search
    the directories of a group; forced includes; definitions; language options. *)
Definition include_options : list (list str) :=
  [ [L "/I"; L "-I"]; [L "-isystem-after"; L "-isystem"]; [L "/imsvc"; L "-imsvc"];
    [L "-idirafter"]; [L "-iquote"]; [L "/external:I"; L "-external:I"] ].
Definition force_options : list str := [L "/FI"; L "-FI"].
Definition define_options : list str := [L "/D"; L "-D"].
Definition language_options : list str := [L "-std"; L "/std"; L "-wd"; L "/wd"].

(** What the arguments give to a group: the values that are there, without the
    quotes around them. *)
Definition found (group : list str) (args : list arg) (l : list str) : Prop :=
  exists raw inner, values group args raw /\ Forall2 unwrapped raw inner /\ l = filter nonempty inner.

(** [l] is the list of those arguments for which [P] holds. *)
Inductive picks (P : str -> Prop) : list str -> list str -> Prop :=
| pk_nil : picks P [] []
| pk_yes : forall t r l, P t -> picks P r l -> picks P (t :: r) (t :: l)
| pk_no : forall t r l, ~ P t -> picks P r l -> picks P (t :: r) l.

Definition begins_with_one_of (group : list str) (t : str) : Prop := exists p x, In p group /\ t = p ++ x.
