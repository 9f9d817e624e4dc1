(** What the statements of C54 are about: what the right hand side of an assignment means, and what the operators do. *)
From Coq Require Import String List Arith NArith ZArith Bool Ascii.
From Coq.Numbers Require Import DecimalString.
Import ListNotations.
Require Import Verif.M_Path Verif.M_Scope Verif.S_Scope.
Open Scope nat_scope.

(** How a value is written where text is expected: true, false, the decimal digits of a number, or the text itself. *)
Inductive written : value -> str -> Prop :=
| written_true : written (VBool true) (L "true"%string)
| written_false : written (VBool false) (L "false"%string)
| written_int : forall z, written (VInt z) (L (NilEmpty.string_of_int (Z.to_int z)))
| written_text : forall s, written (VStr s) s.
(** What a text in quotes stands for: '$name$' is replaced by the value of the variable, and the character after '^' stands for itself. *)
Inductive reads (st : list frame) : str -> str -> Prop :=
| reads_nil : reads st [] []
| reads_char : forall c r t, c <> "$"%char -> c <> "^"%char -> reads st r t -> reads st (c :: r) (c :: t)
| reads_escaped : forall c r t, reads st r t -> reads st ("^"%char :: c :: r) (c :: t)
| reads_last : reads st ["^"%char] []
| reads_var : forall n x w r t, n <> [] -> ~ In "$"%char n -> sees st n x -> written x w -> reads st r t ->
    reads st ("$"%char :: n ++ "$"%char :: r) (w ++ t).
(** A variable name may be written as a text in quotes. *)
Inductive named (st : list frame) : name -> str -> Prop :=
| named_plain : forall n, named st (NPlain n) n
| named_text : forall raw n, reads st raw n -> named st (NText raw) n.

(** What a variable adds to an array literal. *)
Inductive pieces : value -> list value -> Prop :=
| pieces_text : forall s, pieces (VStr s) [VStr s]
| pieces_struct : forall m, pieces (VStruct m) [VStruct m]
| pieces_texts : forall l, pieces (VStrs l) (map VStr l)
| pieces_structs : forall l, pieces (VStructs l) (map VStruct l).
Inductive gathers (st : list frame) : list elem -> list value -> Prop :=
| gathers_nil : gathers st [] []
| gathers_text : forall raw x r l, reads st raw x -> gathers st r l -> gathers st (EText raw :: r) (VStr x :: l)
| gathers_var : forall (parent : bool) n m v ps r l, named st n m -> sees (if parent then tl st else st) m v -> pieces v ps -> gathers st r l ->
    gathers st (EVar parent n :: r) (ps ++ l).
(** The value of a right hand side that is not a struct literal.  An empty array literal is an array of texts. *)
Inductive evaluates (st : list frame) : rhs -> value -> Prop :=
| eval_text : forall raw x, reads st raw x -> evaluates st (RText raw) (VStr x)
| eval_int : forall z, evaluates st (RInt z) (VInt z)
| eval_bool : forall b, evaluates st (RBool b) (VBool b)
| eval_var : forall (parent : bool) n m x, named st n m -> sees (if parent then tl st else st) m x -> evaluates st (RVar parent n) x
| eval_texts : forall l xs, gathers st l (map VStr xs) -> evaluates st (RArray l) (VStrs xs)
| eval_structs : forall l ms, ms <> [] -> gathers st l (map VStruct ms) -> evaluates st (RArray l) (VStructs ms).

Definition fits (z : Z) : Prop := (-2147483648 <= z <= 2147483647)%Z.
(** The members of s whose names are not in [seen], the first of each name. *)
Fixpoint added (seen : list str) (s : list (str * value)) : list (str * value) :=
  match s with
  | [] => []
  | (n, x) :: r => if existsb (fun k => if list_eq_dec ascii_dec k n then true else false) seen then added seen r else (n, x) :: added (n :: seen) r
  end.
(** The first member of a name. *)
Definition member (s : list (str * value)) (n : str) (x : value) : Prop :=
  exists l r, s = l ++ (n, x) :: r /\ ~ In n (map fst l).

(** Adding structs member by member: the members of both are put together, the others are kept. *)
Inductive joins : value -> value -> value -> Prop :=
| joins_text : forall a b, joins (VStr a) (VStr b) (VStr (a ++ b))
| joins_int : forall a b, fits (a + b) -> joins (VInt a) (VInt b) (VInt (a + b))
| joins_bool : forall a b, joins (VBool a) (VBool b) (VBool (a || b))
| joins_texts : forall a b, joins (VStrs a) (VStrs b) (VStrs (a ++ b))
| joins_structs : forall a b, joins (VStructs a) (VStructs b) (VStructs (a ++ b))
| joins_one_text : forall a b, joins (VStrs a) (VStr b) (VStrs (a ++ [b]))
| joins_one_struct : forall a b, joins (VStructs a) (VStruct b) (VStructs (a ++ [b]))
| joins_empty_text : forall b, joins (VStructs []) (VStr b) (VStrs [b])
| joins_empty_struct : forall b, joins (VStrs []) (VStruct b) (VStructs [b])
| joins_texts_none : forall a, joins (VStrs a) (VStructs []) (VStrs a)
| joins_structs_none : forall a, joins (VStructs a) (VStrs []) (VStructs a)
| joins_none_structs : forall b, b <> [] -> joins (VStrs []) (VStructs b) (VStructs b)
| joins_none_texts : forall b, b <> [] -> joins (VStructs []) (VStrs b) (VStrs b)
| joins_struct : forall d s d', joins_members s d d' -> joins (VStruct d) (VStruct s) (VStruct (d' ++ added (map fst d) s))
with joins_members : list (str * value) -> list (str * value) -> list (str * value) -> Prop :=
| joins_none : forall s, joins_members s [] []
| joins_both : forall s n x y z d d', member s n y -> joins x y z -> joins_members s d d' -> joins_members s ((n, x) :: d) ((n, z) :: d')
| joins_only : forall s n x d d', ~ In n (map fst s) -> joins_members s d d' -> joins_members s ((n, x) :: d) ((n, x) :: d').

(** What = x, + x and - x make of a variable. *)
Inductive effect : op -> option value -> value -> value -> Prop :=
| new_var : forall x, effect Assign None x x
| set_text : forall a b, effect Assign (Some (VStr a)) (VStr b) (VStr b)
| add_text : forall a b, effect Plus (Some (VStr a)) (VStr b) (VStr (a ++ b))
| drop_text : forall a b c, b <> [] -> without b a c -> effect Minus (Some (VStr a)) (VStr b) (VStr c)
| drop_nothing : forall a, effect Minus (Some (VStr a)) (VStr []) (VStr a)
| set_int : forall a b, effect Assign (Some (VInt a)) (VInt b) (VInt b)
| add_int : forall a b, fits (a + b) -> effect Plus (Some (VInt a)) (VInt b) (VInt (a + b))
| sub_int : forall a b, fits (a - b) -> effect Minus (Some (VInt a)) (VInt b) (VInt (a - b))
| set_bool : forall a b, effect Assign (Some (VBool a)) (VBool b) (VBool b)
| set_texts : forall a b, effect Assign (Some (VStrs a)) (VStrs b) (VStrs b)
| add_texts : forall a b, effect Plus (Some (VStrs a)) (VStrs b) (VStrs (a ++ b))
| set_structs : forall a b, effect Assign (Some (VStructs a)) (VStructs b) (VStructs b)
| add_structs : forall a b, effect Plus (Some (VStructs a)) (VStructs b) (VStructs (a ++ b))
| only_text : forall a b, effect Assign (Some (VStrs a)) (VStr b) (VStrs [b])
| more_text : forall a b, effect Plus (Some (VStrs a)) (VStr b) (VStrs (a ++ [b]))
| less_text : forall a b, effect Minus (Some (VStrs a)) (VStr b) (VStrs (filter (fun y => if list_eq_dec ascii_dec y b then false else true) a))
| only_struct : forall a b, effect Assign (Some (VStructs a)) (VStruct b) (VStructs [b])
| more_struct : forall a b, effect Plus (Some (VStructs a)) (VStruct b) (VStructs (a ++ [b]))
(* an empty array takes whatever is put into it *)
| empty_text : forall o b, o <> Minus -> effect o (Some (VStructs [])) (VStr b) (VStrs [b])
| empty_no_text : forall b, effect Minus (Some (VStructs [])) (VStr b) (VStrs [])
| empty_struct : forall o b, o <> Minus -> effect o (Some (VStrs [])) (VStruct b) (VStructs [b])
| empty_texts : forall o b, o <> Minus -> b <> [] -> effect o (Some (VStructs [])) (VStrs b) (VStrs b)
| empty_structs : forall o b, o <> Minus -> b <> [] -> effect o (Some (VStrs [])) (VStructs b) (VStructs b)
| texts_none : forall a, effect Plus (Some (VStrs a)) (VStructs []) (VStrs a)
| texts_clear : forall a, effect Assign (Some (VStrs a)) (VStructs []) (VStrs [])
| structs_none : forall a, effect Plus (Some (VStructs a)) (VStrs []) (VStructs a)
| structs_clear : forall a, effect Assign (Some (VStructs a)) (VStrs []) (VStructs [])
| set_struct : forall a b, effect Assign (Some (VStruct a)) (VStruct b) (VStruct b)
| add_struct : forall a b c, joins (VStruct a) (VStruct b) c -> effect Plus (Some (VStruct a)) (VStruct b) c.

(** The members of a struct have different names, and so on inside. *)
Inductive tidy : value -> Prop :=
| tidy_text : forall s, tidy (VStr s)
| tidy_bool : forall b, tidy (VBool b)
| tidy_int : forall z, tidy (VInt z)
| tidy_texts : forall l, tidy (VStrs l)
| tidy_struct : forall m, NoDup (map fst m) -> (forall n x, In (n, x) m -> tidy x) -> tidy (VStruct m)
| tidy_structs : forall l, (forall m, In m l -> tidy (VStruct m)) -> tidy (VStructs l).
