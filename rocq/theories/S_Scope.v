(** What the statements of C38 are about: which value a name stands for in nested scopes. *)
From Coq Require Import List Arith NArith ZArith Bool Ascii.
Import ListNotations.
Require Import Verif.M_Path Verif.M_Scope.
Open Scope nat_scope.

(** The scopes are given innermost first.  A scope declares a variable when it is in its list. *)
Definition has (f : frame) (n : str) (v : var) : Prop :=
  vname v = n /\ exists l r, vars f = l ++ v :: r /\ forall w, In w l -> vname w <> n.
Definition declares (f : frame) (n : str) (x : value) : Prop := exists v, has f n v /\ val v = x.
Definition silent (f : frame) (n : str) : Prop := forall v, In v (vars f) -> vname v <> n.
(** The innermost scope that declares n gives it the value x. *)
Inductive sees : list frame -> str -> value -> Prop :=
| sees_here : forall f st n x, declares f n x -> sees (f :: st) n x
| sees_out : forall f st n x, silent f n -> sees st n x -> sees (f :: st) n x.
(** No scope declares n. *)
Definition unknown (st : list frame) (n : str) : Prop := forall f, In f st -> silent f n.

(** What kind of value a variable holds; an array may be of strings or of structs. *)
Inductive kind := KStr | KBool | KInt | KArray | KStruct.
Definition kind_of (x : value) : kind :=
  match x with VStr _ => KStr | VBool _ => KBool | VInt _ => KInt | VStrs _ | VStructs _ => KArray | VStruct _ => KStruct end.

(** Programs that assign to no variable of an outer scope with '^'.  The bodies of functions are not looked into. *)
Fixpoint plain (x : stmt) : bool :=
  match x with
  | SSet parent _ _ r => negb parent && plain_rhs r
  | SMore _ r => plain_rhs r
  | SScope b => forallb plain b
  | SIf _ _ b => forallb plain b
  | SForEach _ b => forallb plain b
  | SBlock _ b => forallb plain b
  | _ => true
  end
with plain_rhs (r : rhs) : bool := match r with RStruct b => forallb plain b | _ => true end.
Definition no_caret (b : list stmt) : bool := forallb plain b.

(** Programs in which no ForEach goes through more than four arrays at once. *)
Fixpoint narrow (x : stmt) : bool :=
  match x with
  | SSet _ _ _ r => narrow_rhs r
  | SMore _ r => narrow_rhs r
  | SScope b => forallb narrow b
  | SIf _ _ b => forallb narrow b
  | SForEach h b => (List.length h <=? 4) && forallb narrow b
  | SBlock _ b => forallb narrow b
  | SFunction _ _ b => forallb narrow b
  | _ => true
  end
with narrow_rhs (r : rhs) : bool := match r with RStruct b => forallb narrow b | _ => true end.
Definition four (b : list stmt) : bool := forallb narrow b.
Definition four_all (s : state) : Prop := forall f ps b, In (f, (ps, b)) (funs s) -> four b = true.

(** A variable before and after: same name, same freeze count, same kind of value; with c = false the same value; with w = true the same
    value if it was frozen. *)
Definition kept (c w : bool) (v v' : var) : Prop :=
  vname v' = vname v /\ frozen v' = frozen v /\ kind_of (val v') = kind_of (val v) /\
  (c = false \/ (w = true /\ frozen v <> 0%N) -> val v' = val v).
Definition kept_frame (c w : bool) (f f' : frame) : Prop := Forall2 (kept c w) (vars f) (vars f') /\ last f' = last f.
Definition kept_stack (c w : bool) : list frame -> list frame -> Prop := Forall2 (kept_frame c w).

(** The states in which statements are run: there is a current scope, none of its variables is frozen, freeze counts fit in a byte, and
    if the last variable mentioned in the current scope is one of an outer scope, it is there and is not frozen. *)
Definition proper (st : list frame) : Prop :=
  match st with
  | [] => False
  | f :: t =>
      (forall v, In v (vars f) -> frozen v = 0%N) /\
      (forall g v, In g t -> In v (vars g) -> (frozen v <= 255)%N) /\
      (forall n i, last f = Some (n, Some i) -> exists j g v, i = S j /\ nth_error t j = Some g /\ has g n v /\ frozen v = 0%N)
  end.
(** The depth so far allows for at most this many loops over a variable, of four arrays each. *)
Definition calm (room : nat) (st : list frame) : Prop := forall g v, In g st -> In v (vars g) -> (frozen v <= 2 * (126 - N.of_nat room))%N.

(** The body is run once for each element, in order, in a scope of its own which declares just x. *)
Inductive passes (body : state -> res state) (x : str) : list value -> state -> state -> Prop :=
| no_pass : forall s, passes body x [] s s
| one_pass : forall e es s s1 s2,
    body (with_stack ({| vars := [{| vname := x; val := e; frozen := 0 |}]; last := None |} :: stack s) s) = Good s1 ->
    passes body x es (pop s1) s2 -> passes body x (e :: es) s s2.
Definition elements_of (x : value) : list value :=
  match x with VStrs l => map VStr l | VStructs l => map VStruct l | _ => [] end.

(** A literal text: no character of it has a special meaning. *)
Definition literal (s : str) : Prop := forall c, In c s -> c <> "$"%char /\ c <> "^"%char.
(** The value of an argument in the scopes of the caller. *)
Inductive means (st : list frame) : arg -> value -> Prop :=
| means_int : forall z, means st (AInt z) (VInt z)
| means_bool : forall b, means st (ABool b) (VBool b)
| means_text : forall s, literal s -> means st (AText s) (VStr s)
| means_var : forall n x, sees st n x -> means st (AVar false (NPlain n)) x.
Definition mentions (a : arg) (n : str) : Prop := a = AVar false (NPlain n).
(** Arguments that do not look past the caller's scope. *)
Definition near (a : arg) : Prop := match a with AVar true _ => False | _ => True end.

(** Two runs, from s1 and from s2, end in the same way and show the same. *)
Definition same_end (s1 s2 : state) (x y : res state) : Prop :=
  match x, y with
  | Good a, Good b => exists o, out a = out s1 ++ o /\ out b = out s2 ++ o /\ funs a = funs b
  | Fail c, Fail d => c = d
  | Undef u, Undef v => u = v
  | _, _ => False
  end.

(** What n stands for, if anything. *)
Definition stands (st : list frame) (n : str) (o : option value) : Prop :=
  match o with Some x => sees st n x | None => unknown st n end.
(** b is a without the occurrences of t, looked for from the left. *)
Inductive without (t : str) : str -> str -> Prop :=
| without_nil : without t [] []
| without_hit : forall a b, without t a b -> without t (t ++ a) b
| without_miss : forall c a b, (forall r, c :: a <> t ++ r) -> without t a b -> without t (c :: a) (c :: b).
(** What = 'text', + 'text' and - 'text' make of a variable. *)
Inductive text_effect (t : str) : op -> option value -> value -> Prop :=
| text_new : text_effect t Assign None (VStr t)
| text_over : forall a, text_effect t Assign (Some (VStr a)) (VStr t)
| text_append : forall a, text_effect t Plus (Some (VStr a)) (VStr (a ++ t))
| text_remove : forall a b, t <> [] -> without t a b -> text_effect t Minus (Some (VStr a)) (VStr b)
| text_only : forall l, text_effect t Assign (Some (VStrs l)) (VStrs [t])
| text_add : forall l, text_effect t Plus (Some (VStrs l)) (VStrs (l ++ [t]))
| text_drop : forall l, text_effect t Minus (Some (VStrs l)) (VStrs (filter (fun y => if list_eq_dec ascii_dec y t then false else true) l)).
