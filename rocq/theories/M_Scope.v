(** Variables, scopes and user functions of BFF files, modelled from Code/Tools/FBuild/FBuildCore/BFF/BFFParser.cpp, BFFStackFrame.cpp,
    BFFVariable.cpp and Functions/FunctionForEach.cpp, FunctionUsing.cpp, FunctionIf.cpp, FunctionPrint.cpp, Function.cpp.

    The input is the statements the tokens stand for: the tokenizer and the matching of brackets (FindBracedRange) are not modelled, so a
    malformed statement is not an input.  Variable names are without the leading '.', which all of them have.

    Simplified: one file, so the _CURRENT_BFF_DIR_ and other built-in variables are left out; an If() tests one variable or its negation
    (conditions are in M_Cond); a function that makes a target is seen as a block that reads the properties it knows about after its body
    (what it does with them is not modelled); the parameters of a user function are plain names. *)
From Coq Require Import String List Arith NArith ZArith Bool Ascii DecimalString.
Import ListNotations.
Require Import Verif.M_Path.
Open Scope nat_scope.

(** AString::operator ==. *)
Definition same (a b : str) : bool := if list_eq_dec ascii_dec a b then true else false.

(** BFFVariable.h 18-56: the types a variable may have, with the value. *)
Inductive value :=
| VStr (s : str)
| VBool (b : bool)
| VInt (z : Z)
| VStrs (l : list str)
| VStruct (m : list (str * value))
| VStructs (l : list (list (str * value))).

(** How parsing ends: well, with an error that was reported, or in one of the ways C++ gives no meaning to. *)
Inductive undefined := Overflow | OutOfRange | Confused.
Inductive res (A : Type) := Good (a : A) | Fail (code : N) | Undef (u : undefined).
Arguments Good {A} a. Arguments Fail {A} code. Arguments Undef {A} u.
Definition bind {A B} (x : res A) (f : A -> res B) : res B :=
  match x with Good a => f a | Fail c => Fail c | Undef u => Undef u end.

(** BFFVariable.h: m_Name, the value, m_FreezeCount (a uint8_t). *)
Record var := { vname : str; val : value; frozen : N }.
(** BFFStackFrame.h: m_Variables and the last variable seen, with the number of frames to go out from this one to the frame that has it
    (m_LastVariableSeenFrame; None when it is null). *)
Record frame := { vars : list var; last : option (str * option nat) }.
Definition fresh : frame := {| vars := []; last := None |}.

(** BFFStackFrame::GetVarNoRecurse, BFFStackFrame.cpp 401-416. *)
Definition local (n : str) (f : frame) : option var := find (fun v => same n (vname v)) (vars f).
(** GetVariableRecurse, 278-297, and GetVarAny, 349-392, which goes through the frames in the same way.  The frame is given by the number
    of frames passed over. *)
Fixpoint lookup (n : str) (st : list frame) : option (nat * var) :=
  match st with
  | [] => None
  | f :: r => match local n f with
              | Some v => Some (0, v)
              | None => match lookup n r with Some (i, v) => Some (S i, v) | None => None end
              end
  end.
Definition shift (k : nat) (o : option (nat * var)) : option (nat * var) :=
  match o with Some (i, v) => Some (k + i, v) | None => None end.
(** GetParentDeclaration with a null frame, 318-341: from the frame outside the current one. *)
Definition parent_decl (n : str) (st : list frame) : option (nat * var) := shift 1 (lookup n (tl st)).
(** GetParentDeclaration with GetCurrent()->GetParent(), as the built-in functions call it: from the frame outside the one the function
    was written in, which is itself outside the frame of the function. *)
Definition parent_decl2 (n : str) (st : list frame) : option (nat * var) := shift 2 (lookup n (tl (tl st))).
(** GetVar, BFFStackFrame.cpp 258-276. *)
Definition get_var (n : str) (d : option nat) (st : list frame) : option var :=
  match d with
  | None => match lookup n st with Some (_, v) => Some v | None => None end
  | Some i => match nth_error st i with Some f => local n f | None => None end
  end.

Fixpoint upd_nth {A} (i : nat) (g : A -> A) (l : list A) : list A :=
  match l, i with
  | [], _ => []
  | a :: r, O => g a :: r
  | a :: r, S j => a :: upd_nth j g r
  end.
(** The loop of GetVarMutableNoRecurse followed by SetValue, or Append: the SetVar... functions, 66-206. *)
Fixpoint put_var (n : str) (x : value) (l : list var) : list var :=
  match l with
  | [] => [{| vname := n; val := x; frozen := 0 |}]
  | v :: r => if same n (vname v) then {| vname := vname v; val := x; frozen := frozen v |} :: r else v :: put_var n x r
  end.
Definition put_frame (n : str) (x : value) (f : frame) : frame := {| vars := put_var n x (vars f); last := last f |}.
(** CreateOrReplaceVarMutableNoRecurse, 438-459: the new variable is not frozen. *)
Fixpoint swap_var (n : str) (x : value) (l : list var) : list var :=
  match l with
  | [] => [{| vname := n; val := x; frozen := 0 |}]
  | v :: r => if same n (vname v) then {| vname := n; val := x; frozen := 0 |} :: r else v :: swap_var n x r
  end.
Definition swap_frame (n : str) (x : value) (f : frame) : frame := {| vars := swap_var n x (vars f); last := last f |}.
Definition at_ (d : option nat) : nat := match d with None => 0 | Some i => i end.
Definition set_var (n : str) (x : value) (d : option nat) (st : list frame) : list frame := upd_nth (at_ d) (put_frame n x) st.

(** int32_t arithmetic. *)
Definition int32 (z : Z) : res Z := if ((-2147483648 <=? z) && (z <=? 2147483647))%Z then Good z else Undef Overflow.
(** AppendFormat( "%i" ). *)
Definition show_int (z : Z) : str := L (NilEmpty.string_of_int (Z.to_int z)).

(** PerformVariableSubstitutions, BFFParser.cpp 1547-1630.  The inner loop looks for the closing '$'. *)
Inductive mode := Plain | Escaped | Naming (rev_name : str).
Fixpoint subst_from (st : list frame) (m : mode) (s : str) : res str :=
  match s with
  | [] => match m with Naming _ => Fail 1028 | _ => Good [] end
  | c :: r =>
      match m with
      | Escaped => bind (subst_from st Plain r) (fun t => Good (c :: t))
      | Plain => if Ascii.eqb c "^"%char then subst_from st Escaped r
                 else if Ascii.eqb c "$"%char then subst_from st (Naming []) r
                 else bind (subst_from st Plain r) (fun t => Good (c :: t))
      | Naming n =>
          if Ascii.eqb c "$"%char then
            match n with
            | [] => Fail 1028
            | _ => match get_var (rev n) None st with
                   | None => Fail 1009
                   | Some v => match val v with
                               | VBool b => bind (subst_from st Plain r) (fun t => Good ((if b then L "true"%string else L "false"%string) ++ t))
                               | VInt z => bind (subst_from st Plain r) (fun t => Good (show_int z ++ t))
                               | VStr x => bind (subst_from st Plain r) (fun t => Good (x ++ t))
                               | _ => Fail 1029
                               end
                   end
            end
          else subst_from st (Naming (c :: n)) r
      end
  end.
Definition subst (st : list frame) (s : str) : res str := subst_from st Plain s.

(** A variable as written: .Name, or ."text", which is substituted; ParseVariableName, BFFParser.cpp 190-232. *)
Inductive name := NPlain (n : str) | NText (raw : str).
Definition var_name (st : list frame) (n : name) : res str := match n with NPlain n => Good n | NText raw => subst st raw end.

(** AString::Replace( from, "" ), AString.cpp 851-900. *)
Fixpoint starts (p s : str) : bool :=
  match p, s with
  | [], _ => true
  | a :: p, b :: s => Ascii.eqb a b && starts p s
  | _, _ => false
  end.
Fixpoint cut (skip : nat) (from s : str) : str :=
  match s with
  | [] => []
  | c :: r => match skip with
              | S k => cut k from r
              | O => if starts from s then cut (List.length from - 1) from r else c :: cut 0 from r
              end
  end.
Definition remove_all (from s : str) : str := match from with [] => s | _ => cut 0 from s end.

Inductive op := Assign | Plus | Minus.
(** Elements of an array literal. *)
Inductive elem := EText (raw : str) | EVar (parent : bool) (n : name).
(** Arguments of a user function. *)
Inductive arg := AText (raw : str) | AInt (z : Z) | ABool (b : bool) | AVar (parent : bool) (n : name).

Inductive stmt :=
| SSet (parent : bool) (n : name) (o : op) (r : rhs)      (* .Name = rhs, ^Name + rhs, ... *)
| SMore (o : op) (r : rhs)                                (* + rhs, - rhs *)
| SScope (b : list stmt)                                  (* { ... } *)
| SPrint (parent : bool) (n : name)                       (* Print( .Name ) *)
| SPrintText (raw : str)                                  (* Print( 'text' ) *)
| SIf (negated : bool) (n : name) (b : list stmt)         (* If( .Name ) { ... } *)
| SForEach (h : list (name * (bool * name))) (b : list stmt)  (* ForEach( .A in .B, ... ) { ... } *)
| SUsing (parent : bool) (n : name)                       (* Using( .Name ) *)
| SBlock (props : list str) (b : list stmt)               (* Library() { ... } and the like *)
| SFunction (f : str) (params : list str) (b : list stmt) (* function F( .A, .B ) { ... } *)
| SCall (f : str) (args : list arg)                       (* F( ... ) *)
with rhs :=
| RText (raw : str)
| RInt (z : Z)
| RBool (b : bool)
| RVar (parent : bool) (n : name)
| RArray (l : list elem)
| RStruct (b : list stmt).

(** What can be seen from outside: what is printed and the properties read by functions. *)
Inductive event := Printed (n : str) (x : value) | PrintedText (s : str) | Read (l : list (option value)).
(** BFFUserFunctions.h: m_Args and m_BodyTokenRange by name. *)
Record state := { stack : list frame; funs : list (str * (list str * list stmt)); out : list event }.
Definition with_stack (st : list frame) (s : state) : state := {| stack := st; funs := funs s; out := out s |}.
Definition say (e : event) (s : state) : state := {| stack := stack s; funs := funs s; out := out s ++ [e] |}.
Definition pop (s : state) : state := with_stack (tl (stack s)) s.

Definition is_empty_array (x : value) : bool := match x with VStrs [] => true | VStructs [] => true | _ => false end.
Definition strs_of (x : value) : list str := match x with VStrs l => l | _ => [] end.
Definition structs_of (x : value) : list (list (str * value)) := match x with VStructs l => l | _ => [] end.

(** StoreVariableString, BFFParser.cpp 815-910, after the substitution: the new value. *)
Definition store_text (o : op) (old : option value) (x : str) : res value :=
  match o with
  | Assign =>
      match old with
      | None => Good (VStr x)
      | Some (VStr _) => Good (VStr x)
      | Some v => match v with
                  | VStrs _ => Good (VStrs [x])
                  | _ => if is_empty_array v then Good (VStrs [x]) else Fail 1034
                  end
      end
  | _ =>
      match old with
      | None => Fail 1026
      | Some (VStr a) => Good (VStr (match o with Plus => a ++ x | _ => remove_all x a end))
      | Some v => match v with
                  | VStrs l => Good (VStrs (match o with Plus => l ++ [x] | _ => filter (fun y => negb (same y x)) l end))
                  | _ => if is_empty_array v then Good (VStrs (match o with Plus => [x] | _ => [] end)) else Fail 1027
                  end
      end
  end.

(** ParseVariableDeclaration, 356-391: a number. *)
Definition store_int (o : op) (old : option value) (z : Z) : res value :=
  match old with
  | None => match o with Assign => Good (VInt z) | _ => Fail 1026 end
  | Some (VInt a) => match o with
                     | Assign => Good (VInt z)
                     | Plus => bind (int32 (a + z)) (fun r => Good (VInt r))
                     | Minus => bind (int32 (a - z)) (fun r => Good (VInt r))
                     end
  | Some _ => Fail 1034
  end.
(** 392-418: a boolean. *)
Definition store_bool (o : op) (old : option value) (b : bool) : res value :=
  match o with
  | Assign => match old with None => Good (VBool b) | Some (VBool _) => Good (VBool b) | Some _ => Fail 1034 end
  | _ => Fail 1027
  end.

(** The frame a variable of an array literal or an argument is looked up from, BFFParser.cpp 1013-1030 and 712-727. *)
Definition source (st : list frame) (parent : bool) (n : str) : option value :=
  match lookup n (if parent then tl st else st) with Some (_, v) => Some (val v) | None => None end.

(** StoreVariableArray, 914-1167: the loop over the elements, with varType and the two arrays; the type VAR_ANY is None. *)
Definition compatible (k : option bool) (b : bool) : bool := match k with None => true | Some x => Bool.eqb x b end.
Fixpoint elements (st : list frame) (o : op) (l : list elem) (k : option bool) (a : list str) (b : list (list (str * value)))
  : res (option bool * list str * list (list (str * value))) :=
  match l with
  | [] => Good (k, a, b)
  | EText raw :: r =>
      if negb (compatible k true) then Fail 1034
      else match o with
           | Minus => Fail 1034
           | _ => bind (subst st raw) (fun x => elements st o r (Some true) (a ++ [x]) b)
           end
  | EVar parent n :: r =>
      bind (var_name st n) (fun n =>
      match source st parent n with
      | None => Fail 1009
      | Some v =>
          match o with
          | Minus => Fail 1034
          | _ =>
              if is_empty_array v then elements st o r k a b
              else match v with
                   | VStr x => if compatible k true then elements st o r (Some true) (a ++ [x]) b else Fail 1034
                   | VStrs l => if compatible k true then elements st o r (Some true) (a ++ l) b else Fail 1034
                   | VStruct m => if compatible k false then elements st o r (Some false) a (b ++ [m]) else Fail 1034
                   | VStructs l => if compatible k false then elements st o r (Some false) a (b ++ l) else Fail 1034
                   | _ => Fail 1050
                   end
          end
      end)
  end.
Definition store_array (st : list frame) (o : op) (old : option value) (l : list elem) : res value :=
  bind (match o with
        | Assign => match old with
                    | None | Some (VStrs _) | Some (VStructs _) => Good ([], [])
                    | Some _ => Fail 1034
                    end
        | _ => match old with
               | None => Fail 1026
               | Some (VStrs a) => Good (a, [])
               | Some (VStructs b) => Good ([], b)
               | Some _ => Fail 1027
               end
        end)
  (fun start =>
   let k := match old with
            | Some (VStrs (_ :: _)) => Some true
            | Some (VStructs (_ :: _)) => Some false
            | _ => None
            end in
   bind (elements st o l k (fst start) (snd start)) (fun r =>
   match r with
   | (Some false, _, b) => Good (VStructs b)
   | (Some true, a, _) => Good (VStrs a)
   | (None, a, b) => match old with Some (VStructs _) => Good (VStructs b) | _ => Good (VStrs a) end
   end)).

Fixpoint assoc {A} (n : str) (l : list (str * A)) : option A :=
  match l with [] => None | (k, v) :: r => if same n k then Some v else assoc n r end.
(** ConcatVarsRecurse, BFFVariable.cpp 285-458: this is dst, other is src. *)
Fixpoint concat_vars (dst src : value) : res value :=
  match dst, src with
  | VStr a, VStr b => Good (VStr (a ++ b))
  | VStrs a, VStrs b => Good (VStrs (a ++ b))
  | VStructs a, VStructs b => Good (VStructs (a ++ b))
  | VInt a, VInt b => bind (int32 (b + a)) (fun z => Good (VInt z))
  | VBool a, VBool b => Good (VBool (b || a))
  | VStruct d, VStruct s =>
      bind ((fix members (d : list (str * value)) : res (list (str * value)) :=
               match d with
               | [] => Good []
               | (n, x) :: r =>
                   bind (match assoc n s with Some y => concat_vars x y | None => Good x end)
                        (fun z => bind (members r) (fun t => Good ((n, z) :: t)))
               end) d)
           (fun all => Good (VStruct (fold_left (fun acc m => match assoc (fst m) acc with Some _ => acc | None => acc ++ [m] end) s all)))
  | VStrs a, VStr b => Good (VStrs (a ++ [b]))
  | VStructs [], VStr b => Good (VStrs [b])
  | VStructs a, VStruct b => Good (VStructs (a ++ [b]))
  | VStrs [], VStruct b => Good (VStructs [b])
  | VStrs a, VStructs [] => Good (VStrs a)
  | VStructs a, VStrs [] => Good (VStructs a)
  | VStrs [], VStructs b => Good (VStructs b)
  | VStructs [], VStrs b => Good (VStrs b)
  | _, _ => Fail 1034
  end.

(** StoreVariableToVariable, BFFParser.cpp 1286-1542, once the variables are found: the new value.  The flag says that the variable is
    replaced by a new one (ConcatVars, 1519) and not given a value. *)
Definition store_var (o : op) (old : option value) (x : value) : res (bool * value) :=
  match o, old with
  | Assign, None => Good (false, x)
  | _, None => Fail 1026
  | _, Some d =>
      match d, x with
      | VStr a, VStr b => Good (false, VStr (match o with Plus => a ++ b | Minus => remove_all b a | Assign => b end))
      | VInt a, VInt b => bind (match o with Plus => int32 (a + b) | Minus => int32 (a - b) | Assign => Good b end)
                               (fun z => Good (false, VInt z))
      | VBool _, VBool b => match o with Assign => Good (false, VBool b) | _ => Fail 1034 end
      | VStrs a, VStrs b => match o with Plus => Good (false, VStrs (a ++ b)) | Assign => Good (false, VStrs b) | Minus => Fail 1034 end
      | VStructs a, VStructs b =>
          match o with Plus => Good (false, VStructs (a ++ b)) | Assign => Good (false, VStructs b) | Minus => Fail 1034 end
      | VStruct a, VStruct b => match o with
                                | Plus => bind (concat_vars d x) (fun z => Good (true, z))
                                | Assign => Good (false, VStruct b)
                                | Minus => Fail 1034
                                end
      | _, VStr b =>
          if (match d with VStrs _ => true | _ => is_empty_array d end) then
            Good (false, VStrs (match o with
                                | Plus => strs_of d ++ [b]
                                | Minus => filter (fun y => negb (same y b)) (strs_of d)
                                | Assign => [b]
                                end))
          else Fail 1034
      | _, VStruct b =>
          match o with
          | Minus => Fail 1034
          | _ => if (match d with VStructs _ => true | _ => is_empty_array d end) then
                   Good (false, VStructs ((match o with Plus => structs_of d | _ => [] end) ++ [b]))
                 else Fail 1034
          end
      | VStrs a, VStructs [] =>
          match o with Plus => Good (false, VStrs a) | Assign => Good (false, VStrs []) | Minus => Fail 1034 end
      | VStructs a, VStrs [] =>
          match o with Plus => Good (false, VStructs a) | Assign => Good (false, VStructs []) | Minus => Fail 1034 end
      | VStructs [], VStrs b => match o with Minus => Fail 1034 | _ => Good (false, VStrs b) end
      | VStrs [], VStructs b => match o with Minus => Fail 1034 | _ => Good (false, VStructs b) end
      | _, _ => Fail 1034
      end
  end.

Definition old_value (n : str) (d : option nat) (st : list frame) : option value :=
  match get_var n d st with Some v => Some (val v) | None => None end.

(** ParseVariableDeclaration, BFFParser.cpp 310-428, without the operator checks.  body runs Parse one frame further in. *)
Definition declare (body : list stmt -> state -> res state) (n : str) (d : option nat) (o : op) (r : rhs) (s : state) : res state :=
  let st := stack s in
  let old := old_value n d st in
  match r with
  | RText raw => bind (subst st raw) (fun x => bind (store_text o old x) (fun v => Good (with_stack (set_var n v d st) s)))
  | RInt z => bind (store_int o old z) (fun v => Good (with_stack (set_var n v d st) s))
  | RBool b => bind (store_bool o old b) (fun v => Good (with_stack (set_var n v d st) s))
  | RArray l => bind (store_array st o old l) (fun v => Good (with_stack (set_var n v d st) s))
  | RVar parent src =>
      (* 1247-1283; self-assignment leaves everything as it is, which is also what giving the variable its own value does *)
      bind (var_name st src) (fun src =>
      match (if parent then parent_decl src st else lookup src st) with
      | None => Fail 1009
      | Some (_, x) =>
          bind (store_var o old (val x)) (fun v =>
          Good (with_stack (if fst v then upd_nth (at_ d) (swap_frame n (snd v)) st else set_var n (snd v) d st) s))
      end)
  | RStruct b =>
      (* StoreVariableStruct, 1171-1217 *)
      match o with
      | Assign =>
          if (match old with None => true | Some (VStruct _) => true | _ => false end) then
            bind (body b (with_stack (fresh :: st) s)) (fun s' =>
            match stack s' with
            | [] => Undef Confused
            | top :: rest =>
                let members := map (fun v => (vname v, val v)) (vars top) in
                (* SetValueStruct( && ), BFFVariable.cpp 224-240, does not set the type *)
                match nth_error rest (at_ d) with
                | None => Undef Confused
                | Some f => match local n f with
                            | None | Some {| val := VStruct _ |} => Good (with_stack (set_var n (VStruct members) d rest) s')
                            | Some _ => Undef Confused
                            end
                end
            end)
          else Fail 1034
      | _ => Fail 1027
      end
  end.

(** SetLastVariableSeen. *)
Definition note (n : str) (d : option nat) (st : list frame) : list frame :=
  match st with [] => [] | f :: r => {| vars := vars f; last := Some (n, d) |} :: r end.

(** Freeze and Unfreeze, BFFVariable.h 87-93: a uint8_t. *)
Definition freeze_by (k : N) (v : var) : var := {| vname := vname v; val := val v; frozen := (frozen v + k) mod 256 |}.
Fixpoint upd_var (n : str) (g : var -> var) (l : list var) : list var :=
  match l with [] => [] | v :: r => if same n (vname v) then g v :: r else v :: upd_var n g r end.
Definition refreeze (k : N) (p : nat * str) (st : list frame) : list frame :=
  upd_nth (fst p) (fun f => {| vars := upd_var (snd p) (freeze_by k) (vars f); last := last f |}) st.

(** FunctionForEach.cpp 46-162: the header; the frame of the function is on the stack.  Local name, where the array is, loopLen. *)
Definition array_len (x : value) : option nat :=
  match x with VStrs l => Some (List.length l) | VStructs l => Some (List.length l) | _ => None end.
Fixpoint header (st : list frame) (h : list (name * (bool * name))) (len : option nat) : res (list (str * (nat * str)) * option nat) :=
  match h with
  | [] => Good ([], len)
  | (x, (parent, a)) :: r =>
      bind (var_name st x) (fun x =>
      bind (var_name st a) (fun a =>
      match (if parent then parent_decl2 a st else lookup a st) with
      | None => Fail 1009
      | Some (i, v) =>
          match array_len (val v) with
          | None => Fail 1050
          | Some k =>
              if (match len with None => true | Some m => m =? k end)
              then bind (header st r (match len with None => Some k | _ => len end)) (fun p => Good ((x, (i, a)) :: fst p, snd p))
              else Fail 1204
          end
      end))
  end.
(** 181-197: the loop variables of iteration i; st has the frame of the iteration, f, on top of the others. *)
Definition item (x : value) (i : nat) : res value :=
  match x with
  | VStrs l => match nth_error l i with Some s => Good (VStr s) | None => Undef OutOfRange end
  | VStructs l => match nth_error l i with Some m => Good (VStruct m) | None => Undef OutOfRange end
  | _ => Undef Confused
  end.
Fixpoint loop_vars (h : list (str * (nat * str))) (i : nat) (f : frame) (rest : list frame) : res frame :=
  match h with
  | [] => Good f
  | (x, (k, a)) :: r =>
      match get_var a (Some k) rest with
      | None => Undef Confused
      | Some v => bind (item (val v) i) (fun e => loop_vars r i (put_frame x e f) rest)
      end
  end.
(** 178-206. *)
Fixpoint iterate (body : state -> res state) (h : list (str * (nat * str))) (n i : nat) (s : state) : res state :=
  match n with
  | O => Good s
  | S n => bind (loop_vars h i fresh (stack s)) (fun f =>
           bind (body (with_stack (f :: stack s) s)) (fun s => iterate body h n (S i) (pop s)))
  end.

(** BFFStackFrame::SetVar into the frame, FunctionUsing.cpp 103-121. *)
Definition import (skip : option str) (m : list (str * value)) (f : frame) : frame :=
  let later := match skip with None => [] | Some n => match assoc n m with Some x => [(n, x)] | None => [] end end in
  (* only the first member of that name is put off *)
  let fix now (seen : bool) (m : list (str * value)) (f : frame) : frame :=
    match m with
    | [] => f
    | (k, x) :: r => if negb seen && (match skip with Some n => same k n | None => false end) then now true r f
                     else now seen r (put_frame k x f)
    end in
  fold_left (fun f p => put_frame (fst p) (snd p) f) later (now false m f).

(** ParseUserFunctionCall, BFFParser.cpp 674-738: the frame of the call is already on the stack, on top of st. *)
Fixpoint arguments (ps : list str) (args : list arg) (f : frame) (st : list frame) : res frame :=
  match ps, args with
  | p :: ps, a :: args =>
      bind (match a with
            | AText raw => bind (subst (f :: st) raw) (fun x => Good (VStr x))
            | AInt z => Good (VInt z)
            | ABool b => Good (VBool b)
            | AVar parent n =>
                bind (var_name (f :: st) n) (fun n =>
                match source (f :: st) parent n with Some v => Good v | None => Fail 1009 end)
            end)
           (fun v => arguments ps args (put_frame p v f) st)
  | _, _ => Good f
  end.

Fixpoint distinct (l : list str) : bool :=
  match l with [] => true | x :: r => negb (existsb (same x) r) && distinct r end.

(** One turn of the loop of Parse, BFFParser.cpp 103-183.  body1 and body2 run Parse one and two frames further in. *)
Definition step (body1 body2 : list stmt -> state -> res state) (x : stmt) (s : state) : res state :=
  let st := stack s in
  let inside := fresh :: st in
  match x with
  | SSet parent n o r =>
      (* ParseNamedVariableDeclaration, 255-308 *)
      bind (var_name st n) (fun n =>
      if parent then
        match parent_decl n st with
        | None => Fail 1009
        | Some (i, v) => if (0 <? frozen v)%N then Fail 1060 else declare body1 n (Some i) o r (with_stack (note n (Some i) st) s)
        end
      else declare body1 n None o r (with_stack (note n None st) s))
  | SMore o r =>
      (* ParseUnnamedVariableModification, 236-253 *)
      match st with
      | {| last := Some (n, d) |} :: _ => declare body1 n d o r s
      | _ => Fail 1011
      end
  | SScope b => bind (body1 b (with_stack inside s)) (fun s => Good (pop s))
  | SPrint parent n =>
      bind (var_name inside n) (fun n =>
      match (if parent then parent_decl2 n inside else lookup n inside) with
      | None => Fail 1009
      | Some (_, v) => Good (say (Printed n (val v)) s)
      end)
  | SPrintText raw => bind (subst inside raw) (fun t => Good (say (PrintedText t) s))
  | SIf negated n b =>
      bind (var_name inside n) (fun n =>
      match lookup n inside with
      | None => Fail 1009
      | Some (_, v) =>
          match val v with
          | VBool c => if xorb negated c then bind (body1 b (with_stack inside s)) (fun s => Good (pop s)) else Good s
          | _ => Fail 1050
          end
      end)
  | SForEach h b =>
      bind (header inside h None) (fun p =>
      match snd p with
      | None | Some 0 => Good s
      | Some len =>
          let frozen := fold_left (fun st q => refreeze 1 (snd q) st) (fst p) inside in
          bind (iterate (body2 b) (fst p) len 0 (with_stack frozen s)) (fun s =>
          Good (pop (with_stack (fold_left (fun st q => refreeze 255 (snd q) st) (fst p) (stack s)) s)))
      end)
  | SUsing parent n =>
      bind (var_name inside n) (fun n =>
      match (if parent then parent_decl2 n inside else lookup n inside) with
      | None => Fail 1009
      | Some (_, v) =>
          match val v with
          | VStruct m => Good (with_stack (upd_nth 0 (import (if parent then None else Some n) m) st) s)
          | _ => Fail 1008
          end
      end)
  | SBlock props b =>
      (* Function::ParseFunction, Function.cpp 174-300, and the reads of properties, 377, 427, 479, 1055, 1128 *)
      bind (body1 b (with_stack inside s)) (fun s =>
      Good (pop (say (Read (map (fun p => old_value p None (stack s)) props)) s)))
  | SFunction f ps b =>
      (* ParseUserFunctionDeclaration, BFFParser.cpp 531-613 *)
      match assoc f (funs s) with
      | Some _ => Fail 1108
      | None => if distinct ps then Good {| stack := st; funs := funs s ++ [(f, (ps, b))]; out := out s |} else Fail 1109
      end
  | SCall f args =>
      (* ParseUserFunctionCall, 617-756; DisconnectStackChain hides the frames of the caller until the end of the call *)
      match assoc f (funs s) with
      | None => Fail 1010
      | Some (ps, b) =>
          if List.length args =? List.length ps then
            bind (arguments ps args fresh st) (fun top =>
            bind (body1 b (with_stack [top] s)) (fun s => Good (with_stack st s)))
          else Fail 1111
      end
  end.

(** BFFParser::Parse, BFFParser.cpp 94-186.  room is 128 - BFFStackFrame::GetDepth(), or 0. *)
Fixpoint parse (room : nat) (b : list stmt) (s : state) {struct room} : res state :=
  match room with
  | O => Fail 1035
  | S r =>
      (fix go (l : list stmt) (s : state) : res state :=
         match l with
         | [] => Good s
         | x :: l => bind (step (parse r) (match r with O => fun _ _ => Fail 1035 | S q => parse q end) x s) (go l)
         end) b s
  end.

(** A file: NodeGraph::ParseFromRoot makes one frame, of depth 2. *)
Definition run (b : list stmt) : res state := parse 126 b {| stack := [fresh]; funs := []; out := [] |}.
