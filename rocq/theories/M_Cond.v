(** Model of the parser of If() conditions, BFF/BFFBooleanExpParser.cpp, of the search for the header of a function,
    BFF/BFFParser.cpp 758-811, and of integer assignment, BFF/BFFParser.cpp 310-393.
    An iterator is the list of tokens left in its range.  Moving past the end of the range (ASSERT in BFFTokenRange::operator++)
    is an error: in a release build the tokens that follow a header are its ')' and then '{', and every path that steps over
    the ')' ends in an error at the '{'. *)
From Coq Require Import List Bool ZArith Ascii NArith.
From Verif Require Import M_Path.
Import ListNotations.
Open Scope Z_scope.

(** BFFOperator::Type, BFFOperators.h 30-50. *)
Inductive oper := OAssign | OGt | OLt | ONot | OPlus | OMinus | OEq | ONe | OGe | OLe | OAnd | OOr.
(** BFFToken, Tokenizer/BFFToken.h.  [TOther]: identifiers, functions, commas, other brackets and other keywords. *)
Inductive token := TBool (b : bool) | TNum (z : Z) | TStr (s : str) | TVar (s : str) | TOp (o : oper)
  | TIn | TNotKw | TLP | TRP | TOther.
(** BFFVariable.  [VOther]: structs and arrays of structs. *)
Inductive value := VBool (b : bool) | VInt (z : Z) | VStr (s : str) | VArr (l : list str) | VOther.

(** IsRoundRightBracket, IsCurlyLeftBracket and IsSquareLeftBracket, BFFToken.h 109-114, look at m_BraceType without looking at
    the type of the token.  It shares its byte with the low byte of m_Integer (and with m_Boolean, m_KeywordType and
    m_OperatorType, which are always below 16). *)
Definition is_rp (t : token) : bool :=
  match t with TRP => true | TNum z => z mod 256 =? 41 | _ => false end.
Definition is_curly_left (t : token) : bool := match t with TNum z => z mod 256 =? 123 | _ => false end.
Definition is_square_left (t : token) : bool := match t with TNum z => z mod 256 =? 91 | _ => false end.

Section Env.
(** GetVar, 47-77: the value of the variable a token names, if it is declared. *)
Variable env : str -> option value.

(** Operand, 239-284: nothing if the variable is unknown. *)
Definition operand (t : token) : option value :=
  match t with
  | TBool b => Some (VBool b) | TNum z => Some (VInt z) | TStr s => Some (VStr s)
  | TVar v => env v
  | _ => Some VOther
  end.
(** OperandOf<T>, 298-342. *)
Definition as_bool (t : token) : option bool := match operand t with Some (VBool b) => Some b | _ => None end.
Definition as_int (t : token) : option Z := match operand t with Some (VInt z) => Some z | _ => None end.
Definition as_str (t : token) : option str := match operand t with Some (VStr s) => Some s | _ => None end.
Definition as_arr (t : token) : option (list str) := match operand t with Some (VArr l) => Some l | _ => None end.

(** BoolOperator, 28-44. *)
Inductive bop := BIn | BNotIn | BEq | BNe | BLt | BLe | BGt | BGe | BAnd | BOr.

(** strcmp, through AString::operator<, > and == (AString.h 111-112, AString.cpp 174-177); strings hold no NUL. *)
Fixpoint scmp (a b : str) : comparison :=
  match a, b with
  | [], [] => Eq | [], _ => Lt | _, [] => Gt
  | x :: a', y :: b' => match N.compare (N_of_ascii x) (N_of_ascii y) with Eq => scmp a' b' | c => c end
  end.
Definition seq_ (a b : str) : bool := match scmp a b with Eq => true | _ => false end.

(** CompareBools, 345-373; CompareInts, 389-423; CompareStrings, 436-471: nothing for an unsupported operator. *)
Definition cmp_bools (o : bop) (a b : bool) : option bool :=
  match o with BEq => Some (Bool.eqb a b) | BNe => Some (negb (Bool.eqb a b)) | BAnd => Some (a && b) | BOr => Some (a || b) | _ => None end.
Definition cmp_ints (o : bop) (a b : Z) : option bool :=
  match o with
  | BEq => Some (a =? b) | BNe => Some (negb (a =? b)) | BLt => Some (a <? b) | BLe => Some ((a <? b) || (a =? b))
  | BGt => Some (b <? a) | BGe => Some ((b <? a) || (a =? b)) | _ => None
  end.
Definition cmp_strs (o : bop) (a b : str) : option bool :=
  let lt := match scmp a b with Lt => true | _ => false end in
  let gt := match scmp a b with Gt => true | _ => false end in
  match o with
  | BEq => Some (seq_ a b) | BNe => Some (negb (seq_ a b)) | BLt => Some lt | BLe => Some (lt || seq_ a b)
  | BGt => Some gt | BGe => Some (gt || seq_ a b) | _ => None
  end.

(** IsExpEnd, 479-486. *)
Definition is_end (l : list token) (ends : bool) : bool :=
  match l with [] => true | t :: _ => ends && is_rp t end.

(** ParseOperator, 512-602, with the list of supported operators as a test. *)
Definition parse_op (ok : bop -> bool) (l : list token) : option (bop * list token) :=
  match (match l with
         | TIn :: r => Some (BIn, r)
         | TNotKw :: TIn :: r => Some (BNotIn, r)
         | TOp OEq :: r => Some (BEq, r) | TOp ONe :: r => Some (BNe, r)
         | TOp OLe :: r => Some (BLe, r) | TOp OLt :: r => Some (BLt, r)
         | TOp OGe :: r => Some (BGe, r) | TOp OGt :: r => Some (BGt, r)
         | TOp OAnd :: r => Some (BAnd, r) | TOp OOr :: r => Some (BOr, r)
         | _ => None
         end) with
  | Some (o, r) => if ok o then Some (o, r) else None
  | None => None
  end.
(** sBoolOperators, sIntOperators 376-385, sStringOperators 421-432. *)
Definition bool_ops (o : bop) : bool := match o with BEq | BNe | BAnd | BOr => true | _ => false end.
Definition int_ops (o : bop) : bool := match o with BEq | BNe | BLt | BLe | BGt | BGe => true | _ => false end.
Definition str_ops (o : bop) : bool := match o with BEq | BNe | BLt | BLe | BGt | BGe | BIn | BNotIn => true | _ => false end.

Definition found_in (s : str) (l : list str) : bool := existsb (seq_ s) l.

(** ParseIntComparisonExp, 847-868. *)
Definition parse_int (a : Z) (l : list token) : option (bool * list token) :=
  match parse_op int_ops l with
  | Some (o, t :: r) => match as_int t with
                        | Some b => match cmp_ints o a b with Some x => Some (x, r) | None => None end
                        | None => None
                        end
  | _ => None
  end.
(** ParseStringComparisonExp, 879-913, with ParseStringInArray, 614-641. *)
Definition parse_str (a : str) (l : list token) : option (bool * list token) :=
  match parse_op str_ops l with
  | Some (o, t :: r) =>
      match t with
      | TStr _ | TVar _ =>
          match o with
          | BIn => match as_arr t with Some b => Some (found_in a b, r) | None => None end
          | BNotIn => match as_arr t with Some b => Some (negb (found_in a b), r) | None => None end
          | _ => match as_str t with
                 | Some b => match cmp_strs o a b with Some x => Some (x, r) | None => None end
                 | None => None
                 end
          end
      | _ => None
      end
  | _ => None
  end.
(** ParseStringArrayInArray, 651-697. *)
Definition parse_arr (a : list str) (l : list token) : option (bool * list token) :=
  match parse_op (fun _ => true) l with
  | Some (BIn, t :: r) => match as_arr t with Some b => Some (existsb (fun s => found_in s b) a, r) | None => None end
  | Some (BNotIn, t :: r) => match as_arr t with Some b => Some (negb (existsb (fun s => found_in s b) a), r) | None => None end
  | _ => None
  end.

End Env.

(** ParseBooleanExp 958-1061 [pexp]; ParseUnaryBooleanOperand 709-746 together with ParseUnaryBooleanExp 757-773, and the same
    switch in ParseBinaryBooleanExp 794-835 [poperand]; the loops around ParseBinaryBooleanExp 785-837 [ploop];
    ParseSubBooleanExp 923-940 [psub], whose ASSERT that its first token is '(' is not checked in a release build.
    [n] bounds the depth of calls; [parse] gives enough. *)
Fixpoint pexp (env : str -> option value) (n : nat) (l : list token) (ends : bool) {struct n} : option (bool * list token) :=
  match n with
  | O => None
  | S n =>
      match l with
      | [] => None
      | t :: r =>
          match t with
          | TVar _ | TBool _ | TNum _ | TStr _ =>
              match operand env t with
              | None => None
              | Some (VBool b) => ploop env n b r ends
              | Some v =>
                  match (match v with VInt z => parse_int env z r | VStr s => parse_str env s r | VArr a => parse_arr env a r | _ => None end) with
                  | Some (b, u) => if is_end u ends then Some (b, u) else None
                  | None => None
                  end
              end
          | TOp ONot => match poperand env n r with Some (b, u) => ploop env n (negb b) u ends | None => None end
          | TLP | TRP => match psub env n l with Some (b, u) => ploop env n b u true | None => None end
          | _ => None
          end
      end
  end
with poperand (env : str -> option value) (n : nat) (l : list token) {struct n} : option (bool * list token) :=
  match n with
  | O => None
  | S n =>
      match l with
      | [] => None
      | t :: r =>
          match t with
          | TVar _ | TBool _ => match as_bool env t with Some b => Some (b, r) | None => None end
          | TOp ONot => match poperand env n r with Some (b, u) => Some (negb b, u) | None => None end
          | TLP | TRP => psub env n l
          | _ => None
          end
      end
  end
with ploop (env : str -> option value) (n : nat) (b : bool) (l : list token) (ends : bool) {struct n} : option (bool * list token) :=
  match n with
  | O => None
  | S n =>
      if is_end l ends then Some (b, l) else
      match parse_op bool_ops l with
      | None => None
      | Some (o, r) =>
          match poperand env n r with
          | None => None
          | Some (c, u) => match cmp_bools o b c with Some x => ploop env n x u ends | None => None end
          end
      end
  end
with psub (env : str -> option value) (n : nat) (l : list token) {struct n} : option (bool * list token) :=
  match n with
  | O => None
  | S n =>
      match l with
      | [] => None
      | _ :: r =>
          match pexp env n r true with
          | Some (b, t :: u) => if is_rp t then Some (b, u) else None
          | _ => None
          end
      end
  end.

(** BFFBooleanExpParser::Parse, 1078-1082: what is left of the range is not looked at. *)
Definition fuel (l : list token) : nat := 3 * length l + 3.
Definition parse (env : str -> option value) (l : list token) : option bool :=
  match pexp env (fuel l) l false with Some (b, _) => Some b | None => None end.

(** FindBracedRange, BFFParser.cpp 758-811, from just after the '(' of a header: the tokens of the header and those after its
    ')'.  Simplified: brackets of other kinds are ordinary tokens here; no condition contains any. *)
Fixpoint braced (d : nat) (l : list token) : option (list token * list token) :=
  match l with
  | [] => None
  | t :: r =>
      match t, d with
      | TRP, O => Some ([], r)
      | TRP, S d' => match braced d' r with Some (h, u) => Some (t :: h, u) | None => None end
      | TLP, _ => match braced (S d) r with Some (h, u) => Some (t :: h, u) | None => None end
      | _, _ => match braced d r with Some (h, u) => Some (t :: h, u) | None => None end
      end
  end.

(** ParseVariableDeclaration, BFFParser.cpp 310-393, for an integer on the right: the variable's new value, an error, or signed
    overflow.  The order of the tests is the code's.  A scope or struct opened by the integer token has no closing bracket
    (FindBracedRangeRecurse reaches the end of the range, or steps over balanced brackets only), so it is an error. *)
Inductive stored := Stored (v : value) | Error1002 | Error1034 | Error1026 | Overflow.
Definition int32 (z : Z) : bool := (-2147483648 <=? z) && (z <=? 2147483647).
Definition assign_int (old : option value) (op : oper) (z : Z) : stored :=
  if is_curly_left (TNum z) then Error1002
  else if is_square_left (TNum z) then Error1002
  else match old with
       | Some (VInt v) =>
           let r := match op with OPlus => v + z | OMinus => v - z | _ => z end in
           if int32 r then Stored (VInt r) else Overflow
       | Some _ => Error1034
       | None => match op with OPlus | OMinus => Error1026 | _ => Stored (VInt z) end
       end.
