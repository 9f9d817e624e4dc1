(** Conditions as written, and their meaning. *)
From Coq Require Import List Bool ZArith Ascii NArith.
From Verif Require Import M_Path M_Cond.
Import ListNotations.

Inductive logical := LEqual | LNotEqual | LAnd | LOr.
Inductive relation := Equal | NotEqual | Less | LessOrEqual | Greater | GreaterOrEqual.

(** A condition is a comparison, or a chain of operands joined by logical operators.  An operand is a literal or variable,
    a negated operand, or a condition in brackets. *)
Inductive condition :=
| Chain (first : part) (more : tail)
| Numbers (a : token) (r : relation) (b : token)
| Strings (a : token) (r : relation) (b : token)
| StringIn (a : token) (negated : bool) (b : token)
| SetIn (a : token) (negated : bool) (b : token)
with part := Plain (t : token) | Not (p : part) | Brackets (c : condition)
with tail := Done | Then (o : logical) (p : part) (more : tail).

(** How it is written. *)
Definition show_logical (o : logical) : token :=
  match o with LEqual => TOp OEq | LNotEqual => TOp ONe | LAnd => TOp OAnd | LOr => TOp OOr end.
Definition show_relation (r : relation) : token :=
  match r with Equal => TOp OEq | NotEqual => TOp ONe | Less => TOp OLt | LessOrEqual => TOp OLe | Greater => TOp OGt | GreaterOrEqual => TOp OGe end.
Definition show_in (negated : bool) : list token := if negated then [TNotKw; TIn] else [TIn].
Fixpoint show (c : condition) : list token :=
  match c with
  | Chain p m => show_part p ++ show_tail m
  | Numbers a r b => [a; show_relation r; b]
  | Strings a r b => [a; show_relation r; b]
  | StringIn a n b => a :: show_in n ++ [b]
  | SetIn a n b => a :: show_in n ++ [b]
  end
with show_part (p : part) : list token :=
  match p with
  | Plain t => [t]
  | Not q => TOp ONot :: show_part q
  | Brackets c => TLP :: show c ++ [TRP]
  end
with show_tail (m : tail) : list token :=
  match m with Done => [] | Then o p m' => show_logical o :: show_part p ++ show_tail m' end.

Section Meaning.
Variable env : str -> option value.

Definition bool_of (t : token) : option bool :=
  match t with TBool b => Some b | TVar v => match env v with Some (VBool b) => Some b | _ => None end | _ => None end.
Definition int_of (t : token) : option Z :=
  match t with TNum z => Some z | TVar v => match env v with Some (VInt z) => Some z | _ => None end | _ => None end.
Definition str_of (t : token) : option str :=
  match t with TStr s => Some s | TVar v => match env v with Some (VStr s) => Some s | _ => None end | _ => None end.
Definition set_of (t : token) : option (list str) :=
  match t with TVar v => match env v with Some (VArr l) => Some l | _ => None end | _ => None end.

Definition apply (o : logical) (a b : bool) : bool :=
  match o with LEqual => Bool.eqb a b | LNotEqual => xorb a b | LAnd => andb a b | LOr => orb a b end.
Definition holds (r : relation) (c : comparison) : bool :=
  match r, c with
  | Equal, Eq | NotEqual, (Lt | Gt) | Less, Lt | LessOrEqual, (Lt | Eq) | Greater, Gt | GreaterOrEqual, (Gt | Eq) => true
  | _, _ => false
  end.
(** Strings are ordered by their bytes, a prefix first. *)
Fixpoint string_order (a b : str) : comparison :=
  match a, b with
  | [], [] => Eq | [], _ :: _ => Lt | _ :: _, [] => Gt
  | x :: a', y :: b' => match N.compare (N_of_ascii x) (N_of_ascii y) with Eq => string_order a' b' | c => c end
  end.
Definition member (s : str) (l : list str) : bool := if in_dec (list_eq_dec ascii_dec) s l then true else false.
Definition meets (a b : list str) : bool := existsb (fun s => member s b) a.

End Meaning.

(** The meaning of a condition, if its operands have the types it needs.  A chain is worked out from left to right, all logical
    operators having the same precedence. *)
Fixpoint meaning (env : str -> option value) (c : condition) : option bool :=
  match c with
  | Chain p m => match meaning_part env p with Some b => meaning_tail env b m | None => None end
  | Numbers a r b => match int_of env a, int_of env b with Some x, Some y => Some (holds r (Z.compare x y)) | _, _ => None end
  | Strings a r b => match str_of env a, str_of env b with Some x, Some y => Some (holds r (string_order x y)) | _, _ => None end
  | StringIn a n b => match str_of env a, set_of env b with Some x, Some y => Some (xorb n (member x y)) | _, _ => None end
  | SetIn a n b => match set_of env a, set_of env b with Some x, Some y => Some (xorb n (meets x y)) | _, _ => None end
  end
with meaning_part (env : str -> option value) (p : part) : option bool :=
  match p with
  | Plain t => bool_of env t
  | Not q => match meaning_part env q with Some b => Some (negb b) | None => None end
  | Brackets c => meaning env c
  end
with meaning_tail (env : str -> option value) (b : bool) (m : tail) : option bool :=
  match m with
  | Done => Some b
  | Then o p m' => match meaning_part env p with Some c => meaning_tail env (apply o b c) m' | None => None end
  end.

(** No round bracket is closed before it is opened. *)
Fixpoint balanced_from (d : nat) (l : list token) : Prop :=
  match l with
  | [] => True
  | TLP :: r => balanced_from (S d) r
  | TRP :: r => match d with O => False | S d' => balanced_from d' r end
  | _ :: r => balanced_from d r
  end.
(** An integer whose low byte is the character ')'. *)
Definition looks_like_bracket (t : token) : Prop := exists z, t = TNum z /\ (z mod 256 = 41)%Z.
