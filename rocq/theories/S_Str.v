(** What the operations of a string are to do, in terms of texts alone.  The state is the list of the texts
    of the strings in the order of their construction ([None]: destroyed); no memory appears here.  Shared
    with the model: the operations [op] with their arguments and the character [nul]. *)
From Coq Require Import String List Arith Bool Ascii NArith.
From Verif Require Import M_Path M_Str.
Import ListNotations.

Notation txt := (list ascii).
(** Lengths are kept in 32 bits and rounded up to even numbers. *)
Definition fits (n : nat) : Prop := (N.of_nat n <= 4294967294)%N.

Definition is_live (vs : list (option txt)) (i : nat) (v : txt) : Prop := nth_error vs i = Some (Some v).
(** String i alone changes. *)
Definition becomes (vs : list (option txt)) (i : nat) (v : option txt) (vs' : list (option txt)) : Prop :=
  List.length vs' = List.length vs /\ nth_error vs' i = Some v /\
  forall k, k <> i -> nth_error vs' k = nth_error vs k.

(** The text of a terminated argument: up to the first NUL. *)
Definition zval (vs : list (option txt)) (z : ztext) (v : txt) : Prop :=
  ~ In nul v /\
  match z with
  | ZLit l => v = l
  | ZStr j a => exists u p q, is_live vs j u /\ u = p ++ v ++ q /\ List.length p = a /\ (q = [] \/ exists r, q = nul :: r)
  end.
(** The text of a range. *)
Definition rval (vs : list (option txt)) (r : range) (v : txt) : Prop :=
  match r with
  | RLit l => v = l
  | RStr j a n => exists u p q, is_live vs j u /\ u = p ++ v ++ q /\ List.length p = a /\ List.length v = n
  end.
(** The argument is no part of string i. *)
Definition zapart (i : nat) (z : ztext) : Prop := match z with ZLit _ => True | ZStr j _ => j <> i end.
Definition rapart (i : nat) (r : range) : Prop := match r with RLit _ => True | RStr j _ _ => j <> i end.

Definition uppers : txt := list_ascii_of_string "ABCDEFGHIJKLMNOPQRSTUVWXYZ".
Definition lowers : txt := list_ascii_of_string "abcdefghijklmnopqrstuvwxyz".
(** d is c, translated by a table of letters. *)
Definition translated (a b : txt) (c d : ascii) : Prop :=
  (exists k, nth_error a k = Some c /\ nth_error b k = Some d) \/ (~ In c a /\ d = c).

(** The first [most] characters a become b, all of them if [most] is 0; n are changed. *)
Definition char_replaced (a b : ascii) (most : nat) (v v' : txt) (n : nat) : Prop :=
  exists p q, v = p ++ q /\ v' = map (fun c => if Ascii.eqb c a then b else c) p ++ q /\
    n = count_occ Ascii.ascii_dec p a /\
    (q = [] \/ (n = most /\ most <> 0)) /\ (most <> 0 -> n <= most).

(** From the left, each f becomes t, without looking again at what was put in; at most [b] times. *)
Inductive replaced (f t : txt) : option N -> txt -> txt -> nat -> Prop :=
| R_stop v : replaced f t (Some 0%N) v v 0
| R_none b v : (forall p q, v <> p ++ f ++ q) -> replaced f t b v v 0
| R_next b v p q out n :
    b <> Some 0%N -> v = p ++ f ++ q -> (forall p' q', v = p' ++ f ++ q' -> List.length p <= List.length p') ->
    replaced f t (match b with Some k => Some (k - 1)%N | None => None end) q out n ->
    replaced f t b v (p ++ t ++ out) (S n).
Definition text_replaced (f t : txt) (most : N) (v v' : txt) (n : nat) : Prop :=
  (f = [] /\ v' = v /\ n = 0) \/
  (f <> [] /\ replaced f t (if (most =? 0)%N then None else Some most) v v' n).

(** When a use of the strings is in order. *)
Definition allowed (vs : list (option txt)) (o : op) : Prop :=
  match o with
  | ONew => True
  | ONewReserve n => 0 < n /\ fits n
  | ONewStack n => fits n
  | ONewCopy j | ONewMove j | ODestroy j | OClear j | OClearFree j | OLower j | OUpper j => exists v, is_live vs j v
  | ONewZ z => exists v, zval vs z v /\ fits (List.length v)
  | ONewRange r => exists v, rval vs r v /\ fits (List.length v)
  | OAssignZ i z => (exists u, is_live vs i u) /\ exists v, zval vs z v /\ fits (List.length v)
  | OAssignRange i r => (exists u, is_live vs i u) /\ exists v, rval vs r v /\ fits (List.length v)
  | OAssign i j | OMove i j => (exists u, is_live vs i u) /\ exists v, is_live vs j v
  | OSetLength i n | OSetReserved i n => (exists u, is_live vs i u) /\ fits n
  | OPush i _ => exists u, is_live vs i u /\ fits (List.length u + 1)
  | OAppendZ i z => exists u v, is_live vs i u /\ zval vs z v /\ fits (List.length u + List.length v) /\ (zapart i z \/ v = [])
  | OAppend i j => exists u v, is_live vs i u /\ is_live vs j v /\ fits (List.length u + List.length v)
  | OAppendRange i r => exists u v, is_live vs i u /\ rval vs r v /\ fits (List.length u + List.length v) /\ (rapart i r \/ v = [])
  | OReplaceChar i _ _ _ => exists u, is_live vs i u
  | OReplace i zf zt most =>
      exists u f t, is_live vs i u /\ zval vs zf f /\ zval vs zt t /\ fits (List.length t) /\
        forall out n, text_replaced f t most u out n -> fits (List.length out)
  | OTrim i a b => exists u, is_live vs i u /\ a + b <= List.length u
  | OTrimStart i _ | OTrimEnd i _ => exists u, is_live vs i u
  end.

(** What it does: the texts before, the texts after and the number that is returned. *)
Definition effect (vs : list (option txt)) (o : op) (vs' : list (option txt)) (r : nat) : Prop :=
  let sets i (P : txt -> txt -> Prop) :=
    r = 0 /\ exists u u', is_live vs i u /\ P u u' /\ becomes vs i (Some u') vs' in
  let makes (P : txt -> Prop) := r = 0 /\ exists u, P u /\ vs' = vs ++ [Some u] in
  match o with
  | ONew | ONewReserve _ | ONewStack _ => makes (fun u => u = [])
  | ONewCopy j => makes (fun u => is_live vs j u)
  | ONewMove j =>
      r = 0 /\ exists u ws, is_live vs j u /\ becomes vs j (Some []) ws /\ vs' = ws ++ [Some u]
  | ONewZ z => makes (fun u => zval vs z u)
  | ONewRange g => makes (fun u => rval vs g u)
  | ODestroy i => r = 0 /\ becomes vs i None vs'
  | OAssignZ i z => sets i (fun _ u' => zval vs z u')
  | OAssignRange i g => sets i (fun _ u' => rval vs g u')
  | OAssign i j => sets i (fun _ u' => is_live vs j u')
  | OMove i j =>
      r = 0 /\ exists u ws, is_live vs j u /\ becomes vs i (Some u) ws /\ becomes ws j (Some []) vs'
  | OClear i | OClearFree i => sets i (fun _ u' => u' = [])
  | OSetLength i n => sets i (fun u u' => List.length u' = n /\ firstn (List.length u) u' = firstn n u)
  | OSetReserved i n => sets i (fun u u' => u' = firstn n u)
  | OPush i c => sets i (fun u u' => u' = u ++ [c])
  | OAppendZ i z => sets i (fun u u' => exists v, zval vs z v /\ u' = u ++ v)
  | OAppend i j => sets i (fun u u' => exists v, is_live vs j v /\ u' = u ++ v)
  | OAppendRange i g => sets i (fun u u' => exists v, rval vs g v /\ u' = u ++ v)
  | OReplaceChar i a b most =>
      exists u u', is_live vs i u /\ char_replaced a b most u u' r /\ becomes vs i (Some u') vs'
  | OReplace i zf zt most =>
      exists u u' f t, is_live vs i u /\ zval vs zf f /\ zval vs zt t /\ text_replaced f t most u u' r /\
        becomes vs i (Some u') vs'
  | OLower i => sets i (Forall2 (translated uppers lowers))
  | OUpper i => sets i (Forall2 (translated lowers uppers))
  | OTrim i a b => sets i (fun u u' => exists p q, u = p ++ u' ++ q /\ List.length p = a /\ List.length q = b)
  | OTrimStart i c =>
      sets i (fun u u' => exists n, u = repeat c n ++ u' /\ forall x, u' <> c :: x)
  | OTrimEnd i c =>
      sets i (fun u u' => exists n, u = u' ++ repeat c n /\ forall x, u' <> x ++ [c])
  end.

(** A list of uses, each in order after whatever the ones before it may have left. *)
Fixpoint in_order (vs : list (option txt)) (l : list op) : Prop :=
  match l with
  | [] => True
  | o :: r => allowed vs o /\ forall vs' n, effect vs o vs' n -> in_order vs' r
  end.
(** The texts after a list of uses and the numbers returned on the way. *)
Inductive does : list (option txt) -> list op -> list (option txt) -> list nat -> Prop :=
| D_nil vs : does vs [] vs []
| D_cons vs o vs1 n l vs2 ns : effect vs o vs1 n -> does vs1 l vs2 ns -> does vs (o :: l) vs2 (n :: ns).
