(** What MSBuild looks for (the comment at Node.cpp 1142-1150): "<error|warning> <errorCode>:", anywhere, case and
    whitespace insensitive. *)
From Coq Require Import List Arith Bool Ascii String NArith.
From Verif Require Import M_Path M_Names M_Msg.
Import ListNotations.

Definition all (f : ascii -> bool) (l : str) : Prop := Forall (fun c => f c = true) l.
(** [word w t]: [t] is the word [w] in any case. *)
Definition word (w : string) (t : str) : Prop := lower t = L w.
(** [pattern w q]: the text [q] begins with the word [w], a space, a code and a colon. *)
Definition pattern (w : string) (q : str) : Prop :=
  exists t w1 code w2 rest, q = t ++ (" "%char :: w1) ++ code ++ w2 ++ ":"%char :: rest /\
    word w t /\ all is_ws w1 /\ all is_alnum code /\ all is_ws w2.
Definition has_pattern (w : string) (m : str) : Prop := exists p q, m = p ++ q /\ pattern w q.
Definition has_word (w : string) (m : str) : Prop := exists p t q, m = p ++ t ++ " "%char :: q /\ word w t.
(** [m'] is [m] with some colons, each ending a pattern of [m], made spaces. *)
Inductive blanked (whole : str) : str -> str -> Prop :=
| bl_nil : blanked whole [] []
| bl_same : forall c a b, blanked whole a b -> blanked whole (c :: a) (c :: b)
| bl_colon : forall p t w1 code w2 a b,
    whole = p ++ t ++ (" "%char :: w1) ++ code ++ w2 ++ ":"%char :: a ->
    word "error" t \/ word "warning" t -> all is_ws w1 -> all is_alnum code -> all is_ws w2 ->
    blanked whole a b -> blanked whole (":"%char :: a) (" "%char :: b).
(** The usual shape of compiler messages: every "error CODE" or "warning CODE" has a code that does not itself end in
    the word "error" or "warning", and where a colon follows, the code is not empty and no second colon follows at once. *)
Definition usual (m : str) : Prop := forall p t w1 code z,
  m = p ++ t ++ (" "%char :: w1) ++ code ++ z -> word "error" t \/ word "warning" t -> all is_ws w1 -> all is_alnum code ->
  (forall c r, z = c :: r -> is_alnum c = false) ->
  (forall c1 c2, code = c1 ++ c2 -> ~ word "error" c2 /\ ~ word "warning" c2) /\
  (forall w2 z2, z = w2 ++ ":"%char :: z2 -> all is_ws w2 ->
     code <> [] /\ forall w3 z3, z2 = w3 ++ ":"%char :: z3 -> ~ all is_ws w3).
