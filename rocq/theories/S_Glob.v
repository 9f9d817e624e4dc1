(** Specification of wildcard patterns. *)
From Coq Require Import List Ascii.
Import ListNotations.

(** [glob same pat s]: replace every '*' by any text, every '?' by one character other than '.', and
    read every other character up to [same]. *)
Inductive glob (same : ascii -> ascii -> Prop) : list ascii -> list ascii -> Prop :=
| glob_end : glob same [] []
| glob_star text pat s : glob same pat s -> glob same ("*"%char :: pat) (text ++ s)
| glob_any c pat s : c <> "."%char -> glob same pat s -> glob same ("?"%char :: pat) (c :: s)
| glob_char b c pat s : b <> "*"%char -> same c b -> glob same pat s -> glob same (b :: pat) (c :: s).
