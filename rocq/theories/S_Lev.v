(** Specification of edit distance. *)
From Coq Require Import List.
Import ListNotations.

(** One insertion, deletion or substitution of a character anywhere. *)
Inductive one_edit {A : Type} : list A -> list A -> Prop :=
| ed_insert pre c post : one_edit (pre ++ post) (pre ++ c :: post)
| ed_delete pre c post : one_edit (pre ++ c :: post) (pre ++ post)
| ed_subst pre c d post : one_edit (pre ++ c :: post) (pre ++ d :: post).

(** [edits n a b]: n edits lead from a to b. *)
Inductive edits {A : Type} : nat -> list A -> list A -> Prop :=
| edits_0 a : edits 0 a a
| edits_S n a b c : one_edit a b -> edits n b c -> edits (S n) a c.

(** n is the smallest number of edits from a to b. *)
Definition edit_distance {A : Type} (n : nat) (a b : list A) : Prop :=
  edits n a b /\ forall m, edits m a b -> n <= m.
