(** Specification vocabulary for sorting. *)
From Coq Require Import List.

(** A strict weak order given by a boolean comparison. *)
Record strict_weak {A} (lt : A -> A -> bool) : Prop := {
  sw_irrefl : forall x, lt x x = false;
  sw_trans : forall x y z, lt x y = true -> lt y z = true -> lt x z = true;
  sw_incomp : forall x y z, lt x y = false -> lt y x = false -> lt y z = false -> lt z y = false ->
              lt x z = false /\ lt z x = false }.

(** No later element is smaller than an earlier one. *)
Definition ordered {A} (lt : A -> A -> bool) (l : list A) : Prop :=
  forall i j x y, i < j -> nth_error l i = Some x -> nth_error l j = Some y -> lt y x = false.
