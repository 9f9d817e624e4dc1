(** C26: sorting sorts. *)
From Coq Require Import List Arith Bool Lia Permutation NArith.
From Verif Require Import M_Array M_Sort S_Sort P_Sort.
Import ListNotations.

(** For every array the sort terminates without touching memory outside the array, keeps exactly the
    same elements, and for every strict weak order the result is in order. *)
Theorem C26_sort_sorts : forall (A : Type) (compare : A -> A -> bool) (a : list A),
  exists b, shell_sort compare a = Some b /\ Permutation a b /\
            (strict_weak compare -> ordered compare b).
Proof. intros A lt a. apply shell_sort_spec. Qed.
Print Assumptions C26_sort_sorts.

(** Even with a comparison that is not an order nothing is lost and nothing outside is touched. *)
Theorem C26_any_comparison_is_safe : forall (A : Type) (compare : A -> A -> bool) (a : list A),
  exists b, shell_sort compare a = Some b /\ length b = length a /\ forall x, In x a <-> In x b.
Proof.
  intros A lt a. destruct (shell_sort_spec lt a) as (b&E&P&_). exists b. split; auto.
  split; [symmetry; now apply Permutation_length|].
  intros x. split; apply Permutation_in; auto. now apply Permutation_sym.
Qed.
Print Assumptions C26_any_comparison_is_safe.

Lemma nltb_strict_weak : strict_weak Nat.ltb.
Proof.
  split.
  - intros x. apply Nat.ltb_irrefl.
  - intros x y z H1 H2. apply Nat.ltb_lt in H1, H2. apply Nat.ltb_lt. lia.
  - intros x y z H1 H2 H3 H4. apply Nat.ltb_ge in H1, H2, H3, H4. split; apply Nat.ltb_ge; lia.
Qed.
Example C26_case :
  shell_sort Nat.ltb [7; 3; 9; 3; 0; 12; 5; 1; 8; 2; 6; 4] = Some [0; 1; 2; 3; 3; 4; 5; 6; 7; 8; 9; 12].
Proof. vm_compute. reflexivity. Qed.
