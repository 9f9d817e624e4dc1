(** Model of Core/Containers/Sort.h: ShellSort, lines 37-62.
    The array is a list; every access is bounds checked.  [size_t] is [nat]. *)
From Coq Require Import List Arith Bool NArith.
From Verif Require Import M_Array.
Import ListNotations.

Section Sort.
Context {A : Type} (compare : A -> A -> bool).

(** The inner while loop and the final store, Sort.h 54-59.  [fuel] bounds the iterations. *)
Fixpoint sift (fuel : nat) (increment : nat) (a : list A) (temp : A) (j : nat) : option (list A) :=
  match fuel with
  | O => None
  | S f =>
      if increment <=? j then
        match get a (j - increment) with
        | None => None
        | Some y =>
            if compare temp y then
              match set a j y with
              | None => None
              | Some a' => sift f increment a' temp (j - increment)
              end
            else set a j temp
        end
      else set a j temp
  end.

(** The for loop over i, Sort.h 50-60: [n] elements remain starting from index [i]. *)
Fixpoint pass (n : nat) (increment : nat) (a : list A) (i : nat) : option (list A) :=
  match n with
  | O => Some a
  | S m =>
      match get a i with
      | None => None
      | Some temp =>
          match sift (S i) increment a temp i with
          | None => None
          | Some a' => pass m increment a' (S i)
          end
      end
  end.

(** The loop over the gaps, Sort.h 43-61. *)
Fixpoint sort_gaps (gaps : list nat) (a : list A) : option (list A) :=
  match gaps with
  | [] => Some a
  | g :: r =>
      if length a <? g then sort_gaps r a
      else match pass (length a) g a 0 with
           | None => None
           | Some a' => sort_gaps r a'
           end
  end.
End Sort.

(** The Ciura gaps, Sort.h 41. *)
Definition ciura : list nat :=
  map N.to_nat [510774; 227011; 100894; 44842; 19930; 8858; 3937; 1750; 701; 301; 132; 57; 23; 10; 4; 1]%N.

Definition shell_sort {A} (compare : A -> A -> bool) (a : list A) : option (list A) :=
  sort_gaps compare ciura a.
