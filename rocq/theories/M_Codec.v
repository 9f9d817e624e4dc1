(** Sequences of IOStream reads over a constant memory stream.  A reader gives [None] for a memory error, [Some (None, s)]
    when the C++ reading code reports failure, and [Some (Some x, s)] on success; the stream moves as in M_Stream. *)
From Coq Require Import List Arith Bool NArith.
From Verif Require Import M_Bytes M_Stream.
Import ListNotations.
Local Open Scope N_scope.

Definition reader (A : Type) := kstream -> option (option A * kstream).
(** [if ( Read(..) == false ) return false;] followed by more reading. *)
Definition bind {A B} (r : reader A) (k : A -> reader B) : reader B :=
  fun s => match r s with
           | None => None
           | Some (None, s') => Some (None, s')
           | Some (Some x, s') => k x s'
           end.
Definition ret {A} (x : A) : reader A := fun s => Some (Some x, s).
Definition fail {A} : reader A := fun s => Some (None, s).
(** [if ( !cond ) return false;] *)
Definition guard (b : bool) : reader unit := if b then ret tt else fail.
(** Read( uintN_t & ) whose result is tested, IOStream.h 35-44; [n] is the number of bytes. *)
Definition r_int (n : nat) : reader N :=
  fun s => match rd_int n s with
           | None => None
           | Some (inl v, s') => Some (Some v, s')
           | Some (inr _, s') => Some (None, s')
           end.
(** Read( uintN_t & ) into a variable initialised to 0 whose result is ignored: a short read leaves the bytes read so far
    in the low end of the variable. *)
Definition r_int_ignored (n : nat) : reader N :=
  fun s => match rd_int n s with
           | None => None
           | Some (inl v, s') => Some (Some v, s')
           | Some (inr b, s') => Some (Some (le_value b), s')
           end.
(** Read( AString & ), IOStream.cpp 13-22. *)
Definition r_str : reader bytes := rd_str.
(** Read( void *, size ) compared with the size asked for. *)
Definition r_raw (n : N) : reader bytes :=
  fun s => match ks_read s n with
           | None => None
           | Some (b, s') => Some (if blen b =? n then Some b else None, s')
           end.
(** A counted loop of reads, leaving at the first failure. *)
Fixpoint r_rep {A} (n : nat) (r : reader A) : reader (list A) :=
  match n with
  | O => ret []
  | S m => bind r (fun x => bind (r_rep m r) (fun l => ret (x :: l)))
  end.
(** A loop of reads, one per element of a list already known. *)
Fixpoint r_each {A B} (l : list A) (r : A -> reader B) : reader (list B) :=
  match l with
  | [] => ret []
  | a :: t => bind (r a) (fun x => bind (r_each t r) (fun xs => ret (x :: xs)))
  end.
