(** Bytes and little-endian numbers: how IOStream writes and reads integers (Core/FileIO/IOStream.h 35-62: the raw
    object representation, on the little-endian platforms the code supports). *)
From Coq Require Import List Arith Bool NArith Lia.
Import ListNotations.
Local Open Scope N_scope.

Definition bytes := list N.
Definition blen (l : bytes) : N := N.of_nat (List.length l).

Fixpoint le_bytes (n : nat) (x : N) : bytes :=
  match n with O => [] | S m => x mod 256 :: le_bytes m (x / 256) end.
Fixpoint le_value (l : bytes) : N := match l with [] => 0 | b :: r => b + 256 * le_value r end.

Definition u32 (x : N) : N := x mod 4294967296.
Definition u64 (x : N) : N := x mod 18446744073709551616.

Lemma le_bytes_len n : forall x, List.length (le_bytes n x) = n.
Proof. induction n; intros; cbn; auto. Qed.
Lemma le_value_le_bytes n : forall x, le_value (le_bytes n x) = x mod (256 ^ N.of_nat n).
Proof.
  induction n as [|n IH]; intros x; [cbn; symmetry; apply N.mod_1_r|].
  cbn [le_bytes le_value]. rewrite IH. rewrite Nat2N.inj_succ, N.pow_succ_r'.
  rewrite N.mod_mul_r; [reflexivity|lia|]. apply N.pow_nonzero. lia.
Qed.
Lemma le_value_u32 x : x < 4294967296 -> le_value (le_bytes 4 x) = x.
Proof. intros H. rewrite le_value_le_bytes. change (256 ^ N.of_nat 4) with 4294967296. now apply N.mod_small. Qed.
Lemma le_value_u64 x : x < 18446744073709551616 -> le_value (le_bytes 8 x) = x.
Proof. intros H. rewrite le_value_le_bytes. change (256 ^ N.of_nat 8) with 18446744073709551616. now apply N.mod_small. Qed.
Lemma le_bytes_small n : forall x, Forall (fun b => b < 256) (le_bytes n x).
Proof. induction n; intros; constructor; auto. apply N.mod_lt. lia. Qed.
Lemma blen_app a b : blen (a ++ b) = blen a + blen b.
Proof. unfold blen. rewrite app_length. lia. Qed.
