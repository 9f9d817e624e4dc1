(** The definition of CRC-32 (IEEE 802.3, reflected): one bit at a time. *)
From Coq Require Import List Arith Bool NArith.
Import ListNotations.
Local Open Scope N_scope.

(** Shift one bit out; if it was set, subtract the polynomial. *)
Definition crc_bit (c : N) : N := if N.odd c then N.lxor (N.div2 c) 0xEDB88320 else N.div2 c.
Definition crc_byte (c b : N) : N := Nat.iter 8 crc_bit (N.lxor c b).
Definition crc32 (l : list N) : N := N.lxor (fold_left crc_byte l 0xFFFFFFFF) 0xFFFFFFFF.
(** ASCII lower case. *)
Definition ascii_lower (b : N) : N := if (65 <=? b) && (b <=? 90) then b + 32 else b.
