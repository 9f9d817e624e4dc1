(** Model of the in-memory streams.  Sources: Core/FileIO/MemoryStream.cpp, ChainedMemoryStream.cpp,
    ConstMemoryStream.cpp, IOStream.cpp and IOStream.h.  Sizes are [N]; a memory access outside a buffer gives [None]. *)
From Coq Require Import List Arith Bool NArith.
From Verif Require Import M_Bytes.
Import ListNotations.
Local Open Scope N_scope.

(** ** MemoryStream: [ms_data] is [m_Begin, m_End); [ms_cap] is m_MaxEnd - m_Begin. *)
Record mstream := mkMS { ms_data : bytes; ms_cap : N; ms_growth : N }.
(** Constructors, MemoryStream.cpp 13-27. *)
Definition ms_new (cap growth : N) : mstream := mkMS [] cap growth.
(** GrowToAccommodate, MemoryStream.cpp 165-179.  The copy of the old content needs room. *)
Definition ms_grow (s : mstream) (n : N) : option mstream :=
  let cap := ms_cap s + N.max n (ms_growth s) in
  if blen (ms_data s) <=? cap then Some (mkMS (ms_data s) cap (ms_growth s)) else None.
(** WriteBuffer, MemoryStream.cpp 120-131 (and 94-106 when the source delivers all bytes). *)
Definition ms_write (s : mstream) (buf : bytes) : option mstream :=
  match (if ms_cap s <? blen (ms_data s) + blen buf then ms_grow s (blen buf) else Some s) with
  | None => None
  | Some s1 => if blen (ms_data s1) + blen buf <=? ms_cap s1
               then Some (mkMS (ms_data s1 ++ buf) (ms_cap s1) (ms_growth s1)) else None
  end.
(** Reset, MemoryStream.cpp 61-64. *)
Definition ms_reset (s : mstream) : mstream := mkMS [] (ms_cap s) (ms_growth s).
Fixpoint ms_writes (s : mstream) (l : list bytes) : option mstream :=
  match l with [] => Some s | b :: r => match ms_write s b with Some s' => ms_writes s' r | None => None end end.

(** ** ChainedMemoryStream: each page is the list of bytes stored in it from its start. *)
Record cstream := mkCS { cs_pages : list bytes; cs_pos : N; cs_page : N }.
Definition cs_new (page : N) : cstream := mkCS [] 0 (u32 page).
(** memcpy( m_Pages[ m_CurrentPageIndex ] + m_PosInPage, src, n ): the current page is the last one. *)
Definition cs_copy (s : cstream) (src : bytes) : option cstream :=
  match rev (cs_pages s) with
  | [] => None
  | pg :: front =>
      if (blen pg =? cs_pos s) && (cs_pos s + blen src <=? cs_page s)
      then Some (mkCS (rev front ++ [pg ++ src]) (cs_pos s + blen src) (cs_page s)) else None
  end.
(** WriteBuffer, ChainedMemoryStream.cpp 50-85; [fuel] bounds the loop. *)
Fixpoint cs_write (fuel : nat) (s : cstream) (src : bytes) : option cstream :=
  match src with
  | [] => Some s
  | _ =>
      match fuel with
      | O => None
      | S f =>
          let avail := match cs_pages s with [] => 0 | _ => cs_page s - cs_pos s end in
          let '(s1, avail1) := if avail =? 0 then (mkCS (cs_pages s ++ [[]]) 0 (cs_page s), cs_page s) else (s, avail) in
          let n := N.to_nat (N.min avail1 (blen src)) in
          match cs_copy s1 (firstn n src) with
          | None => None
          | Some s2 => cs_write f s2 (skipn n src)
          end
      end
  end.
Fixpoint cs_writes (s : cstream) (l : list bytes) : option cstream :=
  match l with
  | [] => Some s
  | b :: r => match cs_write (List.length b) s b with Some s' => cs_writes s' r | None => None end
  end.
(** GetFileSize, ChainedMemoryStream.cpp 111-126: the product is computed in 32 bits. *)
Definition cs_size (s : cstream) : N :=
  let n := u32 (N.of_nat (List.length (cs_pages s))) in
  (if 1 <? n then u32 ((n - 1) * cs_page s) else 0) + cs_pos s.
(** GetPage, ChainedMemoryStream.cpp 30-37: the page and the size reported for it. *)
Definition cs_get_page (s : cstream) (i : nat) : option (bytes * N) :=
  match nth_error (cs_pages s) i with
  | None => None
  | Some pg => Some (pg, if (i =? List.length (cs_pages s) - 1)%nat then cs_pos s else cs_page s)
  end.

(** ** ConstMemoryStream *)
Record kstream := mkKS { ks_buf : bytes; ks_pos : N }.
Definition ks_new (b : bytes) : kstream := mkKS b 0.
(** ReadBuffer, ConstMemoryStream.cpp 85-92.  The unsigned subtraction is checked by the memory access: a
    position past the end gives [None]. *)
Definition ks_read (s : kstream) (n : N) : option (bytes * kstream) :=
  if blen (ks_buf s) <? ks_pos s then None
  else let m := N.min (blen (ks_buf s) - ks_pos s) n in
       Some (firstn (N.to_nat m) (skipn (N.to_nat (ks_pos s)) (ks_buf s)), mkKS (ks_buf s) (ks_pos s + m)).
(** Seek, ConstMemoryStream.cpp 118-126. *)
Definition ks_seek (s : kstream) (p : N) : bool * kstream :=
  if blen (ks_buf s) <? p then (false, s) else (true, mkKS (ks_buf s) p).

(** ** IOStream helpers over a constant stream *)
(** Read( uintN_t & ): [inl v] when all bytes were read, [inr partial] otherwise (returns false and the
    variable holds the bytes read so far over its old content). *)
Definition rd_int (n : nat) (s : kstream) : option ((N + bytes) * kstream) :=
  match ks_read s (N.of_nat n) with
  | None => None
  | Some (b, s') => Some (if (List.length b =? n)%nat then inl (le_value b) else inr b, s')
  end.
(** Read( AString & ), IOStream.cpp 13-22: [None] inside is a false result. *)
Definition rd_str (s : kstream) : option (option bytes * kstream) :=
  match rd_int 4 s with
  | None => None
  | Some (inr _, s') => Some (None, s')
  | Some (inl len, s') =>
      match ks_read s' len with
      | None => None
      | Some (b, s'') => Some (if blen b =? len then Some b else None, s'')
      end
  end.
(** Write( AString ), IOStream.cpp 26-32: length then characters. *)
Definition wr_str (t : bytes) : bytes := le_bytes 4 (u32 (blen t)) ++ t.
(** Write( Array ) and Read( Array ) of strings, IOStream.h 71-112. *)
Definition wr_strs (l : list bytes) : bytes := le_bytes 4 (u32 (N.of_nat (List.length l))) ++ flat_map wr_str l.
Fixpoint rd_list (n : nat) (s : kstream) : option (option (list bytes) * kstream) :=
  match n with
  | O => Some (Some [], s)
  | S m => match rd_str s with
           | None => None
           | Some (None, s') => Some (None, s')
           | Some (Some t, s') => match rd_list m s' with
                                  | None => None
                                  | Some (None, s'') => Some (None, s'')
                                  | Some (Some l, s'') => Some (Some (t :: l), s'')
                                  end
           end
  end.
Definition rd_strs (s : kstream) : option (option (list bytes) * kstream) :=
  match rd_int 4 s with
  | None => None
  | Some (inr _, s') => Some (None, s')
  | Some (inl n, s') => rd_list (N.to_nat n) s'
  end.
(** Math::RoundUp, Conversions.h 14-17, on 64-bit numbers. *)
Definition round_up (v a : N) : N := N.land (u64 (v + a + 18446744073709551615)) (N.lnot (u64 (a + 18446744073709551615)) 64).
(** AlignWrite, IOStream.cpp 51-61: the padding written after [tell] bytes. *)
Definition align_pad (tell a : N) : bytes := repeat 0 (N.to_nat (u64 (round_up tell a + 18446744073709551616 - tell))).
