(** Model of AString and AStackString.  Sources: Core/Strings/AString.h 37, 81-114, 217-230,
    Core/Strings/AString.cpp 22-145 (constructors, destructor), 395-443 (RemoveQuotes), 447-530 (Assign,
    Clear), 534-552 (ClearAndFreeMemory), 556-618 (SetReserved, SetLength), 626-700 (concatenation),
    726-900 (Replace, ToLower, ToUpper, Trim), 1488-1520 (Copy, StrLen), 1594-1626 (Grow, GrowNoCopy),
    Core/Strings/AStackString.h 22-120, Core/Math/Conversions.h 14-17.
    Not modelled: Format, AppendFormat (printf), Scan; Tokenize is in M_Args. *)
From Coq Require Import List Arith Bool Ascii NArith.
From Verif Require Import M_Path M_Names M_Array.
Import ListNotations.

(** uint32_t arithmetic. *)
Definition w32 (n : nat) : nat := N.to_nat (N.of_nat n mod 4294967296)%N.
(** Math::RoundUp( n, (uint32_t)2 ), Conversions.h 14-17. *)
Definition round2 (n : nat) : nat := 2 * (w32 (n + 1) / 2).

(** One block of memory: [true] for memory of ALLOC, [false] for the storage inside an AStackString, and
    its bytes.  [None] in the list of blocks: given back by FREE. *)
Definition block := (bool * list ascii)%type.
Definition heap := list (option block).

(** A pointer to bytes: into some array that no string uses (a literal, a buffer of the caller), or into a
    block at an offset. *)
Inductive ptr := Lit (l : list ascii) (off : nat) | Blk (b off : nat).
Definition padd (p : ptr) (n : nat) : ptr :=
  match p with Lit l o => Lit l (o + n) | Blk b o => Blk b (o + n) end.

(** The bytes from a pointer to the end of its memory.  [None]: a dangling pointer. *)
Definition mem (h : heap) (p : ptr) : option (list ascii) :=
  match p with
  | Lit l o => Some (skipn o l)
  | Blk b o => match nth_error h b with Some (Some (_, l)) => Some (skipn o l) | _ => None end
  end.

Notation "x <- e ;; k" := (match e with None => None | Some x => k end) (at level 60, e at next level, right associativity).

Definition read1 (h : heap) (p : ptr) : option ascii := m <- mem h p ;; nth_error m 0.
Definition read (h : heap) (p : ptr) (n : nat) : option (list ascii) :=
  m <- mem h p ;; if n <=? length m then Some (firstn n m) else None.
(** Writing bytes at an offset of a block.  [None]: outside of the block, or a block that was freed. *)
Definition write (h : heap) (b o : nat) (l : list ascii) : option heap :=
  match nth_error h b with
  | Some (Some (k, m)) =>
      if o + length l <=? length m
      then set h b (Some (k, firstn o m ++ l ++ skipn (o + length l) m)) else None
  | _ => None
  end.
(** FREE: only a live block of ALLOC can be freed. *)
Definition free (h : heap) (p : option nat) : option heap :=
  match p with
  | None => None
  | Some b => match nth_error h b with Some (Some (true, _)) => set h b None | _ => None end
  end.

(** StrLen, AString.cpp 1509-1517.  [None]: no NUL before the end of the memory. *)
Fixpoint zlen (m : list ascii) : option nat :=
  match m with
  | [] => None
  | c :: r => if Ascii.eqb c nul then Some 0 else n <- zlen r ;; Some (S n)
  end.
Definition strlen (h : heap) (p : ptr) : option nat := m <- mem h p ;; zlen m.

(** An AString object.  [at_ = None]: m_Contents is s_EmptyString, one NUL that must not be written.
    [res] and [own] are the two parts of m_ReservedAndFlags. *)
Record astr := A { at_ : option nat; len : nat; res : nat; own : bool }.
Definition base (s : astr) : ptr := match at_ s with Some b => Blk b 0 | None => Lit [nul] 0 end.
(** AString(), AString.cpp 22-27. *)
Definition fresh : astr := A None 0 0 false.

Definition wr (h : heap) (s : astr) (o : nat) (l : list ascii) : option heap :=
  match at_ s with Some b => write h b o l | None => None end.
(** Copy( src, dst, len ), AString.cpp 1501-1505: memmove, then the terminator. *)
Definition copy_n (h : heap) (p : ptr) (s : astr) (o n : nat) : option heap :=
  l <- read h p n ;; h1 <- wr h s o l ;; wr h1 s (o + n) [nul].
(** Copy( src, dst ), AString.cpp 1484-1497: byte by byte up to and with the terminator.  The fuel is more
    than the bytes of the block that is written, after which every write is outside of it. *)
Fixpoint zcopy (fuel : nat) (h : heap) (p : ptr) (s : astr) (o : nat) : option heap :=
  match fuel with
  | 0 => None
  | S f => c <- read1 h p ;; h1 <- wr h s o [c] ;;
           if Ascii.eqb c nul then Some h1 else zcopy f h1 (padd p 1) s (S o)
  end.
Definition copy_z (h : heap) (p : ptr) (s : astr) (o : nat) : option heap := zcopy (S (S (res s))) h p s o.

Section Junk.
(** The bytes of memory fresh from ALLOC, or of the stack: anything. *)
Context (junk : nat -> ascii).

Definition alloc (h : heap) (kind : bool) (n : nat) : heap * nat :=
  (h ++ [Some (kind, map junk (seq 0 n))], length h).

(** Grow, AString.cpp 1594-1612. *)
Definition grow (h : heap) (s : astr) (n : nat) : option (heap * astr) :=
  let r := round2 (Nat.max (w32 (res s * 2)) n) in
  let '(h1, b) := alloc h true (r + 1) in
  h2 <- copy_n h1 (base s) (A (Some b) 0 r true) 0 (len s) ;;
  h3 <- (if own s then free h2 (at_ s) else Some h2) ;;
  Some (h3, A (Some b) (len s) r true).
(** GrowNoCopy, AString.cpp 1616-1626. *)
Definition grow_no_copy (h : heap) (s : astr) (n : nat) : option (heap * astr) :=
  h1 <- (if own s then free h (at_ s) else Some h) ;;
  let r := round2 n in
  let '(h2, b) := alloc h1 true (r + 1) in
  Some (h2, A (Some b) (len s) r true).

(** Assign( start, end ), AString.cpp 454-472; [n] is end - start. *)
Definition assign (h : heap) (s : astr) (p : ptr) (n : nat) : option (heap * astr) :=
  let l := w32 n in
  if res s <? l then
    x <- grow_no_copy h s l ;;
    let '(h1, s1) := x in
    h2 <- copy_n h1 p s1 0 l ;; Some (h2, A (at_ s1) l (res s1) (own s1))
  else match at_ s with
       | None => Some (h, s)
       | Some _ => h1 <- copy_n h p s 0 l ;; Some (h1, A (at_ s) l (res s) (own s))
       end.
(** Assign( string ), AString.cpp 447-450. *)
Definition assign_z (h : heap) (s : astr) (p : ptr) : option (heap * astr) :=
  n <- strlen h p ;; assign h s p n.

(** SetLength, AString.cpp 596-612. *)
Definition set_length (h : heap) (s : astr) (n : nat) : option (heap * astr) :=
  x <- (if res s <? n then grow h s n else Some (h, s)) ;;
  let '(h1, s1) := x in
  match at_ s1 with
  | None => Some (h1, A None n (res s1) (own s1))
  | Some b => h2 <- wr h1 s1 n [nul] ;; Some (h2, A (Some b) n (res s1) (own s1))
  end.
(** SetReserved, AString.cpp 573-592; the capacity is a size_t. *)
Definition set_reserved (h : heap) (s : astr) (n : nat) : option (heap * astr) :=
  if n <? len s then set_length h s (w32 n)
  else if n <=? res s then Some (h, s)
  else grow h s (w32 n).

(** operator += ( char ), AString.cpp 626-638. *)
Definition push (h : heap) (s : astr) (c : ascii) : option (heap * astr) :=
  x <- (if res s <=? len s then grow h s (w32 (len s + 1)) else Some (h, s)) ;;
  let '(h1, s1) := x in
  h2 <- wr h1 s1 (len s1) [c] ;;
  let n := w32 (len s1 + 1) in
  h3 <- wr h2 s1 n [nul] ;; Some (h3, A (at_ s1) n (res s1) (own s1)).
(** operator += ( const char * ), AString.cpp 642-657. *)
Definition append_z (h : heap) (s : astr) (p : ptr) : option (heap * astr) :=
  k <- strlen h p ;;
  let k := w32 k in
  if k =? 0 then Some (h, s) else
  let n := w32 (len s + k) in
  x <- (if res s <? n then grow h s n else Some (h, s)) ;;
  let '(h1, s1) := x in
  h2 <- copy_z h1 p s1 (len s1) ;; Some (h2, A (at_ s1) n (res s1) (own s1)).
(** operator += ( const AString & ), AString.cpp 661-676.  [o = None]: the string itself, whose Get() is
    read after Grow. *)
Definition append_s (h : heap) (s : astr) (o : option astr) : option (heap * astr) :=
  let k := match o with Some t => len t | None => len s end in
  if k =? 0 then Some (h, s) else
  let n := w32 (len s + k) in
  x <- (if res s <? n then grow h s n else Some (h, s)) ;;
  let '(h1, s1) := x in
  h2 <- copy_n h1 (base (match o with Some t => t | None => s1 end)) s1 (len s1) k ;;
  Some (h2, A (at_ s1) n (res s1) (own s1)).
(** Append( string, len ), AString.cpp 680-696; len is a size_t. *)
Definition append_n (h : heap) (s : astr) (p : ptr) (k : nat) : option (heap * astr) :=
  if k =? 0 then Some (h, s) else
  let n := w32 (len s + w32 k) in
  x <- (if res s <? n then grow h s n else Some (h, s)) ;;
  let '(h1, s1) := x in
  h2 <- copy_n h1 p s1 (len s1) k ;; Some (h2, A (at_ s1) n (res s1) (own s1)).

(** Clear, AString.cpp 517-530. *)
Definition clear (h : heap) (s : astr) : option (heap * astr) :=
  match at_ s with
  | None => Some (h, s)
  | Some b => h1 <- wr h s 0 [nul] ;; Some (h1, A (Some b) 0 (res s) (own s))
  end.
(** ClearAndFreeMemory, AString.cpp 534-557. *)
Definition clear_free (h : heap) (s : astr) : option (heap * astr) :=
  if own s then h1 <- free h (at_ s) ;; Some (h1, fresh)
  else match at_ s with
       | None => Some (h, A None 0 (res s) false)
       | Some b => h1 <- wr h s 0 [nul] ;; Some (h1, A (Some b) 0 (res s) false)
       end.

(** A loop over the characters that writes a new character at its place or leaves it, as in
    Replace( char, char ) 726-744, ToLower 748-762 and ToUpper 766-780.  [f] gives, for the state of the
    loop and the character: the character to write if any, the new state, and whether to leave the loop. *)
Fixpoint each {S} (f : S -> ascii -> option ascii * S * bool) (h : heap) (s : astr) (st : S) (pos todo : nat)
  : option (heap * S) :=
  match todo with
  | 0 => Some (h, st)
  | Datatypes.S k =>
      c <- read1 h (padd (base s) pos) ;;
      let '(w, st1, stop) := f st c in
      h1 <- (match w with Some c' => wr h s pos [c'] | None => Some h end) ;;
      if stop then Some (h1, st1) else each f h1 s st1 (Datatypes.S pos) k
  end.

(** Replace( from, to, maxReplaces ) for characters: the state is replaceCount. *)
Definition replace_char (h : heap) (s : astr) (from to : ascii) (most : nat) : option (heap * astr * nat) :=
  x <- each (fun n c => if Ascii.eqb c from then (Some to, w32 (S n), w32 (S n) =? most) else (None, n, false))
         h s 0 0 (len s) ;;
  let '(h1, n) := x in Some (h1, s, n).
(** ToLower: writes only the characters that change. *)
Definition to_lower (h : heap) (s : astr) : option (heap * astr) :=
  x <- each (fun _ c => let n := nat_of_ascii c in
                        if (65 <=? n) && (n <=? 90) then (Some (ascii_of_nat (97 + (n - 65))), tt, false)
                        else (None, tt, false)) h s tt 0 (len s) ;;
  Some (fst x, s).
Definition to_upper (h : heap) (s : astr) : option (heap * astr) :=
  x <- each (fun _ c => let n := nat_of_ascii c in
                        if (97 <=? n) && (n <=? 122) then (Some (ascii_of_nat (65 + (n - 97))), tt, false)
                        else (None, tt, false)) h s tt 0 (len s) ;;
  Some (fst x, s).

(** Trim, AString.cpp 784-806.  The ASSERT is [None]. *)
Definition trim (h : heap) (s : astr) (a b : nat) : option (heap * astr) :=
  if len s <? a + b then None
  else if a =? 0 then if b =? 0 then Some (h, s) else set_length h s (len s - b)
  else assign h s (padd (base s) a) (len s - b - a).
(** TrimStart, AString.cpp 810-820. *)
Fixpoint count_front (h : heap) (s : astr) (c : ascii) (pos todo : nat) : option nat :=
  match todo with
  | 0 => Some 0
  | S k => d <- read1 h (padd (base s) pos) ;;
           if Ascii.eqb d c then n <- count_front h s c (S pos) k ;; Some (S n) else Some 0
  end.
Definition trim_start (h : heap) (s : astr) (c : ascii) : option (heap * astr) :=
  n <- count_front h s c 0 (len s) ;; trim h s n 0.
(** TrimEnd, AString.cpp 824-834: from the last character down. *)
Fixpoint count_back (h : heap) (s : astr) (c : ascii) (todo : nat) : option nat :=
  match todo with
  | 0 => Some 0
  | S k => d <- read1 h (padd (base s) k) ;;
           if Ascii.eqb d c then n <- count_back h s c k ;; Some (S n) else Some 0
  end.
Definition trim_end (h : heap) (s : astr) (c : ascii) : option (heap * astr) :=
  n <- count_back h s c (len s) ;; trim h s 0 n.

(** The strings of a program, in the order of their construction; [None]: destroyed. *)
Record world := W { blocks : heap; strs : list (option astr) }.
Definition empty_world : world := W [] [].
Definition live (w : world) (i : nat) : option astr :=
  match nth_error (strs w) i with Some (Some s) => Some s | _ => None end.
Definition store (w : world) (i : nat) (x : heap * astr) : option world :=
  l <- set (strs w) i (Some (snd x)) ;; Some (W (fst x) l).
Definition push_new (w : world) (x : heap * astr) : world := W (fst x) (strs w ++ [Some (snd x)]).

(** Arguments: a terminated text outside of all strings or Get() + a of string j; a range of such
    characters. *)
Inductive ztext := ZLit (l : list ascii) | ZStr (j a : nat).
Inductive range := RLit (l : list ascii) | RStr (j a n : nat).
Definition zptr (w : world) (z : ztext) : option ptr :=
  match z with ZLit l => Some (Lit (l ++ [nul]) 0) | ZStr j a => t <- live w j ;; Some (padd (base t) a) end.
Definition rptr (w : world) (r : range) : option (ptr * nat) :=
  match r with
  | RLit l => Some (Lit l 0, length l)
  | RStr j a n => t <- live w j ;; Some (padd (base t) a, n)
  end.

(** A fresh AString that takes a copy, AString.cpp 46-54, 84-94, 98-110: reserved is the length rounded up. *)
Definition new_copy (h : heap) (p : ptr) (n : nat) : option (heap * astr) :=
  let l := w32 n in
  let r := round2 l in
  let '(h1, b) := alloc h true (r + 1) in
  h2 <- copy_n h1 p (A (Some b) l r true) 0 l ;; Some (h2, A (Some b) l r true).
Definition new_z (h : heap) (p : ptr) : option (heap * astr) :=
  n <- strlen h p ;;
  let l := w32 n in
  let r := round2 l in
  let '(h1, b) := alloc h true (r + 1) in
  h2 <- copy_z h1 p (A (Some b) l r true) 0 ;; Some (h2, A (Some b) l r true).
(** AString( reserve ), AString.cpp 31-43: the memory is marked as owned, whatever [n]. *)
Definition new_reserve (h : heap) (n : nat) : option (heap * astr) :=
  if 0 <? n then
    let r := round2 n in
    let '(h1, b) := alloc h true (r + 1) in
    h2 <- wr h1 (A (Some b) 0 r true) 0 [nul] ;; Some (h2, A (Some b) 0 r true)
  else Some (h, A None 0 0 true).
(** AStackString<RESERVED>(), AStackString.h 64-71; RESERVED is even. *)
Definition new_stack (h : heap) (n : nat) : option (heap * astr) :=
  let '(h1, b) := alloc h false (n + 1) in
  h2 <- wr h1 (A (Some b) 0 n false) 0 [nul] ;; Some (h2, A (Some b) 0 n false).
(** ~AString, AString.cpp 114-137. *)
Definition destroy (h : heap) (s : astr) : option heap := if own s then free h (at_ s) else Some h.

(** StrNCmp( pos, from, k ) == 0, AString.cpp 1521-1542, on the bytes at both pointers. *)
Fixpoint ncmp (a b : list ascii) (k : nat) {struct k} : option bool :=
  match k with
  | 0 => Some true
  | S k' => match a, b with
            | x :: a', y :: b' =>
                if Ascii.eqb x y then if Ascii.eqb x nul then Some true else ncmp a' b' k' else Some false
            | _, _ => None
            end
  end.
(** Replace( from, to, maxReplaces ) for texts, AString.cpp 838-886.  [t] is [temp]; [most] counts down from
    maxReplaces, 0 wraps.  The pointer comparison pos <= end - fromLength is made on offsets. *)
Fixpoint replace_loop (fuel : nat) (h : heap) (s t : astr) (pf pt : ptr) (k pos : nat) (most : N) (n : nat)
  : option (heap * astr * nat * nat) :=
  match fuel with
  | 0 => None
  | S f =>
      if len s <? pos + k then Some (h, t, pos, n) else
      a <- mem h (padd (base s) pos) ;;
      b <- mem h pf ;;
      e <- ncmp a b k ;;
      if e then
        x <- append_z h t pt ;;
        let '(h1, t1) := x in
        let most' := (if most =? 0 then 4294967295 else most - 1)%N in
        if (most' =? 0)%N then Some (h1, t1, pos + k, w32 (S n))
        else replace_loop f h1 s t1 pf pt k (pos + k) most' (w32 (S n))
      else
        c <- read1 h (padd (base s) pos) ;;
        x <- push h t c ;;
        let '(h1, t1) := x in replace_loop f h1 s t1 pf pt k (S pos) most n
  end.
Fixpoint push_rest (h : heap) (s t : astr) (pos todo : nat) : option (heap * astr) :=
  match todo with
  | 0 => Some (h, t)
  | S k => c <- read1 h (padd (base s) pos) ;;
           x <- push h t c ;;
           let '(h1, t1) := x in push_rest h1 s t1 (S pos) k
  end.
Definition temp_size : nat := 2048.
Definition replace (h : heap) (s : astr) (pf pt : ptr) (most : N) : option (heap * astr * nat) :=
  k <- strlen h pf ;;
  if k =? 0 then Some (h, s, 0) else
  x <- new_stack h temp_size ;;
  let '(h1, t) := x in
  y <- replace_loop (S (len s)) h1 s t pf pt k 0 most 0 ;;
  let '(h2, t2, pos, n) := y in
  if 0 <? n then
    z <- push_rest h2 s t2 pos (len s - pos) ;;
    let '(h3, t3) := z in
    u <- assign h3 s (base t3) (len t3) ;;
    let '(h4, s4) := u in
    h5 <- destroy h4 t3 ;; Some (h5, s4, n)
  else h3 <- destroy h2 t2 ;; Some (h3, s, n).

Inductive op :=
| ONew | ONewReserve (n : nat) | ONewStack (n : nat) | ONewCopy (j : nat) | ONewMove (j : nat)
| ONewZ (z : ztext) | ONewRange (r : range) | ODestroy (i : nat)
| OAssignZ (i : nat) (z : ztext) | OAssignRange (i : nat) (r : range) | OAssign (i j : nat) | OMove (i j : nat)
| OClear (i : nat) | OClearFree (i : nat) | OSetLength (i n : nat) | OSetReserved (i n : nat)
| OPush (i : nat) (c : ascii) | OAppendZ (i : nat) (z : ztext) | OAppend (i j : nat)
| OAppendRange (i : nat) (r : range)
| OReplaceChar (i : nat) (a b : ascii) (most : nat) | OReplace (i : nat) (from to : ztext) (most : N)
| OLower (i : nat) | OUpper (i : nat) | OTrim (i a b : nat) | OTrimStart (i : nat) (c : ascii)
| OTrimEnd (i : nat) (c : ascii).

Definition on (w : world) (i : nat) (f : heap -> astr -> option (heap * astr)) : option (world * nat) :=
  s <- live w i ;; x <- f (blocks w) s ;; w1 <- store w i x ;; Some (w1, 0).
Definition count (w : world) (i : nat) (f : heap -> astr -> option (heap * astr * nat)) : option (world * nat) :=
  s <- live w i ;; x <- f (blocks w) s ;; w1 <- store w i (fst x) ;; Some (w1, snd x).
Definition make (w : world) (x : option (heap * astr)) : option (world * nat) :=
  y <- x ;; Some (push_new w y, 0).

(** One use of a string; the number is what Replace returns, else 0. *)
Definition step (w : world) (o : op) : option (world * nat) :=
  let h := blocks w in
  match o with
  | ONew => make w (Some (h, fresh))
  | ONewReserve n => make w (new_reserve h n)
  | ONewStack n => make w (new_stack h n)
  | ONewCopy j => t <- live w j ;; make w (new_copy h (base t) (len t))
  (* AString( AString && ), AString.cpp 58-80 *)
  | ONewMove j =>
      t <- live w j ;;
      x <- (if own t then Some (h, t) else assign h fresh (base t) (len t)) ;;
      w1 <- store w j (fst x, fresh) ;; Some (push_new w1 x, 0)
  | ONewZ z => p <- zptr w z ;; make w (new_z h p)
  | ONewRange r => q <- rptr w r ;; make w (new_copy h (fst q) (snd q))
  | ODestroy i =>
      s <- live w i ;; h1 <- destroy h s ;; l <- set (strs w) i None ;; Some (W h1 l, 0)
  | OAssignZ i z => p <- zptr w z ;; on w i (fun h s => assign_z h s p)
  | OAssignRange i r => q <- rptr w r ;; on w i (fun h s => assign h s (fst q) (snd q))
  (* Assign( const AString & ), AString.cpp 476-491 *)
  | OAssign i j => t <- live w j ;; on w i (fun h s => assign h s (base t) (len t))
  (* Assign( AString && ), AString.cpp 495-517 *)
  | OMove i j =>
      s <- live w i ;; t <- live w j ;;
      x <- (if own t then h1 <- (if own s then free h (at_ s) else Some h) ;; Some (h1, t)
            else assign h s (base t) (len t)) ;;
      w1 <- store w i x ;; w2 <- store w1 j (fst x, fresh) ;; Some (w2, 0)
  | OClear i => on w i clear
  | OClearFree i => on w i clear_free
  | OSetLength i n => on w i (fun h s => set_length h s n)
  | OSetReserved i n => on w i (fun h s => set_reserved h s n)
  | OPush i c => on w i (fun h s => push h s c)
  | OAppendZ i z => p <- zptr w z ;; on w i (fun h s => append_z h s p)
  | OAppend i j =>
      t <- live w j ;; on w i (fun h s => append_s h s (if i =? j then None else Some t))
  | OAppendRange i r => q <- rptr w r ;; on w i (fun h s => append_n h s (fst q) (snd q))
  | OReplaceChar i a b most => count w i (fun h s => replace_char h s a b most)
  | OReplace i zf zt most =>
      pf <- zptr w zf ;; pt <- zptr w zt ;; count w i (fun h s => replace h s pf pt most)
  | OLower i => on w i to_lower
  | OUpper i => on w i to_upper
  | OTrim i a b => on w i (fun h s => trim h s a b)
  | OTrimStart i c => on w i (fun h s => trim_start h s c)
  | OTrimEnd i c => on w i (fun h s => trim_end h s c)
  end.

Fixpoint run (w : world) (l : list op) : option (world * list nat) :=
  match l with
  | [] => Some (w, [])
  | o :: r => x <- step w o ;; y <- run (fst x) r ;; Some (fst y, snd x :: snd y)
  end.
End Junk.

(** What Get() and GetLength() of a string give: the characters before the terminator. *)
Definition text (h : heap) (s : astr) : list ascii :=
  match at_ s with
  | None => []
  | Some b => match nth_error h b with Some (Some (_, m)) => firstn (len s) m | _ => [] end
  end.
Definition texts (w : world) : list (option (list ascii)) :=
  map (fun o => match o with Some s => Some (text (blocks w) s) | None => None end) (strs w).
