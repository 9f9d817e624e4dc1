(** Model of packed results and compressed blocks.  Sources: Helpers/MultiBuffer.cpp 45-153, 159-202;
    Helpers/Compressor.cpp 41-265, Compressor.h 42-58. *)
From Coq Require Import List Arith Bool NArith ZArith.
From Verif Require Import M_Bytes M_Stream.
Import ListNotations.
Local Open Scope N_scope.

(** ** MultiBuffer *)
Definition max_files : nat := 4.   (* kMaxFiles, MultiBuffer.h 37 *)
(** What CreateFromFiles sees of a file: whether it opens, the size reported then, and the bytes that reading
    that many bytes delivers later. *)
Record fview := mkFV { fv_opens : bool; fv_size : N; fv_data : bytes }.
Inductive packed := Packed (b : bytes) | PackFailed (i : nat).
(** First loop, MultiBuffer.cpp 56-71: index of a file that does not open, or the sum of the sizes. *)
Fixpoint open_all (i : nat) (fs : list fview) (mem : N) : nat + N :=
  match fs with
  | [] => inr mem
  | f :: r => if fv_opens f then open_all (S i) r (u64 (mem + (8 + fv_size f))) else inl i
  end.
(** Third loop, MultiBuffer.cpp 86-97: append each file; a short read stops. *)
Fixpoint append_all (i : nat) (fs : list fview) (s : mstream) : option (nat + mstream) :=
  match fs with
  | [] => Some (inr s)
  | f :: r =>
      match ms_write s (fv_data f) with
      | None => None
      | Some s' => if blen (fv_data f) =? fv_size f then append_all (S i) r s' else Some (inl i)
      end
  end.
(** CreateFromFiles, MultiBuffer.cpp 45-102.  More than kMaxFiles overruns the arrays on the stack. *)
Definition create_from_files (fs : list fview) : option packed :=
  if (max_files <? List.length fs)%nat then None
  else match open_all 0 fs 4 with
       | inl i => Some (PackFailed i)
       | inr mem =>
           match ms_writes (ms_new mem 4096) (le_bytes 4 (N.of_nat (List.length fs)) :: map (fun f => le_bytes 8 (fv_size f)) fs) with
           | None => None
           | Some s => match append_all 0 fs s with
                       | None => None
                       | Some (inl i) => Some (PackFailed i)
                       | Some (inr s') => Some (Packed (ms_data s'))
                       end
           end
       end.

(** The loop over the sizes, MultiBuffer.cpp 123-128: [fileSize] is not initialised, so a short read is
    undefined behaviour ([None]). *)
Fixpoint skip_sizes (n : nat) (s : kstream) (offset : N) : option (N * kstream) :=
  match n with
  | O => Some (offset, s)
  | S m => match rd_int 8 s with
           | Some (inl z, s') => skip_sizes m s' (u64 (offset + z))
           | _ => None
           end
  end.
(** ExtractFile, MultiBuffer.cpp 106-153.  [Some None]: refused; [Some (Some b)]: the bytes handed to the file;
    [None]: reading uninitialised variables or outside the buffer. *)
Definition extract_file (buf : bytes) (index : N) : option (option bytes) :=
  match rd_int 4 (ks_new buf) with
  | Some (inl n, s) =>
      if n <=? index then Some None
      else match skip_sizes (N.to_nat index) s (4 + 8 * n) with
           | None => None
           | Some (offset, s') =>
               match rd_int 8 s' with
               | None => None
               | Some (v, _) =>
                   let size := match v with inl z => z | inr part => le_value part end in
                   if offset + size <=? blen buf
                   then Some (Some (firstn (N.to_nat size) (skipn (N.to_nat offset) buf)))
                   else if size =? 0 then Some (Some []) else None
               end
           end
  | _ => None
  end.

(** ** Compressor *)
(** A codec: LZ4 or Zstd, compression at a level and the "safe" decompressor which is told the sizes of both
    buffers and returns the bytes it produced, or [None] for an error.  Nothing is assumed about it here. *)
Record codec := mkCodec { enc : Z -> bytes -> bytes; dec : bytes -> N -> option bytes }.

Definition header_size : N := 12.
Definition eUncompressed : N := 0.
Definition eLZ4 : N := 1.
Definition eZstd : N := 2.
Definition header (typ usize csize : N) : bytes := le_bytes 4 typ ++ le_bytes 4 usize ++ le_bytes 4 csize.
Definition h_type (b : bytes) : N := le_value (firstn 4 b).
Definition h_usize (b : bytes) : N := le_value (firstn 4 (skipn 4 b)).
Definition h_csize (b : bytes) : N := le_value (firstn 4 (skipn 8 b)).

(** IsValidData, Compressor.cpp 41-65. *)
Definition is_valid (b : bytes) : bool :=
  if blen b <? header_size then false
  else if eZstd <? h_type b then false
  else if negb (h_csize b + header_size =? blen b) then false
  else negb (h_usize b <? h_csize b).

(** (int)dataSize *)
Definition as_int (n : N) : Z := let m := u32 n in if m <? 2147483648 then Z.of_N m else (Z.of_N m - 4294967296)%Z.

(** Compress, Compressor.cpp 83-142: LZ4. *)
Definition compress_lz4 (c : codec) (level : Z) (data : bytes) : bytes :=
  let out := if (level =? 0)%Z then data else enc c level data in
  let csize := if (level =? 0)%Z then as_int (blen data) else Z.of_N (blen out) in
  if (csize <? as_int (blen data))%Z
  then header eLZ4 (u32 (blen data)) (u32 (Z.to_N csize)) ++ out
  else header eUncompressed (u32 (blen data)) (u32 (blen data)) ++ data.
(** CompressZstd, Compressor.cpp 212-265. *)
Definition compress_zstd (c : codec) (level : Z) (data : bytes) : bytes :=
  let out := if (0 <? level)%Z then enc c level data else data in
  if blen out <? blen data
  then header eZstd (u32 (blen data)) (u32 (blen out)) ++ out
  else header eUncompressed (u32 (blen data)) (u32 (blen data)) ++ data.

(** Decompress, Compressor.cpp 146-208.  Outer [None]: reading outside the block; [Some None]: returns false. *)
Definition slice (b : bytes) (off n : N) : option bytes :=
  if off + n <=? blen b then Some (firstn (N.to_nat n) (skipn (N.to_nat off) b)) else None.
Definition decompress (lz4 zstd : codec) (b : bytes) : option (option bytes) :=
  if blen b <? header_size then None
  else if h_type b =? eUncompressed then
    match slice b header_size (h_usize b) with None => None | Some d => Some (Some d) end
  else match slice b header_size (h_csize b) with
       | None => None
       | Some cd =>
           match dec (if h_type b =? eLZ4 then lz4 else zstd) cd (h_usize b) with
           | Some d => Some (if blen d =? h_usize b then Some d else None)
           | None => Some None
           end
       end.
