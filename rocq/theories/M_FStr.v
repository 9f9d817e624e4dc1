(** Files are read and written, and TextFile: Code/Core/FileIO/FileStream.cpp, ReadBuffer 212-250, WriteBuffer 254-292,
    ReadIntoString 405-411, WriteFromString 414-417, on Linux and macOS, and
    Code/Tools/FBuild/FBuildCore/Graph/TextFileNode.cpp, DoBuild 70-107.  The file is at its end when it is written and at its
    start when it is read, and nobody else writes it.  The result of close is not looked at, in the code and here. *)
From Coq Require Import List Arith Bool Ascii.
Import ListNotations.

Definition bytes := list ascii.

(** What one call of write does: it fails, or takes [k] bytes, or all if fewer were given. *)
Inductive answer := Error | Takes (k : nat).
(** WriteBuffer has returned, or has not after the answers given. *)
Inductive written := Returned (count : nat) (file : bytes) | Running (file : bytes).
(** WriteBuffer, 259-291: [chunk] is FILESTREAM_READWRITE_SIZE (29-31), [rest] what is to be written from totalBytesWritten on. *)
Fixpoint write_loop (chunk : nat) (answers : list answer) (file rest : bytes) (total : nat) : written :=
  match answers with
  | [] => Running file
  | Error :: _ => Returned total file
  | Takes k :: more =>
      let now := Nat.min k (if chunk <? length rest then chunk else length rest) in
      let file' := file ++ firstn now rest in
      match skipn now rest with
      | [] => Returned (total + now) file'
      | rest' => write_loop chunk more file' rest' (total + now)
      end
  end.
Definition write (chunk : nat) (answers : list answer) (file buffer : bytes) : written := write_loop chunk answers file buffer 0.

(** What one call of read does: it fails, or gives up to [k + 1] bytes; it gives none at the end of the file only. *)
Inductive reply := Fails | Gives (k : nat).
Inductive got := Got (buffer : bytes) | Reading (buffer : bytes).
(** ReadBuffer, 217-249: [left] is what the file holds from here on, [want] the bytes that are missing. *)
Fixpoint read_loop (chunk : nat) (replies : list reply) (left : bytes) (want : nat) (buffer : bytes) : got :=
  match replies with
  | [] => Reading buffer
  | Fails :: _ => Got buffer
  | Gives k :: more =>
      let ask := if chunk <? want then chunk else want in
      match firstn (Nat.min (S k) ask) left with
      | [] => Got buffer
      | part => let want' := want - length part in
          if want' =? 0 then Got (buffer ++ part) else read_loop chunk more (skipn (length part) left) want' (buffer ++ part)
      end
  end.
Definition read (chunk : nat) (replies : list reply) (content : bytes) (want : nat) : got := read_loop chunk replies content want [].
(** ReadIntoString, 405-411: the result, and the bytes that were read into the string. *)
Definition read_all (chunk : nat) (replies : list reply) (content : bytes) : option (bool * bytes) :=
  match read chunk replies content (length content) with Got b => Some (length b =? length content, b) | Reading _ => None end.

(** TextFileNode::DoBuild, 74-87: the text. *)
Definition newline (windows : bool) : bytes := if windows then [ascii_of_nat 13; ascii_of_nat 10] else [ascii_of_nat 10].
Fixpoint text (windows : bool) (lines : list bytes) : bytes := match lines with [] => [] | s :: r => s ++ newline windows ++ text windows r end.
(** 89-106: [opened] is whether the file was opened, which empties it (FileStream.cpp 145); the result, and what the file holds. *)
Definition build (windows : bool) (chunk : nat) (opened : bool) (answers : list answer) (old : bytes) (lines : list bytes) : option (bool * bytes) :=
  if opened then
    let t := text windows lines in
    match write chunk answers [] t with
    | Returned n file => Some (n =? length t, file)
    | Running _ => None
    end
  else Some (false, old).
