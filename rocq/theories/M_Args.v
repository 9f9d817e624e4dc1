(** Model of command line handling and JSON escaping.  Sources: Core/Strings/AString.cpp Tokenize 306-401,
    RemoveQuotes 405-465; Helpers/Args.cpp 40-182 and StripQuotes 186-221; Helpers/ResponseFile.cpp 42-78;
    Helpers/JSON.cpp 12-68. *)
From Coq Require Import List Arith Bool Ascii NArith.
From Verif Require Import M_Path.
Import ListNotations.

Definition quote : ascii := ascii_of_nat 34.
Definition bslash : ascii := ascii_of_nat 92.
Definition space : ascii := " "%char.
Definition newline : ascii := ascii_of_nat 10.

(** AString::Tokenize, AString.cpp 306-381 and 385-401.  [cur]: the current token (last character first),
    [None] when between tokens; [q]: quoteChar != 0.  Token ranges are represented by their text. *)
Fixpoint tok (split : ascii) (cur : option str) (q : bool) (s : str) {struct s} : list str :=
  match s with
  | [] => match cur with Some a => [rev a] | None => [] end
  | c :: r =>
      match cur with
      | None =>
          if Ascii.eqb c split then tok split None q r
          else if Ascii.eqb c quote then tok split (Some [c]) (negb q) r
          else if Ascii.eqb c bslash then
            match r with
            | n :: r' => if Ascii.eqb n quote then tok split (Some [n; c]) q r' else tok split (Some [c]) q r
            | [] => tok split (Some [c]) q r
            end
          else tok split (Some [c]) q r
      | Some a =>
          if Ascii.eqb c quote then tok split (Some (c :: a)) (negb q) r
          else if Ascii.eqb c bslash then
            match r with
            | n :: r' => if Ascii.eqb n quote then tok split (Some (n :: c :: a)) q r' else tok split (Some (c :: a)) q r
            | [] => tok split (Some (c :: a)) q r
            end
          else if Ascii.eqb c split && negb q then rev a :: tok split None q r
          else tok split (Some (c :: a)) q r
      end
  end.
Definition tokenize (split : ascii) (s : str) : list str := tok split None false s.

(** AString::RemoveQuotes, AString.cpp 415-465. *)
Fixpoint remove_quotes (s : str) : str :=
  match s with
  | [] => []
  | c :: r =>
      if Ascii.eqb c quote then remove_quotes r
      else if Ascii.eqb c bslash then
        match r with
        | n :: r' => if Ascii.eqb n quote then n :: remove_quotes r' else c :: remove_quotes r
        | [] => c :: remove_quotes r
        end
      else c :: remove_quotes r
  end.

(** Args::StripQuotes, Args.cpp 186-221.  [end < start] happens for a lone quote. *)
Definition is_q (c : ascii) : bool := Ascii.eqb c quote || Ascii.eqb c "'"%char.
Definition strip_quotes (s : str) : str :=
  match s with
  | [] => []
  | c :: r =>
      let start := if is_q c then 1 else 0 in
      let stop := match rev s with l :: _ => if is_q l then List.length s - 1 else List.length s | [] => 0 end in
      if stop <? start then [] else firstn (stop - start) (skipn start s)
  end.

(** ** Args *)
Inductive arg_op := Append (s : str) | AddDelimiter | ClearArgs.
(** m_Args and m_DelimiterIndices; Args.cpp: operator += 40-60, Append 64-68, AddDelimiter 72-80, Clear 84-89. *)
Fixpoint run_args (ops : list arg_op) (args : str) (delims : list nat) : str * list nat :=
  match ops with
  | [] => (args, delims)
  | Append s :: r => run_args r (args ++ s) delims
  | AddDelimiter :: r => run_args r (args ++ [space]) (delims ++ [List.length args])
  | ClearArgs :: r => run_args r [] []
  end.

Inductive mode := Never | IfNeeded | Always.
Inductive outcome :=
| Direct (args : str)              (* run with these arguments *)
| ViaFile (contents : str)         (* run with "@file" where the file has these contents *)
| ErrorTooLong | ErrorWrite.

(** m_Args[ i ] = '\n', Args.cpp 159. *)
Fixpoint put (s : str) (i : nat) (c : ascii) : str :=
  match s, i with [], _ => [] | _ :: r, O => c :: r | x :: r, S j => x :: put r j c end.

(** ResponseFile::Create with m_EscapeSlashes, ResponseFile.cpp 45-73.  The output buffer has room for 1024
    characters, or for twice the input when the input is longer than 512; a write past it gives [None]. *)
Fixpoint escape_slashes (cap : N) (s : str) (n : N) : option str :=
  match s with
  | [] => Some []
  | c :: r =>
      if Ascii.eqb c bslash || Ascii.eqb c "/"%char then
        if (n + 1 <? cap)%N then option_map (fun t => bslash :: bslash :: t) (escape_slashes cap r (n + 2)%N) else None
      else if (n <? cap)%N then option_map (cons c) (escape_slashes cap r (n + 1)%N) else None
  end.
Definition create_response (escape : bool) (contents : str) : option str :=
  if escape then
    let len := N.of_nat (List.length contents) in
    escape_slashes (if (512 <? len)%N then len * 2 else 1024)%N contents 0
  else Some contents.

(** Args::Finalize, Args.cpp 93-182.  [limit]: argLimit; [windows]: the per-line fix-up applies;
    [write_ok]: whether the file can be written. *)
Definition finalize (exe_len limit : N) (md : mode) (windows escape write_ok : bool) (args : str) (delims : list nat) : option outcome :=
  let arg_len := N.of_nat (List.length args) in
  let total := ((arg_len + exe_len + 3) mod 4294967296)%N in
  let need := (limit <=? total)%N in
  let make_file :=
    let args' := if windows && (131071 <=? arg_len)%N then fold_left (fun s i => put s i newline) delims args else args in
    match create_response escape args' with
    | None => None
    | Some c => if write_ok then Some (ViaFile c) else Some ErrorWrite
    end in
  match need, md with
  | true, Never => Some ErrorTooLong
  | true, _ => make_file
  | false, Always => make_file
  | false, _ => Some (Direct args)
  end.

(** ** JSON::AppendEscaped, JSON.cpp 12-68 *)
Definition hex_digit (n : nat) : ascii := ascii_of_nat (if n <? 10 then 48 + n else 55 + n).
Definition hex2 (n : nat) : str := [hex_digit (n / 16); hex_digit (n mod 16)].
(** One character; [char] is signed, so bytes from 128 are negative: they pass [c <= 0x1F] and are printed by
    "%04X" as a sign-extended 32-bit number. *)
Definition esc1 (c : ascii) : str :=
  let n := nat_of_ascii c in
  if (n <=? 31) || (128 <=? n) then
    if n =? 8 then [bslash; "b"%char] else if n =? 9 then [bslash; "t"%char]
    else if n =? 10 then [bslash; "n"%char] else if n =? 12 then [bslash; "f"%char]
    else if n =? 13 then [bslash; "r"%char]
    else if 128 <=? n then [bslash; "u"%char] ++ repeat "F"%char 6 ++ hex2 n
    else [bslash; "u"%char; "0"%char; "0"%char] ++ hex2 n
  else if Ascii.eqb c quote then [bslash; quote]
  else if Ascii.eqb c bslash then [bslash; bslash]
  else [c].
Definition json_escape (s : str) : str := flat_map esc1 s.
