(** Specification vocabulary: quoting, argument pieces and JSON strings. *)
From Coq Require Import List Arith Bool Ascii.
From Verif Require Import M_Path M_Args.
Import ListNotations.
Local Notation dquote := (ascii_of_nat 34).
Local Notation backslash := (ascii_of_nat 92).

(** *** Command line text: a quote mark, an escaped quote mark (backslash quote), or a plain character. *)
Inductive unit_ := QuoteMark | EscapedQuote | Plain (c : ascii).
Fixpoint lex (s : str) : list unit_ :=
  match s with
  | [] => []
  | c :: r =>
      if Ascii.eqb c dquote then QuoteMark :: lex r
      else match r with
           | d :: r' => if Ascii.eqb c backslash && Ascii.eqb d dquote then EscapedQuote :: lex r' else Plain c :: lex r
           | [] => [Plain c]
           end
  end.
Definition text1 (u : unit_) : str :=
  match u with QuoteMark => [dquote] | EscapedQuote => [backslash; dquote] | Plain c => [c] end.
Definition text (us : list unit_) : str := flat_map text1 us.
(** Cut at the separators that are outside quotes ([inq]: an odd number of quote marks came before). *)
Fixpoint fields (sep : ascii) (inq : bool) (us : list unit_) : list (list unit_) :=
  match us with
  | [] => [[]]
  | u :: r =>
      let inq' := match u with QuoteMark => negb inq | _ => inq end in
      match u with
      | Plain c => if Ascii.eqb c sep && negb inq then [] :: fields sep inq' r
                   else match fields sep inq' r with h :: t => (u :: h) :: t | [] => [[u]] end
      | _ => match fields sep inq' r with h :: t => (u :: h) :: t | [] => [[u]] end
      end
  end.
Definition nonempty {A} (l : list A) : bool := match l with [] => false | _ => true end.

(** Quoting an argument: quote marks inside are escaped. *)
Definition quote_arg (a : str) : str :=
  dquote :: flat_map (fun c => if Ascii.eqb c dquote then [backslash; dquote] else [c]) a ++ [dquote].
Fixpoint join (sep : str) (l : list str) : str :=
  match l with [] => [] | [a] => a | a :: r => a ++ sep ++ join sep r end.

(** *** JSON strings (RFC 8259), for text whose characters are bytes below 128. *)
Definition hex_val (c : ascii) : option nat :=
  let n := nat_of_ascii c in
  if (48 <=? n) && (n <=? 57) then Some (n - 48)
  else if (65 <=? n) && (n <=? 70) then Some (n - 55)
  else if (97 <=? n) && (n <=? 102) then Some (n - 87) else None.
Fixpoint hex_num (l : str) (acc : nat) : option nat :=
  match l with
  | [] => Some acc
  | c :: r => match hex_val c with Some v => hex_num r (acc * 16 + v) | None => None end
  end.
(** Decode the text between the quotes of a JSON string; [None]: not a valid JSON string (or a code point
    from 128, which is not a single byte). *)
Fixpoint json_decode (s : str) : option str :=
  match s with
  | [] => Some []
  | c :: r =>
      if nat_of_ascii c <? 32 then None
      else if Ascii.eqb c dquote then None
      else if Ascii.eqb c backslash then
        match r with
        | e :: r' =>
            let emit n rest := option_map (cons (ascii_of_nat n)) rest in
            match nat_of_ascii e with
            | 34 | 47 | 92 => option_map (cons e) (json_decode r')
            | 98 => emit 8 (json_decode r') | 102 => emit 12 (json_decode r')
            | 110 => emit 10 (json_decode r') | 114 => emit 13 (json_decode r') | 116 => emit 9 (json_decode r')
            | 117 => match r' with
                     | h1 :: h2 :: h3 :: h4 :: r'' =>
                         match hex_num [h1; h2; h3; h4] 0 with
                         | Some n => if n <? 128 then emit n (json_decode r'') else None
                         | None => None
                         end
                     | _ => None
                     end
            | _ => None
            end
        | [] => None
        end
      else option_map (cons c) (json_decode r)
  end.

(** An argument that does not end in a backslash. *)
Definition no_trailing_bslash (a : str) : Prop := forall a', a <> a' ++ [bslash].

(** The pieces that a sequence of builder calls puts between delimiters. *)
Fixpoint pieces (ops : list arg_op) (done : list str) (cur : str) : list str :=
  match ops with
  | [] => done ++ [cur]
  | Append s :: r => pieces r done (cur ++ s)
  | AddDelimiter :: r => pieces r (done ++ [cur]) []
  | ClearArgs :: r => pieces r [] []
  end.

(** Every slash or backslash replaced by two backslashes. *)
Fixpoint slashes_doubled (s : str) : str :=
  match s with [] => [] | c :: r => (if Ascii.eqb c bslash || Ascii.eqb c "/"%char then [bslash; bslash] else [c]) ++ slashes_doubled r end.
