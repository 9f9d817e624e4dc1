From Coq Require Import List Arith Bool Ascii String NArith Lia.
From Verif Require Import M_Path M_Args S_Args P_Args.
Import ListNotations.

(** *** C30: command line tokenising *)
(** The tokens are exactly the non-empty fields obtained by cutting the text at the separators that are outside
    quotes (an escaped quote mark is not a quote mark). *)
Theorem C30_tokens_are_fields : forall sep s, sep <> quote -> sep <> bslash ->
  tokenize sep s = filter nonempty (map text (fields sep false (lex s))).
Proof. intros. now apply tokenize_spec. Qed.
Print Assumptions C30_tokens_are_fields.

(** Cutting loses nothing but separators: putting the separators back gives the original text. *)
Theorem C30_nothing_lost : forall sep s, join [sep] (map text (fields sep false (lex s))) = s.
Proof.
  intros sep s. transitivity (text (lex s)); [|now apply (text_lex (List.length s))].
  generalize false. induction (lex s) as [|u us IH]; intros q; [reflexivity|].
  cbn [fields]. pose proof (fields_ne sep (match u with QuoteMark => negb q | _ => q end) us) as NE.
  specialize (IH (match u with QuoteMark => negb q | _ => q end)).
  assert (G : forall h t, join [sep] (map text ((u :: h) :: t)) = text1 u ++ join [sep] (map text (h :: t))).
  { intros h t. destruct t as [|x t]; [reflexivity|]. cbn [map join]. change (text (u :: h)) with (text1 u ++ text h). now rewrite <- app_assoc. }
  change (text (u :: us)) with (text1 u ++ text us).
  destruct u as [| |c].
  - destruct (fields sep _ us); [congruence|]. etransitivity; [apply G|]. now rewrite IH.
  - destruct (fields sep _ us); [congruence|]. etransitivity; [apply G|]. now rewrite IH.
  - destruct (Ascii.eqb_spec c sep) as [->|N]; cbn [andb].
    + destruct (negb q).
      * destruct (fields sep q us) as [|h t] eqn:E; [congruence|]. cbn [text1]. rewrite <- IH. reflexivity.
      * destruct (fields sep _ us); [congruence|]. etransitivity; [apply G|]. now rewrite IH.
    + destruct (fields sep _ us); [congruence|]. etransitivity; [apply G|]. now rewrite IH.
Qed.
Print Assumptions C30_nothing_lost.

(** Quoting each argument, joining with the separator, splitting again and removing the quotes gives back the
    arguments, unless an argument ends with a backslash. *)
Theorem C30_quote_round_trip : forall sep args, sep <> quote -> sep <> bslash ->
  Forall no_trailing_bslash args ->
  map remove_quotes (tokenize sep (join [sep] (map quote_arg args))) = args.
Proof. intros. now apply round_trip. Qed.
Print Assumptions C30_quote_round_trip.

(** The restriction is needed: a trailing backslash swallows the closing quote mark. *)
Theorem C30_trailing_backslash_refuted : exists sep args, sep <> quote /\ sep <> bslash /\
  map remove_quotes (tokenize sep (join [sep] (map quote_arg args))) <> args.
Proof. exists space, [L "C:\Program Files\"; L "x"]. split; [discriminate|split; [discriminate|]]. vm_compute. discriminate. Qed.
Print Assumptions C30_trailing_backslash_refuted.

Lemma skip_skip {A} : forall m n (l : list A), skipn n (skipn m l) = skipn (m + n) l.
Proof. induction m; intros n l; [reflexivity|]. destruct l; [destruct n; reflexivity|apply IHm]. Qed.

(** Stripping the quotes around a piece of text: one matching pair goes away, text without quotes at its ends is
    unchanged, and nothing inside ever changes. *)
Theorem C30_strip_quotes : forall q s, is_q q = true ->
  strip_quotes (q :: s ++ [q]) = s /\
  (is_q (hd space s) = false -> is_q (last s space) = false -> strip_quotes s = s) /\
  exists a b, s = a ++ strip_quotes s ++ b /\ List.length a <= 1 /\ List.length b <= 1.
Proof.
  intros q s Q. split; [|split].
  - unfold strip_quotes. rewrite Q. change (q :: s ++ [q]) with ((q :: s) ++ [q]). rewrite rev_app_distr. cbn [rev app]. rewrite Q.
    cbn [List.length]. rewrite app_length. cbn [List.length].
    replace (S (List.length s + 1) - 1 <? 1) with false by (symmetry; apply Nat.ltb_ge; lia).
    cbn [skipn]. replace (S (List.length s + 1) - 1 - 1) with (List.length s) by lia.
    rewrite firstn_app, Nat.sub_diag, firstn_all. cbn [firstn]. apply app_nil_r.
  - intros H1 H2. destruct s as [|c r]; [reflexivity|]. unfold strip_quotes. cbn [hd] in H1. rewrite H1.
    destruct (rev (c :: r)) as [|l t] eqn:E; [apply (f_equal (@List.length ascii)) in E; rewrite rev_length in E; discriminate|].
    assert (E' : c :: r = rev t ++ [l]) by (rewrite <- (rev_involutive (c :: r)), E; reflexivity).
    rewrite E', last_last in H2. rewrite H2. cbn [Nat.ltb Nat.leb]. rewrite Nat.sub_0_r. cbn [skipn]. apply firstn_all.
  - destruct s as [|c r]; [exists [], []; auto|].
    unfold strip_quotes.
    destruct (rev (c :: r)) as [|l t] eqn:E; [apply (f_equal (@List.length ascii)) in E; rewrite rev_length in E; discriminate|].
    assert (E' : c :: r = rev t ++ [l]) by (rewrite <- (rev_involutive (c :: r)), E; reflexivity).
    set (st := if is_q c then 1 else 0). set (sp := if is_q l then _ else _).
    assert (B : List.length (c :: r) - 1 <= sp <= List.length (c :: r)) by (unfold sp; destruct (is_q l); cbn [List.length]; lia).
    assert (B' : st <= 1) by (unfold st; destruct (is_q c); lia).
    destruct (Nat.ltb_spec sp st) as [H|H].
    + assert (r = []) as -> by (destruct r; [auto|cbn [List.length] in B; lia]). exists [c], []. auto.
    + exists (firstn st (c :: r)), (skipn sp (c :: r)). split; [|split].
      * replace (skipn sp (c :: r)) with (skipn (sp - st) (skipn st (c :: r))) by (rewrite skip_skip; f_equal; lia).
        rewrite firstn_skipn. symmetry. apply firstn_skipn.
      * rewrite firstn_length. lia.
      * rewrite skipn_length. lia.
Qed.
Print Assumptions C30_strip_quotes.

Example C30_case :
  tokenize space (L "  one ""two words"" say\""hi  last ") = [L "one"; L """two words"""; L "say\""hi"; L "last"]
  /\ (let args := [L "a b"; L "say ""hi"""; []] in Forall no_trailing_bslash args /\
      join [space] (map quote_arg args) = L """a b"" ""say \""hi\"""" """"" /\
      map remove_quotes (tokenize space (join [space] (map quote_arg args))) = args).
Proof.
  split; [reflexivity|]. split; [|split; reflexivity].
  assert (G : forall a : str, last a space <> bslash -> no_trailing_bslash a) by (intros a H a' ->; rewrite last_last in H; congruence).
  repeat constructor; apply G; discriminate.
Qed.

(** *** C31: response files *)
(** Whatever pieces were appended and wherever delimiters were added, finalising gives exactly one of: the
    arguments separated by spaces, passed directly, and then the whole command line is below the limit; a
    response file whose contents are those pieces joined with spaces or with line breaks (slashes doubled when
    that is asked for); an error because a response file is needed but not allowed; an error because the file
    cannot be written.  The response file's buffer is never overrun. *)
Theorem C31_finalize_exact : forall ops exe_len limit md (windows escape write_ok : bool) args delims,
  run_args ops [] [] = (args, delims) ->
  let ps := pieces ops [] [] in
  (N.of_nat (List.length (join [space] ps)) + exe_len + 3 < 4294967296)%N ->
  let too_long := (limit <= N.of_nat (List.length (join [space] ps)) + exe_len + 3)%N in
  let shape (s : str) : str := if escape then slashes_doubled s else s in
  match finalize exe_len limit md windows escape write_ok args delims with
  | None => False
  | Some (Direct a) => ~ too_long /\ md <> Always /\ a = join [space] ps
  | Some (ViaFile c) => (too_long \/ md = Always) /\ md <> Never /\ write_ok = true /\
                        (c = shape (join [space] ps) \/ (windows = true /\ c = shape (join [newline] ps)))
  | Some ErrorTooLong => too_long /\ md = Never
  | Some ErrorWrite => (too_long \/ md = Always) /\ md <> Never /\ write_ok = false
  end.
Proof.
  intros ops exe_len limit md windows escape write_ok args delims R ps SMALL too_long shape.
  pose proof (run_args_holds ops [] [] [] [] ltac:(split; [reflexivity|split; [reflexivity|constructor]])) as H. rewrite R in H.
  fold ps in H. destruct H as (H1&H2&H3). subst too_long. rewrite <- H1 in *. unfold finalize.
  rewrite N.mod_small by assumption. rewrite !create_ok.
  set (tot := (N.of_nat (List.length args) + exe_len + 3)%N) in *. clearbody tot.
  set (c := if windows && _ then _ else _).
  assert (HC : (if escape then slashes_doubled c else c) = shape args \/ (windows = true /\ (if escape then slashes_doubled c else c) = shape (join [newline] ps))).
  { subst c shape. destruct windows; cbn [andb]; [|auto]. destruct (131071 <=? _)%N; [|auto]. right. split; [reflexivity|]. rewrite fold_put, H2. reflexivity. }
  clearbody c.
  destruct (N.leb_spec limit tot) as [Q|Q]; destruct md; destruct write_ok; repeat split; auto; try discriminate; try lia.
Qed.
Print Assumptions C31_finalize_exact.

(** Only delimiter positions ever change: pieces joined with spaces and with line breaks have the same length and
    agree everywhere except at the joins. *)
Theorem C31_same_length : forall ps, List.length (join [newline] ps) = List.length (join [space] ps).
Proof. intros. apply join_len. Qed.
Print Assumptions C31_same_length.

(** When the pieces contain no line break, the two forms carry the same list of pieces. *)
Fixpoint split_nl (s : str) : list str :=
  match s with [] => [[]] | c :: r => if Ascii.eqb c newline then [] :: split_nl r else match split_nl r with h :: t => (c :: h) :: t | [] => [[c]] end end.
Theorem C31_pieces_recoverable : forall ps, ps <> [] -> Forall (fun p => ~ In newline p) ps -> split_nl (join [newline] ps) = ps.
Proof.
  assert (A : forall p, ~ In newline p -> split_nl p = [p]).
  { induction p as [|c p IH]; intros N; [reflexivity|]. cbn [split_nl]. destruct (Ascii.eqb_spec c newline) as [->|]; [exfalso; apply N; left; auto|].
    rewrite IH; [reflexivity|]. intros I. apply N. right. exact I. }
  assert (B : forall p s, ~ In newline p -> split_nl (p ++ newline :: s) = p :: split_nl s).
  { induction p as [|c p IH]; intros s N; [reflexivity|]. cbn [app split_nl]. destruct (Ascii.eqb_spec c newline) as [->|]; [exfalso; apply N; left; auto|].
    rewrite IH; [reflexivity|]. intros I. apply N. right. exact I. }
  induction ps as [|p ps IH]; intros H F; [congruence|]. inversion F as [|? ? F1 F2]; subst.
  destruct ps as [|q ps]; [apply A; auto|].
  change (join [newline] (p :: q :: ps)) with (p ++ newline :: join [newline] (q :: ps)).
  rewrite B by auto. f_equal. apply IH; [discriminate|auto].
Qed.
Print Assumptions C31_pieces_recoverable.

Example C31_case :
  let ops := [Append (L "-c"); AddDelimiter; Append (L "a/"); Append (L "b.cpp"); AddDelimiter; Append (L "-o x")] in
  pieces ops [] [] = [L "-c"; L "a/b.cpp"; L "-o x"] /\
  (let '(args, delims) := run_args ops [] [] in
   finalize 8 100 IfNeeded true false true args delims = Some (Direct (L "-c a/b.cpp -o x")) /\
   finalize 8 26 IfNeeded true false true args delims = Some (ViaFile (L "-c a/b.cpp -o x")) /\
   finalize 8 26 Never true false true args delims = Some ErrorTooLong /\
   finalize 8 100 Always true true true args delims = Some (ViaFile (L "-c a\\b.cpp -o x"))).
Proof. repeat split. Qed.

(** *** C32: JSON escaping *)
Theorem C32_round_trip_partial : forall s, Forall (fun c => nat_of_ascii c < 128) s -> json_decode (json_escape s) = Some s.
Proof. exact json_round. Qed.
Print Assumptions C32_round_trip_partial.

(** For every text at all, the output has no control character and is plain ASCII. *)
Theorem C32_no_raw_control : forall s, Forall (fun c => 32 <= nat_of_ascii c < 128) (json_escape s).
Proof.
  intros s. unfold json_escape. induction s as [|c s IH]; [constructor|]. cbn [flat_map]. apply Forall_app. split; [|exact IH].
  assert (D : forall l, forallb (fun c => (32 <=? nat_of_ascii c) && (nat_of_ascii c <? 128)) l = true -> Forall (fun c => 32 <= nat_of_ascii c < 128) l).
  { intros l H. apply Forall_forall. intros x I. rewrite forallb_forall in H. specialize (H x I). apply andb_true_iff in H. destruct H as [H1 H2]. apply Nat.leb_le in H1. apply Nat.ltb_lt in H2. lia. }
  apply D. clear. destruct c as [[] [] [] [] [] [] [] []]; reflexivity.
Qed.
Print Assumptions C32_no_raw_control.

(** No unescaped quote mark, for every text at all: the closing quote written after the text is the first one a
    JSON reader sees.  [scan_string] skips a backslash together with the character after it. *)
Fixpoint scan_string (s : str) : option str :=
  match s with
  | [] => None
  | c :: r => if Ascii.eqb c quote then Some r
              else if Ascii.eqb c bslash then match r with _ :: r' => scan_string r' | [] => None end
              else scan_string r
  end.
Theorem C32_no_unescaped_quote : forall s rest, scan_string (json_escape s ++ quote :: rest) = Some rest.
Proof.
  intros s rest. unfold json_escape. induction s as [|c s IH]; [reflexivity|]. cbn [flat_map]. rewrite <- app_assoc.
  assert (E : forall t, scan_string (esc1 c ++ t) = scan_string t) by (intros t; destruct c as [[] [] [] [] [] [] [] []]; reflexivity).
  rewrite E. exact IH.
Qed.
Print Assumptions C32_no_unescaped_quote.

(** The round trip fails for text with a byte from 128 up, such as UTF-8 encoded accented letters: the byte is
    printed as the sign-extended number FFFFFFC3. *)
Theorem C32_high_bytes_refuted : exists s, json_escape s = L "\uFFFFFFC3" /\ json_decode (json_escape s) <> Some s.
Proof. exists [ascii_of_nat 195]. split; [reflexivity|]. vm_compute. discriminate. Qed.
Print Assumptions C32_high_bytes_refuted.

Example C32_case : json_escape (L "a""b\c" ++ [newline; ascii_of_nat 1]) = L "a\""b\\c\n\u0001"
  /\ Forall (fun c => nat_of_ascii c < 128) (L "a""b\c" ++ [newline; ascii_of_nat 1]).
Proof.
  split; [reflexivity|]. apply Forall_forall. intros x H.
  assert (D : forallb (fun c => nat_of_ascii c <? 128) (L "a""b\c" ++ [newline; ascii_of_nat 1]) = true) by reflexivity.
  rewrite forallb_forall in D. now apply Nat.ltb_lt, D.
Qed.
