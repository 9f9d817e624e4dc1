(** What a BFF file with directives means: a tree of text, commands and conditional parts, and the tokens it stands for. *)
From Coq Require Import String List Arith NArith ZArith Bool Ascii.
From Verif Require Import M_Path M_Cond.
From Verif Require M_Tok.
From Verif Require Import S_Tok.
Import ListNotations.
Import M_Tok(token, TBool, TKw, TFun, TId, TVar, TStr, TOp, TNum, TComma, TBrace, LF, CR, TAB, SQ, DQ,
             world, env, content, present, clean, h32, predef, state, macros, imported, checked, files).
Open Scope char_scope.
Open Scope nat_scope.

(** * Conditions: some of several groups holds; a group holds when all its members hold. *)
Inductive atom := Macro (m : str) | Variable_set (v : str) | File_there (p : str).
Definition literal : Type := bool * atom.            (* true: with '!' in front *)
Definition cond : Type := list (list literal).
Definition atom_tokens (a : atom) : list token :=
  match a with
  | Macro m => [TId m]
  | Variable_set v => [TKw (L "exists"); TBrace "("; TId v; TBrace ")"]
  | File_there p => [TKw (L "file_exists"); TBrace "("; TStr p; TBrace ")"]
  end.
Definition literal_tokens (l : literal) : list token := (if fst l then [TOp ONot] else []) ++ atom_tokens (snd l).
Definition joined (o : oper) (l : list (list token)) : list token :=
  match l with [] => [] | x :: r => x ++ flat_map (fun y => TOp o :: y) r end.
Definition cond_tokens (c : cond) : list token := joined OOr (map (fun g => joined OAnd (map literal_tokens g)) c).
(** At least one member everywhere, and no more than 255 in all. *)
Definition cond_ok (c : cond) : Prop := c <> [] /\ Forall (fun g => g <> []) c /\ List.length (concat c) <= 255.

(** A file named in a file: a name that does not start with '/' is taken from the directory of that file. *)
Fixpoint directory (f : str) : str :=
  match f with [] => [] | c :: r => if in_dec ascii_dec "/" f then c :: directory r else [] end.
Definition beside (file p : str) : str := if ascii_dec (hd " " p) "/" then p else directory file ++ p.

Definition atom_true (w : world) (file : str) (st : state) (a : atom) : Prop :=
  match a with
  | Macro m => In m (macros st) \/ In m (predef w)
  | Variable_set v => env w v <> None
  | File_there p => present w (beside file p) = true
  end.
Definition literal_true w file st (l : literal) : Prop := if fst l then ~ atom_true w file st (snd l) else atom_true w file st (snd l).
Definition cond_true w file st (c : cond) : Prop := Exists (Forall (literal_true w file st)) c.

(** Each answer from outside is recorded, the first time it is used. *)
Definition record {A} (k : str) (x : A) (l : list (str * A)) : list (str * A) :=
  if in_dec (list_eq_dec ascii_dec) k (map fst l) then l else l ++ [(k, x)].
Definition hash_of (w : world) (x : option str) : N := match x with Some s => h32 w s | None => 0%N end.
Definition with_macros l st : state := M_Tok.Build_state l (imported st) (checked st) (files st).
Definition with_imported l st : state := M_Tok.Build_state (macros st) l (checked st) (files st).
Definition with_checked l st : state := M_Tok.Build_state (macros st) (imported st) l (files st).
Definition with_files l st : state := M_Tok.Build_state (macros st) (imported st) (checked st) l.
Definition note_atom (w : world) (file : str) (st : state) (a : atom) : state :=
  match a with
  | Macro _ => st
  | Variable_set v => with_imported (record v (hash_of w (env w v)) (imported st)) st
  | File_there p => with_checked (record (beside file p) (present w (beside file p)) (checked st)) st
  end.
Definition note_cond w file (st : state) (c : cond) : state := fold_left (note_atom w file) (map snd (concat c)) st.

(** * Documents *)
Definition blank_text (s : str) : Prop := Forall (fun c => c = " " \/ c = TAB) s.
(** A line "  # name rest". *)
Record head := { indent : str; gap : str; rest : str }.
Inductive doc :=
| Nil
| Text (s : str) (k : doc)
| Command (h : head) (name : str) (k : doc)
| If (h : head) (c : cond) (b : doc) (t : tail) (k : doc)
with tail :=
| Endif (h : head)
| Else (h : head) (b : doc) (h2 : head)
| Elif (h : head) (c : cond) (b : doc) (t : tail).
Definition line_of (h : head) (name : str) : str := indent h ++ "#" :: gap h ++ name ++ rest h ++ [LF].
Fixpoint text (d : doc) : str :=
  match d with
  | Nil => []
  | Text s k => s ++ text k
  | Command h n k => line_of h n ++ text k
  | If h _ b t k => line_of h (L "if") ++ text b ++ tail_text t ++ text k
  end
with tail_text (t : tail) : str :=
  match t with
  | Endif h => line_of h (L "endif")
  | Else h b h2 => line_of h (L "else") ++ text b ++ line_of h2 (L "endif")
  | Elif h _ b t => line_of h (L "elif") ++ text b ++ tail_text t
  end.

(** No line of the text starts with '#', and the last line is complete. *)
Definition at_line_start (a : str) : Prop := a = [] \/ exists a', a = a' ++ [LF].
Definition plain_text (s : str) : Prop := at_line_start s /\ forall a b r, s = a ++ b ++ "#" :: r -> at_line_start a -> ~ blank_text b.
Definition head_ok (h : head) : Prop := blank_text (indent h) /\ blank_text (gap h) /\ not_next name_char (rest h) /\ ~ In LF (rest h).
Definition command_name (n : str) : Prop :=
  n <> [] /\ Forall (from_to "a" "z") n /\ ~ In n [L "if"; L "elif"; L "else"; L "endif"].
Fixpoint shaped (d : doc) : Prop :=
  match d with
  | Nil => True
  | Text s k => plain_text s /\ shaped k
  | Command h n k => head_ok h /\ command_name n /\ shaped k
  | If h _ b t k => head_ok h /\ shaped b /\ tail_shaped t /\ shaped k
  end
with tail_shaped (t : tail) : Prop :=
  match t with
  | Endif h => head_ok h
  | Else h b h2 => head_ok h /\ plain_text (rest h ++ [LF]) /\ shaped b /\ head_ok h2
  | Elif h _ b t => head_ok h /\ shaped b /\ tail_shaped t
  end.

(** * Meaning *)
Definition says (h : head) (name : str) (args : list token) : Prop := means (name ++ rest h ++ [LF]) (TKw name :: args) [].
Definition asks (h : head) (c : cond) : Prop := means (rest h ++ [LF]) (cond_tokens c) [] /\ cond_ok c.
Fixpoint tail_asks (t : tail) : Prop := match t with Elif h c _ t => asks h c /\ tail_asks t | _ => True end.
(** The part that is taken after a condition that does not hold.  Conditions after one that holds are not looked at. *)
Inductive picks (w : world) (file : str) : state -> tail -> option doc -> state -> Prop :=
| p_endif st h : picks w file st (Endif h) None st
| p_else st h b h2 : picks w file st (Else h b h2) (Some (Text (rest h ++ [LF]) b)) st
| p_elif_yes st h c b t : asks h c -> cond_true w file st c -> tail_asks t -> picks w file st (Elif h c b t) (Some b) (note_cond w file st c)
| p_elif_no st h c b t o st' : asks h c -> ~ cond_true w file st c -> picks w file (note_cond w file st c) t o st' -> picks w file st (Elif h c b t) o st'.

(** The value of an imported variable, written so that it is taken literally in a string. *)
Definition literally (v : str) : str := flat_map (fun c => if ascii_dec c "^" then ["^"; "^"] else if ascii_dec c "$" then ["^"; "$"] else [c]) v.
Definition once_known (st : state) (f : str) : Prop := exists a b, files st = a ++ (f, true) :: b /\ ~ In f (map fst a).

Inductive runs (w : world) : nat -> str -> state -> doc -> list token -> state -> Prop :=
| u_nil d f st : runs w d f st Nil [] st
| u_text d f st s k ts1 ts2 st' : means s ts1 [] -> runs w d f st k ts2 st' -> runs w d f st (Text s k) (ts1 ++ ts2) st'
| u_define d f st h m k ts st' : says h (L "define") [TId m] -> ~ In m (macros st) -> ~ In m (predef w) ->
    runs w d f (with_macros (macros st ++ [m]) st) k ts st' -> runs w d f st (Command h (L "define") k) ts st'
| u_undef d f st h m a b k ts st' : says h (L "undef") [TId m] -> macros st = a ++ m :: b -> ~ In m a ->
    runs w d f (with_macros (a ++ b) st) k ts st' -> runs w d f st (Command h (L "undef") k) ts st'
| u_once d f st h k ts st' : says h (L "once") [] ->
    runs w d f (with_files (map (fun x => if list_eq_dec ascii_dec (fst x) f then (f, true) else x) (files st)) st) k ts st' ->
    runs w d f st (Command h (L "once") k) ts st'
| u_import d f st h v x k ts st' : says h (L "import") [TId v] -> env w v = Some x ->
    runs w d f (with_imported (record v (h32 w x) (imported st)) st) k ts st' ->
    runs w d f st (Command h (L "import") k) (TVar ("." :: v) :: TOp OAssign :: TStr (literally x) :: ts) st'
| u_include_again d f st h p k ts st' : says h (L "include") [TStr p] -> S d < 128 -> once_known st (clean w (beside f p)) ->
    runs w d f st k ts st' -> runs w d f st (Command h (L "include") k) ts st'
| u_include d f st h p b k ts1 st1 ts2 st2 : says h (L "include") [TStr p] -> S d < 128 -> ~ once_known st (clean w (beside f p)) ->
    content w (clean w (beside f p)) = Some (text b) -> shaped b ->
    runs w (S d) (clean w (beside f p)) (with_files (record (clean w (beside f p)) false (files st)) st) b ts1 st1 ->
    runs w d f st1 k ts2 st2 -> runs w d f st (Command h (L "include") k) (ts1 ++ ts2) st2
| u_if_yes d f st h c b t k ts1 st1 ts2 st2 : says h (L "if") (cond_tokens c) -> cond_ok c -> cond_true w f st c -> tail_asks t ->
    runs w d f (note_cond w f st c) b ts1 st1 -> runs w d f st1 k ts2 st2 -> runs w d f st (If h c b t k) (ts1 ++ ts2) st2
| u_if_no d f st h c b t k st0 b' ts1 st1 ts2 st2 : says h (L "if") (cond_tokens c) -> cond_ok c -> ~ cond_true w f st c ->
    picks w f (note_cond w f st c) t (Some b') st0 ->
    runs w d f st0 b' ts1 st1 -> runs w d f st1 k ts2 st2 -> runs w d f st (If h c b t k) (ts1 ++ ts2) st2
| u_if_none d f st h c b t k st0 ts2 st2 : says h (L "if") (cond_tokens c) -> cond_ok c -> ~ cond_true w f st c ->
    picks w f (note_cond w f st c) t None st0 -> runs w d f st0 k ts2 st2 -> runs w d f st (If h c b t k) ts2 st2.

(** * The outside: files are known by absolute names, and no variable's value has the hash 0. *)
Definition sound_world (w : world) : Prop := (forall f, In "/" (clean w f)) /\ (forall v x, env w v = Some x -> h32 w x <> 0%N).

(** * What was learnt from outside: the variables asked for, the files asked about, and the files read. *)
Definition true_record (w : world) (st : state) : Prop :=
  (forall v h, In (v, h) (imported st) -> h = hash_of w (env w v)) /\ (forall f b, In (f, b) (checked st) -> b = present w f).
Definition same_tools (w1 w2 : world) : Prop := clean w1 = clean w2 /\ h32 w1 = h32 w2 /\ predef w1 = predef w2.
(** Two worlds that say the same about all of this. *)
Definition same_on (st : state) (w1 w2 : world) : Prop :=
  (forall v, In v (map fst (imported st)) -> env w1 v = env w2 v) /\ (forall f, In f (map fst (checked st)) -> present w1 f = present w2 f) /\
  (forall f, In f (map fst (files st)) -> content w1 f = content w2 f).
