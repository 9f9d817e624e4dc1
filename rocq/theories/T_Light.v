(** C61: every include of a file is found.  C62: the list of files.  C63: the key.  C64: other compilations. *)
From Coq Require Import String List Arith NArith Bool Ascii Lia.
From Verif Require Import M_Path.
From Verif Require M_Tok S_Tok P_Tok5.
From Verif Require Import M_Light S_Light P_Light P_Light2 P_Light3 P_Light4.
Import ListNotations.
Import M_Tok(res, Done, Fail, NoFuel, bind, lookup, LF, DQ).
Open Scope char_scope.
Open Scope nat_scope.

(** The events of a file are those of the grammar, which therefore gives a text only one meaning. *)
Theorem C61_includes : forall s l, ~ In nul s -> lines s l -> parse s = (l, false).
Proof. exact parse_lines. Qed.
Print Assumptions C61_includes.
Theorem C61_one_meaning : forall s l l', ~ In nul s -> lines s l -> lines s l' -> l = l'.
Proof. intros s l l' N H H'. apply (parse_lines s l N) in H. apply (parse_lines s l' N) in H'. congruence. Qed.
Print Assumptions C61_one_meaning.

Definition nl : str := [LF].
Definition quoted (s : string) : str := DQ :: L s ++ [DQ].
(** A comment before the '#', and a comment that ends on the line: the include is not seen. *)
Theorem C61_comment_refuted : parse (L "/* x */ #include <a.h>" ++ nl) = ([], false) /\ parse (L "/*" ++ nl ++ L "*/ #include <a.h>" ++ nl) = ([], false).
Proof. split; vm_compute; reflexivity. Qed.
Print Assumptions C61_comment_refuted.
(** #include_next is taken for an include of the macro _next, which is then ignored. *)
Theorem C61_next_refuted : parse (L "#include_next <a.h>" ++ nl) = ([Include (L "_next") Macro], false).
Proof. vm_compute. reflexivity. Qed.
Print Assumptions C61_next_refuted.
(** The other way round, a comment that begins behind code is read as lines, so that an include in it counts. *)
Example C61_extra : parse (L "int i; /*" ++ nl ++ L "#include <a.h>" ++ nl ++ L "*/" ++ nl) = ([Include (L "a.h") Angle], false).
Proof. vm_compute. reflexivity. Qed.

(** No [starts p s] for literals; blanks and lines of literals. *)
Ltac no_start := let r := fresh in let E := fresh in intros (r & E); discriminate E.
Ltac literal x E := cbn in E; first [discriminate E|destruct x as [|? x]; [discriminate E|cbn in E; first [discriminate E|injection E; clear E; intros E _; literal x E]]].
Ltac ident := unfold S_Tok.name_char, S_Tok.letter, S_Tok.is_digit, S_Tok.from_to; cbn; first [lia|let Q := fresh in intros [[Q|[Q|Q]]|Q]; try lia; discriminate].
Ltac no_eol := let E := fresh in intros [E|E]; discriminate E.
Ltac flat := repeat (apply Forall_cons; [no_eol|]); apply Forall_nil.
Ltac blank_line := repeat (apply Forall_cons; [first [left; reflexivity|right; reflexivity]|]); apply Forall_nil.
Ltac chars := repeat (apply e_char; [no_eol|discriminate|discriminate|no_start|no_start|]).
Ltac eol := first [apply e_end|apply e_newline; right; reflexivity].
Definition sample : str :=
  L "// start" ++ nl ++ L "#include " ++ quoted "a.h" ++ nl ++ L " # include /* b */ <b.h> // end" ++ nl ++ L "#define H " ++ quoted "c.h" ++ nl ++ L "#include H" ++ nl ++ L "int i;" ++ nl.
Definition sample_events : list event := [Include (L "a.h") Quote; Include (L "b.h") Angle; Define (L "H") (L "c.h") Quote; Include (L "H") Macro].
Lemma sample_lines : lines sample sample_events.
Proof.
  unfold sample, sample_events.
  apply (l_code [] "/" (tl (L "// start") ++ _) (L "#include " ++ quoted "a.h" ++ nl ++ L " # include /* b */ <b.h> // end" ++ nl ++ L "#define H " ++ quoted "c.h" ++ nl ++ L "#include H" ++ nl ++ L "int i;" ++ nl)).
  { apply Forall_nil. } { no_eol. } { discriminate. } { intro B. apply Forall_inv in B. destruct B; discriminate. } { no_start. }
  { apply (e_line_comment (L " start")); [flat|right; exists LF; split; [now right|now eexists]|eol]. }
  apply (l_include [] [] [" "] (quoted "a.h") (L "a.h") Quote (nl ++ _) (L " # include /* b */ <b.h> // end" ++ nl ++ L "#define H " ++ quoted "c.h" ++ nl ++ L "#include H" ++ nl ++ L "int i;" ++ nl)).
  { apply Forall_nil. } { apply Forall_nil. } { left. blank_line. } { apply (h_quote (L "a.h")); [flat|intro I; cbn in I; repeat destruct I as [I|I]; try discriminate; exact I]. } { eol. }
  apply (l_include [" "] [" "] (L " /* b */ ") (L "<b.h>") (L "b.h") Angle (L " // end" ++ nl ++ _) (L "#define H " ++ quoted "c.h" ++ nl ++ L "#include H" ++ nl ++ L "int i;" ++ nl)).
  { blank_line. } { blank_line. }
  { right. exists [" "], (L " b "), [" "]. split; [reflexivity|]. split; [blank_line|]. split; [blank_line|]. intros (x & y & E). literal x E. }
  { apply (h_angle (L "b.h")); [flat|intro I; cbn in I; repeat destruct I as [I|I]; try discriminate; exact I]. }
  { apply e_char; [no_eol|discriminate|discriminate|no_start|no_start|]. apply (e_line_comment (L " end")); [flat|right; exists LF; split; [now right|now eexists]|eol]. }
  apply (l_define_path [] [] [" "] (L "H") [" "] (quoted "c.h") (L "c.h") Quote (nl ++ _) (L "#include H" ++ nl ++ L "int i;" ++ nl)).
  { apply Forall_nil. } { apply Forall_nil. } { left. blank_line. } { discriminate. }
  { split; [exists "H", []; split; [reflexivity|]; split; [|apply Forall_nil]|]; [|intros c (r & E); injection E as <- _]; ident. }
  { left. blank_line. } { apply (h_quote (L "c.h")); [flat|intro I; cbn in I; repeat destruct I as [I|I]; try discriminate; exact I]. }
  { intro I; cbn in I; repeat destruct I as [I|I]; try discriminate; exact I. } { eol. }
  apply (l_include_macro [] [] [" "] (L "H") (nl ++ _) (L "int i;" ++ nl)).
  { apply Forall_nil. } { apply Forall_nil. } { left. blank_line. } { discriminate. }
  { split; [exists "H", []; split; [reflexivity|]; split; [|apply Forall_nil]|]; [|intros c (r & E); injection E as <- _]; ident. }
  { eol. }
  apply (l_code [] "i" (L "nt i;" ++ nl) []).
  { apply Forall_nil. } { no_eol. } { discriminate. } { intro B. apply Forall_inv in B. destruct B; discriminate. } { no_start. } { chars. eol. }
  apply l_end. apply Forall_nil.
Qed.
Example C61_case : ~ In nul sample /\ lines sample sample_events /\ parse sample = (sample_events, false).
Proof.
  assert (N : ~ In nul sample) by (intro I; vm_compute in I; repeat destruct I as [I|I]; try discriminate; exact I).
  split; [exact N|]. split; [exact sample_lines|]. now apply C61_includes, sample_lines.
Qed.

(** * C62 *)
Lemma says_event w f e : says w f e -> In e (events w f) /\ bad w f = false.
Proof. intros (s & l & T & N & H & I). unfold events, bad. rewrite T, (parse_lines s l N H). now split. Qed.
Lemma says_include w f n t : says w f (Include n t) -> In (n, t) (includes_of (events w f)).
Proof. intro H. apply says_event in H as (H & _). unfold includes_of. apply in_flat_map. exists (Include n t). split; [exact H|now left]. Qed.
Lemma says_define w f m n t : says w f (Define m n t) -> In (m, (n, t)) (defines_of (events w f)).
Proof. intro H. apply says_event in H as (H & _). unfold defines_of. apply in_flat_map. exists (Define m n t). split; [exact H|now left]. Qed.
Lemma define_says w f m n t : plain w f -> In (m, (n, t)) (defines_of (events w f)) -> says w f (Define m n t).
Proof.
  intros (s & l & T & N & H) I. exists s, l. repeat split; auto. unfold events in I. rewrite T, (parse_lines s l N H) in I. cbn [fst] in I. unfold defines_of in I. apply in_flat_map in I as (e & Ie & Q).
  destruct e; cbn in Q; try contradiction. destruct Q as [Q|[]]. injection Q as -> -> ->. exact Ie.
Qed.
Lemma alone_lone w l f n : alone w l f n -> lone w l f n.
Proof. intros H X f' I. refine (H (dir f) _ X f' (dir f') I _); now apply dir_directory. Qed.
Lemma key_closed fuel w o rel paths forced root k l f : light_hash fuel w o rel paths forced root = Done (Key k l) -> In f l -> closed w paths l f.
Proof. intros H I. apply key_state in H as (st & _ & (_ & _ & C) & -> & _). destruct (C f I) as [[]|H]. exact H. Qed.

(** An include of a listed file leads to a listed file. *)
Theorem C62_closed : forall fuel w o rel paths forced root k l f n t g, light_hash fuel w o rel paths forced root = Done (Key k l) ->
  In f l -> says w f (Include n t) -> leads w paths f n t g -> (t = Quote -> ~ starts ["/"] n -> alone w l f n) -> In g l.
Proof.
  intros fuel w o rel paths forced root k l f n t g H I Sy Le Al. destruct (key_closed _ _ _ _ _ _ _ _ _ f H I) as (a & b & _ & C).
  apply says_include in Sy. destruct (C n t Sy) as (O1 & _). apply O1; [intros ->; inversion Le; congruence|exact Le|]. intros T Ns. apply alone_lone, Al; assumption.
Qed.
Print Assumptions C62_closed.
(** The file that a macro stands for is listed, if the macro is defined in the including file or one listed before it, and always in the same way. *)
Theorem C62_macro : forall fuel w o rel paths forced root k a f b m f' n t g, light_hash fuel w o rel paths forced root = Done (Key k (a ++ f :: b)) ->
  says w f (Include m Macro) -> (f' = f \/ In f' a) -> says w f' (Define m n t) ->
  (forall f'', In f'' (a ++ f :: b) -> plain w f'') -> (forall f'' n' t', In f'' (a ++ f :: b) -> says w f'' (Define m n' t') -> (n', t') = (n, t)) ->
  leads w paths f n t g -> (t = Quote -> ~ starts ["/"] n -> alone w (a ++ f :: b) f n) -> In g (a ++ f :: b).
Proof.
  intros fuel w o rel paths forced root k a f b m f' n t g H Sy Hf Df Pl Un Le Al.
  destruct (key_closed _ _ _ _ _ _ _ _ _ f H ltac:(apply in_elt)) as (a' & b' & E & C).
  assert (Nd : NoDup (a ++ f :: b)) by (apply key_state in H as (st & _ & (_ & F & _) & -> & _); apply F).
  assert (Ea : a' = a).
  { clear - E Nd. revert a' E. induction a as [|x a IH]; intros [|y a'] E; cbn in E; injection E; intros; subst; [reflexivity| | |].
    - exfalso. cbn in Nd. inversion Nd as [|? ? N _]. apply N, in_elt.
    - exfalso. cbn in Nd. inversion Nd as [|? ? N _]. apply N, in_elt.
    - f_equal. apply IH; [|assumption]. cbn in Nd. now inversion Nd. }
  subst a'. apply says_include in Sy. destruct (C m Macro Sy) as (_ & O2). apply (O2 eq_refl n t g f' Hf).
  - now apply says_define.
  - intros f'' [n' t'] I D. apply (Un f'' n' t' I). apply define_says; auto.
  - exact Le.
  - intros T Ns. apply alone_lone, Al; assumption.
Qed.
Print Assumptions C62_macro.
(** A macro that stands for something else than a file name is not followed, so there is no key: with a key, an included macro that such a line
    defines in the including file or one listed before it also has a definition that names a file. *)
Theorem C62_other_macro : forall fuel w o rel paths forced root k a f b m f', light_hash fuel w o rel paths forced root = Done (Key k (a ++ f :: b)) ->
  (forall f'', In f'' (a ++ f :: b) -> plain w f'') -> says w f (Include m Macro) -> (f' = f \/ In f' a) -> says w f' (Other m) ->
  exists f'' n t, In f'' (a ++ f :: b) /\ says w f'' (Define m n t).
Proof.
  intros fuel w o rel paths forced root k a f b m f' H Pl Sy Hf So. assert (Nd : NoDup (a ++ f :: b)) by (apply key_state in H as (st & _ & (_ & F & _) & -> & _); apply F).
  destruct (key_seen w o rel paths fuel forced root k _ f H ltac:(apply in_elt)) as (a' & b' & E & C).
  assert (Ea : a' = a).
  { clear - E Nd. revert a' E. induction a as [|x a IH]; intros [|y a'] E; cbn in E; injection E; intros; subst; [reflexivity| | |].
    - exfalso. cbn in Nd. inversion Nd as [|? ? N _]. apply N, in_elt.
    - exfalso. cbn in Nd. inversion Nd as [|? ? N _]. apply N, in_elt.
    - f_equal. apply IH; [|assumption]. cbn in Nd. now inversion Nd. }
  subst a'. destruct (C m (says_include _ _ _ _ Sy)) as [(f'' & [n t] & I & D)|N].
  - exists f'', n, t. split; [exact I|]. apply define_says; auto.
  - exfalso. apply (N f'); [apply in_or_app; destruct Hf as [->|Hf]; [right; now left|now left]|]. apply says_event in So as (So & _). unfold others_of. apply in_flat_map. exists (Other m). split; [exact So|now left].
Qed.
Print Assumptions C62_other_macro.
(** The source and the forced includes are listed; every listed file is there, and is listed once. *)
Theorem C62_roots : forall fuel w o rel paths forced root k l, light_hash fuel w o rel paths forced root = Done (Key k l) ->
  NoDup l /\ (forall f, In f l -> there w f) /\ (starts ["/"] root -> there w root -> In root l) /\
  forall n, In n forced -> (starts ["/"] n -> there w n -> In n l) /\ (~ starts ["/"] n -> forall g, first_of w (map (fun d => clean w (d ++ n)) paths) g -> In g l).
Proof.
  intros fuel w o rel paths forced root k l H. apply key_state in H as (st & E & (_ & F & _) & -> & _). split; [apply F|]. split; [apply F|].
  destruct (each_top w o rel paths fuel (forced ++ [root]) start st (start_fine w) eq_refl E) as (_ & T).
  split; [apply T; apply in_or_app; right; now left|]. intros n I. apply T. apply in_or_app. now left.
Qed.
Print Assumptions C62_roots.
(** The search ends, whatever includes what. *)
Theorem C62_ends : forall w o rel paths forced root files, (forall f, there w f -> In f files) ->
  exists r, forall fuel, 2 * List.length files + 1 <= fuel -> light_hash fuel w o rel paths forced root = Done r.
Proof.
  intros w o rel paths forced root files H.
  assert (E : exists r, light_hash (2 * List.length files + 1) w o rel paths forced root = Done r).
  { unfold light_hash. destruct (top_ends w o rel paths files H _ (le_n _) (forced ++ [root]) start (start_fine w)) as (st & E). rewrite E. now eexists. }
  destruct E as (r & E). exists r. intros fuel K. now apply (light_more w o rel paths forced root _ fuel r K).
Qed.
Print Assumptions C62_ends.

(** A small project. *)
Definition number_of (s : str) : N := fold_left (fun a c => (a * 256 + N_of_ascii c)%N) s 1%N.
Definition mix (l : list N) : N := fold_left (fun a x => (a * 1000003 + x)%N) l 7%N.
Definition project (l : list (str * str)) : world :=
  {| text := lookup l; clean := fun s => s; relative := fun s => skipn 3 s; h64 := number_of; hash := mix |}.
Definition cold : others := fun _ => None.
Definition names_of (r : res outcome) : option (list str) := match r with Done (Key _ l) => Some l | _ => None end.
(** Lines of the usual form. *)
Definition inc_angle (n : string) : str := L "#include <" ++ L n ++ ">" :: nl.
Definition inc_quote (n : string) : str := L "#include " ++ quoted n ++ nl.
Definition inc_macro (m : string) : str := L "#include " ++ L m ++ nl.
Definition def_angle (m n : string) : str := L "#define " ++ L m ++ L " <" ++ L n ++ ">" :: nl.
Definition word (s : string) : Prop := exists c x, L s = c :: x /\ S_Tok.letter c /\ Forall S_Tok.name_char x.
Lemma newline_after (s : str) : forall c, starts [c] (nl ++ s) -> ~ S_Tok.name_char c.
Proof. intros c (r & E). injection E as <- _. ident. Qed.
Lemma line_angle n s l : one_line (L n) -> ~ In ">" (L n) -> lines s l -> lines (inc_angle n ++ s) (Include (L n) Angle :: l).
Proof.
  intros O G H. replace (inc_angle n ++ s) with ([] ++ "#" :: [] ++ L "include" ++ [" "] ++ ("<" :: L n ++ [">"]) ++ nl ++ s) by (unfold inc_angle; cbn; f_equal; rewrite <- !app_assoc; reflexivity).
  apply (l_include _ _ _ _ (L n) Angle (nl ++ s) s l); [apply Forall_nil|apply Forall_nil|left; blank_line|now apply h_angle|eol|exact H].
Qed.
Lemma line_quote n s l : one_line (L n) -> ~ In DQ (L n) -> lines s l -> lines (inc_quote n ++ s) (Include (L n) Quote :: l).
Proof.
  intros O G H. replace (inc_quote n ++ s) with ([] ++ "#" :: [] ++ L "include" ++ [" "] ++ (DQ :: L n ++ [DQ]) ++ nl ++ s) by (unfold inc_quote, quoted; cbn; rewrite <- !app_assoc; reflexivity).
  apply (l_include _ _ _ _ (L n) Quote (nl ++ s) s l); [apply Forall_nil|apply Forall_nil|left; blank_line|now apply h_quote|eol|exact H].
Qed.
Lemma line_macro m s l : word m -> lines s l -> lines (inc_macro m ++ s) (Include (L m) Macro :: l).
Proof.
  intros W H. replace (inc_macro m ++ s) with ([] ++ "#" :: [] ++ L "include" ++ [" "] ++ L m ++ nl ++ s) by (unfold inc_macro; cbn; rewrite <- !app_assoc; reflexivity).
  apply (l_include_macro _ _ _ (L m) (nl ++ s) s l); [apply Forall_nil|apply Forall_nil|left; blank_line|discriminate|split; [exact W|apply newline_after]|eol|exact H].
Qed.
Lemma line_define m n s l : word m -> one_line (L n) -> ~ In ">" (L n) -> ~ In "\" (L n) -> lines s l -> lines (def_angle m n ++ s) (Define (L m) (L n) Angle :: l).
Proof.
  intros W O G B H. replace (def_angle m n ++ s) with ([] ++ "#" :: [] ++ L "define" ++ [" "] ++ L m ++ [" "] ++ ("<" :: L n ++ [">"]) ++ nl ++ s)
    by (unfold def_angle; cbn; rewrite <- !app_assoc; cbn; rewrite <- !app_assoc; reflexivity).
  apply (l_define_path _ _ _ (L m) _ _ (L n) Angle (nl ++ s) s l); [apply Forall_nil|apply Forall_nil|left; blank_line|discriminate|split; [exact W|]|left; blank_line|now apply h_angle|exact B|eol|exact H].
  intros c (r & E). injection E as <- _. ident.
Qed.
Ltac not_in := let I := fresh in intro I; cbn in I; repeat destruct I as [I|I]; try discriminate; exact I.
Ltac a_word := eexists; eexists; split; [reflexivity|split; [ident|repeat (apply Forall_cons; [ident|]); apply Forall_nil]].

Definition p1 : world := project
  [(L "/p/a.c", inc_angle "b.h" ++ inc_macro "H"); (L "/i/b.h", def_angle "H" "d.h" ++ inc_quote "c.h"); (L "/i/c.h", inc_angle "b.h"); (L "/i/d.h", [])].
Definition paths1 : list str := [L "/j/"; L "/i/"].
Definition names1 : list str := [L "/p/a.c"; L "/i/b.h"; L "/i/c.h"; L "/i/d.h"].
Example C62_case : exists k, light_hash 9 p1 cold false paths1 [] (L "/p/a.c") = Done (Key k names1).
Proof. eexists. vm_compute. reflexivity. Qed.
Lemma empty_lines : lines [] []. Proof. apply l_end, Forall_nil. Qed.
Lemma p1_a : lines (inc_angle "b.h" ++ inc_macro "H") [Include (L "b.h") Angle; Include (L "H") Macro].
Proof. apply line_angle; [flat|not_in|]. rewrite <- (app_nil_r (inc_macro "H")). apply line_macro; [a_word|exact empty_lines]. Qed.
Lemma p1_b : lines (def_angle "H" "d.h" ++ inc_quote "c.h") [Define (L "H") (L "d.h") Angle; Include (L "c.h") Quote].
Proof. apply line_define; [a_word|flat|not_in|not_in|]. rewrite <- (app_nil_r (inc_quote "c.h")). apply line_quote; [flat|not_in|exact empty_lines]. Qed.
Lemma p1_c : lines (inc_angle "b.h") [Include (L "b.h") Angle].
Proof. rewrite <- (app_nil_r (inc_angle "b.h")). apply line_angle; [flat|not_in|exact empty_lines]. Qed.
Lemma p1_text f s : text p1 f = Some s -> (f, s) = (L "/p/a.c", inc_angle "b.h" ++ inc_macro "H") \/ (f, s) = (L "/i/b.h", def_angle "H" "d.h" ++ inc_quote "c.h") \/
  (f, s) = (L "/i/c.h", inc_angle "b.h") \/ (f, s) = (L "/i/d.h", []).
Proof. intro H. cbn [p1 project text] in H. apply P_Tok5.lookup_in in H. cbn [In] in H. repeat (destruct H as [H|H]; [symmetry in H; tauto|]). destruct H. Qed.
Ltac no_nul := let I := fresh in intro I; vm_compute in I; repeat destruct I as [I|I]; try discriminate; exact I.
Lemma p1_plain f : In f names1 -> plain p1 f.
Proof.
  intros [<-|[<-|[<-|[<-|[]]]]]; eexists; eexists; (split; [reflexivity|]); (split; [no_nul|]); [exact p1_a|exact p1_b|exact p1_c|exact empty_lines].
Qed.
(** The hypotheses of C62_closed and C62_macro are met: b.h includes c.h beside it, a.c includes d.h by the macro H of b.h. *)
Example C62_case_closed : says p1 (L "/i/b.h") (Include (L "c.h") Quote) /\ leads p1 paths1 (L "/i/b.h") (L "c.h") Quote (L "/i/c.h") /\ alone p1 names1 (L "/i/b.h") (L "c.h").
Proof.
  split; [|split].
  - eexists. eexists. split; [reflexivity|]. split; [no_nul|]. split; [exact p1_b|]. right. now left.
  - apply (f_quote p1 paths1 _ _ (L "/i/")); [no_start| |].
    + exists (L "b.h"). split; [reflexivity|]. split; [not_in|]. split; [not_in|]. right. exists (L "/i"). now left.
    + eexists [], _. split; [reflexivity|]. split; [discriminate|apply Forall_nil].
  - intros d D X. exfalso. apply dir_directory in D. subst d. apply X. vm_compute. discriminate.
Qed.
Example C62_case_macro : says p1 (L "/p/a.c") (Include (L "H") Macro) /\ says p1 (L "/i/b.h") (Define (L "H") (L "d.h") Angle) /\ leads p1 paths1 (L "/p/a.c") (L "d.h") Angle (L "/i/d.h") /\
  (forall f, In f names1 -> plain p1 f) /\ forall f n t, In f names1 -> says p1 f (Define (L "H") n t) -> (n, t) = (L "d.h", Angle).
Proof.
  split; [|split; [|split; [|split; [exact p1_plain|]]]].
  - eexists. eexists. split; [reflexivity|]. split; [no_nul|]. split; [exact p1_a|]. right. now left.
  - eexists. eexists. split; [reflexivity|]. split; [no_nul|]. split; [exact p1_b|]. now left.
  - apply f_angle; [no_start|]. exists [L "/j/d.h"], []. split; [reflexivity|]. split; [discriminate|]. apply Forall_cons; [|apply Forall_nil]. intro H. apply H. reflexivity.
  - intros f n t I H. apply says_define in H. destruct I as [<-|[<-|[<-|[<-|[]]]]]; vm_compute in H; try contradiction. destruct H as [H|[]]. now injection H as <- <-.
Qed.
Example C62_case_ends : forall f, there p1 f -> In f names1.
Proof.
  intros f H. unfold there in H. destruct (text p1 f) as [s|] eqn:E; [|congruence]. apply p1_text in E. cbn [names1 In].
  destruct E as [E|[E|[E|E]]]; injection E as -> _; tauto.
Qed.

(** Where the search is not that of the compilers on Linux: a name that is not beside the including file is looked for beside the file that
    includes that one, before the include paths.  Here the compiler reads /i/x.h, which is not in the list. *)
Definition p2 : world := project [(L "/p/a.c", inc_quote "s/b.h"); (L "/p/s/b.h", inc_quote "x.h"); (L "/p/x.h", []); (L "/i/x.h", [])].
Theorem C62_search_refuted : exists w paths root k l f n g, light_hash 9 w cold false paths [] root = Done (Key k l) /\ In f l /\ says w f (Include n Quote) /\ leads w paths f n Quote g /\ ~ In g l.
Proof.
  exists p2, [L "/i/"], (L "/p/a.c"). eexists. eexists. exists (L "/p/s/b.h"), (L "x.h"), (L "/i/x.h"). split; [vm_compute; reflexivity|]. split; [right; now left|]. split; [|split].
  - eexists. exists [Include (L "x.h") Quote]. split; [reflexivity|]. split; [no_nul|]. split; [|now left]. rewrite <- (app_nil_r (inc_quote "x.h")). apply line_quote; [flat|not_in|exact empty_lines].
  - apply (f_quote p2 [L "/i/"] _ _ (L "/p/s/")); [no_start| |].
    + exists (L "b.h"). split; [reflexivity|]. split; [not_in|]. split; [not_in|]. right. exists (L "/p/s"). now left.
    + exists [L "/p/s/x.h"], []. split; [reflexivity|]. split; [discriminate|]. apply Forall_cons; [|apply Forall_nil]. intro H. apply H. reflexivity.
  - intros [E|[E|[E|[]]]]; discriminate E.
Qed.
Print Assumptions C62_search_refuted.
(** Of several definitions of a macro only the first is followed, although which of them holds is not known. *)
Definition p3 : world := project
  [(L "/p/a.c", L "#ifdef A" ++ nl ++ def_angle "H" "b.h" ++ L "#else" ++ nl ++ def_angle "H" "c.h" ++ L "#endif" ++ nl ++ inc_macro "H"); (L "/i/b.h", []); (L "/i/c.h", [])].
Theorem C62_macro_refuted : exists w paths root k l m g, light_hash 9 w cold false paths [] root = Done (Key k l) /\ In (Include m Macro) (events w root) /\ In (Define m (L "c.h") Angle) (events w root) /\
  leads w paths root (L "c.h") Angle g /\ ~ In g l.
Proof.
  exists p3, [L "/i/"], (L "/p/a.c"). eexists. eexists. exists (L "H"), (L "/i/c.h"). split; [vm_compute; reflexivity|]. split; [vm_compute; tauto|]. split; [vm_compute; tauto|]. split.
  - apply f_angle; [no_start|]. exists [], []. split; [reflexivity|]. split; [discriminate|apply Forall_nil].
  - intros [E|[E|[]]]; discriminate E.
Qed.
Print Assumptions C62_macro_refuted.
(** Definitions that name no file: alone, no key; after one that does, a key. *)
Definition def_call : str := L "#define H F(a)" ++ nl.
Example C62_other_macro_case : light_hash 9 (project [(L "/p/a.c", def_call ++ inc_macro "H")]) cold false [L "/i/"] [] (L "/p/a.c") = Done Refused /\
  events (project [(L "/p/a.c", def_call ++ def_angle "H" "b.h" ++ inc_macro "H")]) (L "/p/a.c") = [Other (L "H"); Define (L "H") (L "b.h") Angle; Include (L "H") Macro] /\
  exists k, light_hash 9 (project [(L "/p/a.c", def_call ++ def_angle "H" "b.h" ++ inc_macro "H")]) cold false [L "/i/"] [] (L "/p/a.c") = Done (Key k [L "/p/a.c"]).
Proof. split; [vm_compute; reflexivity|]. split; [vm_compute; reflexivity|]. eexists. vm_compute. reflexivity. Qed.
(** A macro that no file defines, such as one given with -D, is ignored without a word. *)
Theorem C62_option_macro_refuted : exists k, light_hash 9 (project [(L "/p/a.c", inc_macro "H")]) cold false [L "/i/"] [] (L "/p/a.c") = Done (Key k [L "/p/a.c"]).
Proof. eexists. vm_compute. reflexivity. Qed.
Print Assumptions C62_option_macro_refuted.

(** * C63 *)
(** Two compilations with the same key list the same files with the same texts, unless the hash has a collision among just these names and texts. *)
Theorem C63_key : forall fuel1 fuel2 w1 w2 o1 o2 rel paths1 paths2 forced1 forced2 root1 root2 k l1 l2,
  light_hash fuel1 w1 o1 rel paths1 forced1 root1 = Done (Key k l1) -> light_hash fuel2 w2 o2 rel paths2 forced2 root2 = Done (Key k l2) ->
  (hash w1 (numbers w1 rel l1) = hash w2 (numbers w2 rel l2) -> numbers w1 rel l1 = numbers w2 rel l2) ->
  (forall x y, hashed w1 rel l1 x -> hashed w2 rel l2 y -> h64 w1 x = h64 w2 y -> x = y) ->
  Forall2 (fun f g => shown w1 rel f = shown w2 rel g /\ exists s, text w1 f = Some s /\ text w2 g = Some s) l1 l2.
Proof.
  intros fuel1 fuel2 w1 w2 o1 o2 rel q1 q2 forced1 forced2 root1 root2 k l1 l2 H1 H2 C1 C2.
  assert (T1 : forall f, In f l1 -> there w1 f) by (apply C62_roots in H1; tauto). assert (T2 : forall f, In f l2 -> there w2 f) by (apply C62_roots in H2; tauto).
  apply key_state in H1 as (_ & _ & _ & _ & _ & K1), H2 as (_ & _ & _ & _ & _ & K2). assert (E : numbers w1 rel l1 = numbers w2 rel l2) by (apply C1; rewrite K1 in K2; exact K2). clear C1 K1 K2.
  unfold hashed in C2. unfold numbers in E. revert l2 E T2 C2. induction l1 as [|f l1 IH]; intros [|g l2] E T2 C2; cbn [flat_map app] in E; try discriminate; [constructor|].
  injection E as E1 E2 E. specialize (T1 f (or_introl eq_refl)) as Tf. specialize (T2 g (or_introl eq_refl)) as Tg. unfold there in Tf, Tg.
  destruct (text w1 f) as [s|] eqn:Sf; [|congruence]. destruct (text w2 g) as [s'|] eqn:Sg; [|congruence]. constructor.
  - split; [apply C2; [exists f; split; [now left|now left]|exists g; split; [now left|now left]|exact E1]|]. exists s. split; [exact Sf|]. rewrite Sg. f_equal. symmetry.
    apply C2; [exists f; split; [now left|now right]|exists g; split; [now left|now right]|exact E2].
  - apply IH; [intros h I; apply T1; now right|exact E|intros h I; apply T2; now right|]. intros x y (h & I & X) (h' & I' & Y). apply C2; [exists h|exists h']; (split; [now right|assumption]).
Qed.
Print Assumptions C63_key.

Lemma first_some w l g : In g l -> there w g -> exists h, first_of w l h.
Proof.
  induction l as [|x l IH]; [intros []|]. intros I T. destruct (exists_ w x) eqn:X.
  - exists x, [], l. apply there_iff in X. repeat split; [exact X|constructor].
  - apply there_false in X. destruct I as [->|I]; [contradiction|]. destruct (IH I T) as (h & a & b & -> & Th & N). exists h, (x :: a), b. repeat split; [exact Th|now constructor].
Qed.
Lemma first_two w1 w2 l g h : first_of w1 l g -> first_of w2 l h -> there w2 g -> there w1 h -> g = h.
Proof.
  intros (a & b & -> & T & N) (a' & b' & E & T' & N') Tg Th. revert a' E N'. induction a as [|x a IH]; intros [|y a'] E N'; cbn in E; injection E; intros; subst.
  - reflexivity.
  - apply Forall_inv in N'. contradiction.
  - apply Forall_inv in N. contradiction.
  - apply IH with a'; [now apply Forall_inv_tail in N|assumption|now apply Forall_inv_tail in N'].
Qed.
Lemma same_leads fuel1 fuel2 w1 w2 o1 o2 paths forced1 forced2 root k l f n t g :
  light_hash fuel1 w1 o1 false paths forced1 root = Done (Key k l) -> light_hash fuel2 w2 o2 false paths forced2 root = Done (Key k l) ->
  (forall f, In f l -> text w1 f = text w2 f) -> (forall s, clean w1 s = clean w2 s) -> In f l -> says w1 f (Include n t) ->
  (t = Quote -> ~ starts ["/"] n -> alone w1 l f n /\ alone w2 l f n) -> leads w1 paths f n t g -> leads w2 paths f n t g.
Proof.
  intros H1 H2 Tx Cl I Sy Al Le.
  assert (Sy2 : says w2 f (Include n t)) by (destruct Sy as (s & ev & T & R); exists s, ev; split; [now rewrite <- Tx|exact R]).
  assert (Ig : In g l) by (apply (C62_closed _ _ _ _ _ _ _ _ _ _ _ _ _ H1 I Sy Le); intros T Ns; now apply Al).
  assert (Back : forall h, In h l -> there w2 h -> there w1 h) by (intros h Ih; unfold there; now rewrite Tx).
  assert (Fwd : forall h, In h l -> there w1 h -> there w2 h) by (intros h Ih; unfold there; now rewrite <- Tx).
  assert (Key2 : forall L, first_of w1 L g -> (forall h, first_of w2 L h -> leads w2 paths f n t h) -> leads w2 paths f n t g).
  { intros L F1 Ld. assert (Tg : there w1 g) by (destruct F1 as (? & ? & _ & T & _); exact T). assert (IL : In g L) by (destruct F1 as (a & b & -> & _); apply in_elt).
    destruct (first_some w2 L g IL (Fwd g Ig Tg)) as (h & F2). pose proof (Ld h F2) as L2.
    assert (Ih : In h l) by (apply (C62_closed _ _ _ _ _ _ _ _ _ _ _ _ _ H2 I Sy2 L2); intros T Ns; now apply Al).
    assert (Th : there w2 h) by (destruct F2 as (? & ? & _ & T & _); exact T).
    rewrite (first_two w1 w2 L g h F1 F2 (Fwd g Ig Tg) (Back h Ih Th)). exact L2. }
  assert (Em : forall m, map (fun d => clean w1 (d ++ m)) paths = map (fun d => clean w2 (d ++ m)) paths) by (intro m; apply map_ext; intro; apply Cl).
  destruct Le as [n t Nt Fu T|n g Fu F|n d g Fu D F].
  - apply f_full; auto.
  - apply (Key2 _ F). intros h Fh. apply f_angle; [exact Fu|]. now rewrite <- Em.
  - apply (Key2 _ F). intros h Fh. apply (f_quote w2 paths f n d); [exact Fu|exact D|]. now rewrite <- Em, <- Cl.
Qed.
(** With the same key, each include of each file leads to the same file: files that have come or gone since have not changed what is meant. *)
Theorem C63_same_files : forall fuel1 fuel2 w1 w2 o1 o2 paths forced1 forced2 root k l f n t g,
  light_hash fuel1 w1 o1 false paths forced1 root = Done (Key k l) -> light_hash fuel2 w2 o2 false paths forced2 root = Done (Key k l) ->
  (forall f, In f l -> text w1 f = text w2 f) -> (forall s, clean w1 s = clean w2 s) -> In f l -> says w1 f (Include n t) ->
  (t = Quote -> ~ starts ["/"] n -> alone w1 l f n /\ alone w2 l f n) -> (leads w1 paths f n t g <-> leads w2 paths f n t g).
Proof.
  intros fuel1 fuel2 w1 w2 o1 o2 paths forced1 forced2 root k l f n t g H1 H2 Tx Cl I Sy Al. split.
  - now apply (same_leads fuel1 fuel2 w1 w2 o1 o2 paths forced1 forced2 root k l f n t g).
  - apply (same_leads fuel2 fuel1 w2 w1 o2 o1 paths forced2 forced1 root k l f n t g); auto.
    + intros f' If. symmetry. now apply Tx.
    + destruct Sy as (s & ev & T & R); exists s, ev; split; [now rewrite <- Tx|exact R].
    + intros T Ns. split; now apply Al.
Qed.
Print Assumptions C63_same_files.
(** So a compiler that follows includes by name from the source reads the same files, with the same texts. *)
Theorem C63_reads : forall fuel1 fuel2 w1 w2 o1 o2 paths forced1 forced2 root k l g,
  light_hash fuel1 w1 o1 false paths forced1 root = Done (Key k l) -> light_hash fuel2 w2 o2 false paths forced2 root = Done (Key k l) ->
  (forall f, In f l -> text w1 f = text w2 f) -> (forall s, clean w1 s = clean w2 s) -> starts ["/"] root -> there w1 root ->
  (forall f n, In f l -> says w1 f (Include n Quote) -> ~ starts ["/"] n -> alone w1 l f n /\ alone w2 l f n) ->
  reads w1 paths root g -> reads w2 paths root g /\ In g l /\ text w1 g = text w2 g.
Proof.
  intros fuel1 fuel2 w1 w2 o1 o2 paths forced1 forced2 root k l g H1 H2 Tx Cl Fu Tr Al R.
  assert (Q : reads w2 paths root g /\ In g l).
  { induction R as [|f n t g R (R2 & I) Sy Le]; [split; [constructor|]; apply C62_roots in H1; tauto|].
    assert (Al' : t = Quote -> ~ starts ["/"] n -> alone w1 l f n /\ alone w2 l f n) by (intros -> Ns; now apply Al).
    split; [|apply (C62_closed _ _ _ _ _ _ _ _ _ _ _ _ _ H1 I Sy Le); intros T Ns; now apply Al'].
    apply (r_next w2 paths root f n t g R2); [destruct Sy as (s & ev & T & Q); exists s, ev; split; [now rewrite <- Tx|exact Q]|].
    now apply (same_leads fuel1 fuel2 w1 w2 o1 o2 paths forced1 forced2 root k l f n t g). }
  destruct Q as (R2 & I). split; [exact R2|]. split; [exact I|now apply Tx].
Qed.
Print Assumptions C63_reads.

(** The same project with another file added that nothing includes. *)
Definition p4 : world := project
  [(L "/p/a.c", inc_angle "b.h" ++ inc_macro "H"); (L "/i/b.h", def_angle "H" "d.h" ++ inc_quote "c.h"); (L "/i/c.h", inc_angle "b.h"); (L "/i/d.h", []); (L "/j/e.h", [])].
Example C63_case : exists k, light_hash 9 p1 cold false paths1 [] (L "/p/a.c") = Done (Key k names1) /\ light_hash 9 p4 (fun _ => Some true) false paths1 [] (L "/p/a.c") = Done (Key k names1) /\
  numbers p1 false names1 = numbers p4 false names1 /\ (forall f, In f names1 -> text p1 f = text p4 f).
Proof.
  eexists. split; [vm_compute; reflexivity|]. split; [vm_compute; reflexivity|]. split; [vm_compute; reflexivity|]. intros f [<-|[<-|[<-|[<-|[]]]]]; vm_compute; reflexivity.
Qed.
Lemma number_inj : forall x y, number_of x = number_of y -> x = y.
Proof.
  assert (Sn : forall x c, number_of (x ++ [c]) = (number_of x * 256 + N_of_ascii c)%N) by (intros; unfold number_of; rewrite fold_left_app; reflexivity).
  assert (Pos : forall x, (1 <= number_of x)%N) by (induction x as [|c x IH] using rev_ind; [vm_compute; discriminate|rewrite Sn; lia]).
  induction x as [|c x IH] using rev_ind; intros y; destruct y as [|d y _] using rev_ind; try reflexivity; rewrite ?Sn; intro E.
  - exfalso. specialize (Pos y). cbn in E. lia.
  - exfalso. specialize (Pos x). cbn in E. lia.
  - pose proof (N_ascii_bounded c). pose proof (N_ascii_bounded d). assert (Ec : N_of_ascii c = N_of_ascii d /\ number_of x = number_of y) by lia. destruct Ec as (Ec & Ex).
    rewrite (IH y Ex). f_equal. f_equal. rewrite <- (ascii_N_embedding c), <- (ascii_N_embedding d). now rewrite Ec.
Qed.
(** These hashes have no collision of names or texts at all. *)
Example C63_case_hash : forall x y, h64 p1 x = h64 p4 y -> x = y. Proof. exact number_inj. Qed.

(** * C64 *)
(** What other compilations have put into the shared records, and when, makes no difference, if all files are of the form of C61 and, when this
    compilation uses relative names, the others do too. *)
Theorem C64_others : forall fuel w o rel paths forced root, (forall f, there w f -> plain w f) -> (rel = true -> forall n, o n <> Some false) ->
  light_hash fuel w o rel paths forced root = light_hash fuel w (fun _ => None) rel paths forced root.
Proof.
  intros fuel w o rel paths forced root P T. apply light_sim; [|exact T|intros _ n; discriminate]. intro f. unfold bad. destruct (text w f) as [s|] eqn:E; [|reflexivity].
  destruct (P f) as (s' & l & E' & N & H); [unfold there; congruence|]. rewrite E in E'. injection E' as <-. now rewrite (parse_lines s l N H).
Qed.
Print Assumptions C64_others.
Example C64_case : (forall f, there p1 f -> plain p1 f) /\ light_hash 9 p1 (fun n => if Nat.even n then Some true else None) true paths1 [] (L "/p/a.c") <> Done Refused.
Proof. split; [intros f H; now apply p1_plain, C62_case_ends|]. vm_compute. discriminate. Qed.

(** A file with a line that is not supported is refused by the first compilation that meets it.  The next one finds the record, which stops at that
    line, and gets a key without the files that are included behind it. *)
Definition p5 : world := project [(L "/p/a.c", inc_quote "b.h"); (L "/p/b.h", L "#import <z>" ++ nl ++ inc_quote "c.h"); (L "/p/c.h", [])].
Theorem C64_error_refuted : exists w paths root o k l f g, light_hash 9 w cold false paths [] root = Done Refused /\ light_hash 9 w o false paths [] root = Done (Key k l) /\
  In f l /\ (exists a, text w f = Some (a ++ inc_quote "c.h") /\ (exists b, a = b ++ nl)) /\ leads w paths f (L "c.h") Quote g /\ ~ In g l.
Proof.
  exists p5, [], (L "/p/a.c"), (fun n => if Nat.eqb n 1 then Some false else None). eexists. eexists. exists (L "/p/b.h"), (L "/p/c.h").
  split; [vm_compute; reflexivity|]. split; [vm_compute; reflexivity|]. split; [right; now left|]. split; [|split].
  - exists (L "#import <z>" ++ nl). split; [reflexivity|now eexists].
  - apply (f_quote p5 [] _ _ (L "/p/")); [no_start| |].
    + exists (L "b.h"). split; [reflexivity|]. split; [not_in|]. split; [not_in|]. right. exists (L "/p"). now left.
    + exists [], []. split; [reflexivity|]. split; [discriminate|apply Forall_nil].
  - intros [E|[E|[]]]; discriminate E.
Qed.
Print Assumptions C64_error_refuted.
(** If the compiler of an earlier compilation does not use relative paths and that of this one does, the key is made from memory that was never set. *)
Theorem C64_relative_refuted : exists w paths root o, (forall f, there w f -> plain w f) /\ (forall n, o n = None \/ o n = Some false) /\ light_hash 9 w o true paths [] root = Done Undefined.
Proof.
  exists p1, paths1, (L "/p/a.c"), (fun n => if Nat.eqb n 0 then Some false else None). split; [intros f H; now apply p1_plain, C62_case_ends|].
  split; [intros [|n]; cbn; auto|]. vm_compute. reflexivity.
Qed.
Print Assumptions C64_relative_refuted.
