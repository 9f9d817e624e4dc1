(** C56 - C60: the text of a BFF file, its directives, and what it takes from outside. *)
From Coq Require Import String List Arith NArith ZArith Bool Ascii Lia.
From Verif Require Import M_Path M_Cond M_Tok S_Tok S_Doc P_Tok P_Tok2 P_Tok3 P_Tok4 P_Tok5 P_Tok6 P_Tok7 P_Tok8 P_Tok9.
From Verif Require M_Scope.
Import ListNotations.
Open Scope char_scope.
Open Scope nat_scope.

(** What a parse of the file comes to: its tokens and the record, or an error.  [fuel] only bounds the recursion of the model; C58_ends and
    C58_one_result say that it does not matter. *)
Definition parse (w : world) (root : str) (x : res (list token * state)) : Prop := x <> NoFuel /\ exists fuel, tokenize fuel w root = x.
(** The same for the text s, in a file, after what has led to the state st. *)
Definition reading (w : world) (depth : nat) (file : str) (st : state) (s : str) (x : res (list token * state)) : Prop := x <> NoFuel /\ exists fuel, tok fuel w depth file st s 0 = x.
Definition opened (w : world) (root : str) : state := with_files [(clean w root, false)] start.

Lemma parse_yields w root s x : content w (clean w root) = Some s -> parse w root x <-> yields w 0 (clean w root) (opened w root) s 0 x.
Proof.
  intro C. unfold parse, yields, tokenize, open_file. cbn [lookup files start]. rewrite C. reflexivity.
Qed.

(** * C58: reading ends, with one result *)
Theorem C58_ends : forall w root, exists x, parse w root x.
Proof. intros w root. destruct (tokenize_ends w root) as (fuel & N). exists (tokenize fuel w root). split; [exact N|now exists fuel]. Qed.
Print Assumptions C58_ends.
Theorem C58_one_result : forall w root x y, parse w root x -> parse w root y -> x = y.
Proof.
  intros w root x y P Q. destruct (content w (clean w root)) as [s|] eqn:C.
  - apply (parse_yields _ _ _ _ C) in P. apply (parse_yields _ _ _ _ C) in Q. eapply yields_unique; eassumption.
  - destruct P as (_ & f & <-), Q as (_ & g & <-). unfold tokenize, open_file. cbn [lookup files start]. now rewrite C.
Qed.
Print Assumptions C58_one_result.

(** * C56: tokens *)
(** A file that keeps to the lexical grammar, without directives, is read as the grammar says. *)
Theorem C56_text : forall w root s ts, content w (clean w root) = Some s -> means s ts [] -> parse w root (Done (ts, opened w root)).
Proof.
  intros w root s ts C M. apply (parse_yields _ _ _ _ C).
  assert (Y : yields w 0 (clean w root) (opened w root) (s ++ []) 0 (emit ts (Done ([], opened w root)))).
  { apply means_yields with (r := []); [exact M|right; right; reflexivity|cbn; lia|]. apply yields_end. cbn. lia. }
  cbn [emit bind fst snd] in Y. now rewrite !app_nil_r in Y.
Qed.
Print Assumptions C56_text.
(** Only such text is accepted, up to the first directive; but [accepts] also has digits that are no proper number, and a single '&' or '|'. *)
Theorem C56_only : forall w root s ts st, content w (clean w root) = Some s -> parse w root (Done (ts, st)) ->
  exists ts1 r, accepts s ts1 r /\ ((r = [] /\ ts = ts1 /\ st = opened w root) \/ (hd " " r = "#" /\ exists ts2, ts = ts1 ++ ts2)).
Proof.
  intros w root s ts st C P. apply (parse_yields _ _ _ _ C) in P as (_ & f & H). now apply tok_accepts in H.
Qed.
Print Assumptions C56_only.
(** The grammar gives a text one meaning. *)
Theorem C56_one_meaning : forall s ts1 ts2, means s ts1 [] -> means s ts2 [] -> ts1 = ts2.
Proof.
  intros s ts1 ts2 M1 M2. set (w := {| env := fun _ => None; content := fun _ => Some s; present := fun _ => false; clean := fun f => f; h32 := fun _ => 1%N; predef := [] |}).
  pose proof (C56_text w [] s ts1 eq_refl M1) as P1. pose proof (C56_text w [] s ts2 eq_refl M2) as P2. pose proof (C58_one_result _ _ _ _ P1 P2). congruence.
Qed.
Print Assumptions C56_one_meaning.
(** Digits that do not stand for their decimal value: octal, hexadecimal, too large. *)
Theorem C56_numbers_refuted : forall w root,
  (content w (clean w root) = Some (L "010") -> parse w root (Done ([TNum 8], opened w root))) /\
  (content w (clean w root) = Some (L "08") -> parse w root (Done ([TNum 0], opened w root))) /\
  (content w (clean w root) = Some (L "0x10") -> parse w root (Done ([TNum 16; TId (L "x10")], opened w root))) /\
  (content w (clean w root) = Some (L "4294967297") -> parse w root (Done ([TNum 1], opened w root))).
Proof.
  intros w root. repeat split; intros; try discriminate; (exists 9; unfold tokenize, open_file; cbn [lookup files start]; rewrite H; reflexivity).
Qed.
Print Assumptions C56_numbers_refuted.
(** A single '&' or '|' is read as '='. *)
Theorem C56_single_refuted : forall w root,
  (content w (clean w root) = Some (L ".A & .B") \/ content w (clean w root) = Some (L ".A | .B") \/ content w (clean w root) = Some (L ".A = .B")) ->
  parse w root (Done ([TVar (L ".A"); TOp OAssign; TVar (L ".B")], opened w root)).
Proof.
  intros w root H. split; [discriminate|]. exists 9. unfold tokenize, open_file. cbn [lookup files start]. decompose [or] H; rewrite H0 || rewrite H1 || rewrite H2; reflexivity.
Qed.
Print Assumptions C56_single_refuted.

(** * C57: directives *)
Lemma start_agrees w root : agrees w (opened w root).
Proof. split; intros ? ? H; discriminate H. Qed.
(** A file that is the text of a document gives the tokens that the document stands for, and the record of what it asked. *)
Theorem C57_document : forall w root d ts st, sound_world w -> shaped d -> content w (clean w root) = Some (text d) ->
  runs w 0 (clean w root) (opened w root) d ts st -> parse w root (Done (ts, st)).
Proof.
  intros w root d ts st Hw Sh C R. apply (parse_yields _ _ _ _ C).
  destruct (runs_yields w Hw _ _ _ _ _ _ R Sh (proj1 Hw _) (start_agrees w root)) as (_ & G).
  specialize (G [] 0 (Done ([], st)) (le_n 0) (yields_end w 0 (clean w root) st [] 0 (le_n 0))). cbn [emit bind fst snd] in G. now rewrite !app_nil_r in G.
Qed.
Print Assumptions C57_document.
Lemma true_agrees w st : true_record w st -> agrees w st.
Proof. intros (A & B). split; intros k x H; [apply A|apply B]; now apply lookup_in. Qed.
(** In a part that is not taken anything can stand that has the shape of a document: it makes no difference.  [s]: the rest of the file. *)
Theorem C57_untaken : forall w depth file st h c b1 b2 t s, sound_world w -> In "/" file -> true_record w st -> head_ok h -> says h (L "if") (cond_tokens c) -> cond_ok c -> ~ cond_true w file st c ->
  shaped b1 -> shaped b2 -> tail_shaped t -> forall x,
  reading w depth file st (text (If h c b1 t Nil) ++ s) x <-> reading w depth file st (text (If h c b2 t Nil) ++ s) x.
Proof.
  intros w depth file st h c b1 b2 t s Hw Hf A%true_agrees H Sy Ok Nc S1 S2 St x. split.
  - apply (untaken w depth file st h c b1 b2 t s 0 x Hw Hf A H Sy Ok Nc S1 S2 St). lia.
  - apply (untaken w depth file st h c b2 b1 t s 0 x Hw Hf A H Sy Ok Nc S2 S1 St). lia.
Qed.
Print Assumptions C57_untaken.
(** A condition with more than 255 operands is refused. *)
Theorem C57_many : forall w depth file st h c s, sound_world w -> In "/" file -> true_record w st -> head_ok h -> says h (L "if") (cond_tokens c) ->
  c <> [] -> Forall (fun g => g <> []) c -> 255 < List.length (concat c) -> reading w depth file st (line_of h (L "if") ++ s) Fail.
Proof.
  intros w depth file st h c s Hw Hf A%true_agrees H Sy Nc Fc Lc.
  assert (Y : yields w depth file st (line_of h (L "if") ++ s) 0 Fail).
  { apply yields_directive with (args := cond_tokens c); [exact H|apply w_if|exact Sy|lia|discriminate|]. exists 0. cbn [direct]. names. rewrite (if_expr_many w file Hw Hf true st c A Nc Fc Lc). reflexivity. }
  exact Y.
Qed.
Print Assumptions C57_many.

(** * C58: include *)
(** A file that includes itself, without #once, is refused. *)
Theorem C58_cycle : forall w root h p s, In "/" (clean w root) -> head_ok h -> says h (L "include") [TStr p] ->
  clean w (beside (clean w root) p) = clean w root -> content w (clean w root) = Some (line_of h (L "include") ++ s) -> parse w root Fail.
Proof.
  intros w root h p s Hf H Sy Cl C. apply (parse_yields _ _ _ _ C). eapply (cycle_refused w (clean w root) h p s Hf H Sy Cl C 128); [lia|].
  cbn [files opened with_files lookup]. now rewrite seqb_refl.
Qed.
Print Assumptions C58_cycle.
(** A file whose #once has been met is known from then on, ... *)
Theorem C58_once_met : forall w depth file st h k ts st', sound_world w -> head_ok h -> shaped k -> In "/" file ->
  true_record w st ->
  In file (map fst (files st)) -> runs w depth file st (Command h (L "once") k) ts st' -> once_known st' file.
Proof. intros w depth file st h k ts st' Hw H Sk Hf A%true_agrees I R. eapply once_marks; eassumption. Qed.
Print Assumptions C58_once_met.
(** ... whatever is read after that, ... *)
Theorem C58_once_stays : forall w depth file st s ts st' f, reading w depth file st s (Done (ts, st')) -> once_known st f -> once_known st' f.
Proof. intros w depth file st s ts st' f (_ & fuel & H). eapply tok_once; eassumption. Qed.
Print Assumptions C58_once_stays.
(** ... and including it again adds nothing. *)
Theorem C58_once_again : forall w depth file st h p s x, sound_world w -> In "/" file -> S depth < 128 -> head_ok h -> says h (L "include") [TStr p] ->
  once_known st (clean w (beside file p)) ->
  reading w depth file st s x -> reading w depth file st (line_of h (L "include") ++ s) x.
Proof.
  intros w depth file st h p s x Hw Hf Ld H Sy K (Nx & f & Y).
  assert (G : yields w depth file st (line_of h (L "include") ++ s) 0 x); [|exact G].
  apply yields_directive with (args := [TStr p]); [exact H|word|exact Sy|lia|exact Nx|]. exists f. rewrite direct_include. destruct (Nat.leb_spec 128 (S depth)); [lia|].
  unfold open_file. rewrite (expand_beside _ _ Hf). apply once_lookup in K. rewrite K. cbn [bind fst snd none_left]. now rewrite emit_nil.
Qed.
Print Assumptions C58_once_again.

(** * C59: import *)
(** "#import X" gives the assignment of a string to .X which stands for exactly the value of X, in any scope. *)
Theorem C59_import : forall w root h v x, sound_world w -> head_ok h -> says h (L "import") [TId v] -> env w v = Some x ->
  content w (clean w root) = Some (line_of h (L "import")) ->
  exists t st, parse w root (Done ([TVar ("." :: v); TOp OAssign; TStr t], st)) /\ (forall scopes, M_Scope.subst scopes t = M_Scope.Good x).
Proof.
  intros w root h v x Hw H Sy Ev C. exists (literally x). eexists. split; [|intro; apply subst_literally].
  apply (C57_document w root (Command h (L "import") Nil)); [exact Hw| | |].
  - cbn [shaped]. repeat split; try apply H; [discriminate|repeat constructor; cbn; lia|]. cbn. intuition discriminate.
  - cbn [text]. now rewrite app_nil_r.
  - eapply u_import; [exact Sy|exact Ev|apply u_nil].
Qed.
Print Assumptions C59_import.
(** A variable that is not set is an error. *)
Theorem C59_unset : forall w root h v s, head_ok h -> says h (L "import") [TId v] -> env w v = None ->
  content w (clean w root) = Some (line_of h (L "import") ++ s) -> parse w root Fail.
Proof. intros w root h v s H Sy Ev C. apply (parse_yields _ _ _ _ C). apply (import_unset w 0 _ _ h v s 0 H Sy Ev). lia. Qed.
Print Assumptions C59_unset.

(** * C60: all that the result depends on is recorded *)
(** In another environment that says the same about what is recorded, the result is the same. *)
Theorem C60_nothing_else : forall w1 w2 root ts st, same_tools w1 w2 -> parse w1 root (Done (ts, st)) -> same_on st w1 w2 -> parse w2 root (Done (ts, st)).
Proof.
  intros w1 w2 root ts st T (_ & f & H) Sm. split; [discriminate|]. exists f. unfold tokenize in *.
  exact (proj2 (open_ext w1 w2 T 0 start root (tok f w1) (tok f w2) (tok_ext w1 w2 T f) ts st H) Sm).
Qed.
Print Assumptions C60_nothing_else.
(** The record is true. *)
Theorem C60_true : forall w root ts st, parse w root (Done (ts, st)) -> true_record w st.
Proof.
  intros w root ts st (_ & f & H).
  destruct (open_ext w w (conj eq_refl (conj eq_refl eq_refl)) 0 start root (tok f w) (tok f w) (tok_ext w w (conj eq_refl (conj eq_refl eq_refl)) f) ts st H) as ((_ & _ & _ & _ & _ & X) & _).
  apply X. split; intros ? ? [].
Qed.
Print Assumptions C60_true.

(** * Cases *)
Lemma no_hash s : at_line_start s -> ~ In "#" s -> plain_text s.
Proof. intros A N. split; [exact A|]. intros a b r -> _ _. apply N. apply in_or_app. right. apply in_or_app. right. now left. Qed.
Ltac inlist := cbn; tauto.
Ltac nope := let Q := fresh in intro Q; decompose [or] Q; try discriminate; lia.
Ltac rw W T R := apply (r_word _ _ (L W) T R); [eexists; eexists; split; [reflexivity|]; split; [unfold letter, from_to; cbn; lia|repeat constructor; unfold name_char, letter, is_digit, from_to; cbn; lia]
  |unfold not_next, name_char, letter, is_digit, from_to; cbn; (exact I || nope)| |].
Ltac sp := apply r_space; [unfold space; tauto|].
Ltac br := apply r_bracket; [inlist|].
Ltac fin := apply r_end; left; reflexivity.

Definition demo : str := L ".A=-7 //c" ++ [LF] ++ L "If(B)".
Example C56_case : means demo [TVar (L ".A"); TOp OAssign; TNum (-7); TFun (L "If"); TBrace "("; TId (L "B"); TBrace ")"] [].
Proof.
  apply (r_variable _ _ "." (L "A") (L "=-7 //c" ++ [LF] ++ L "If(B)")); [now left|discriminate|repeat constructor; unfold letter, from_to; cbn; lia|unfold not_next, name_char, letter, is_digit, from_to; cbn; nope|].
  apply (r_operator _ _ "=" OAssign (L "-7 //c" ++ [LF] ++ L "If(B)")); [inlist|cbn; intros o Q; decompose [or] Q; try discriminate; contradiction|discriminate|].
  apply (r_number _ _ (L "-7") (-7) (L " //c" ++ [LF] ++ L "If(B)")); [apply (n_minus (L "7")); [split; [discriminate|split; [apply Forall_cons; [unfold is_digit, from_to; cbn; lia|apply Forall_nil]|right; discriminate]]|vm_compute; split; discriminate]|vm_compute; lia|intros [Q|Q]; discriminate|].
  sp. apply (r_comment _ _ (L "//") (L "c") (L "If(B)")); [now left|cbn; intuition discriminate|].
  rw "If"%string (TFun (L "If")) (L "(B)"); [apply w_function; inlist|]. br.
  rw "B"%string (TId (L "B")) (L ")"); [apply w_other; cbn; intuition discriminate|]. br. fin.
Qed.

Definition hd_ (r : String.string) : head := {| indent := L " "; gap := []; rest := L r |}.
Definition demo_cond : cond := [[(false, Macro (L "X")); (true, Macro (L "Y"))]; [(false, Variable_set (L "H"))]].
Definition demo_doc : doc :=
  Command (hd_ " X") (L "define") (If (hd_ " X&&!Y||exists(H)") demo_cond (Text (L "If" ++ [LF]) Nil) (Else (hd_ "") (Text (L "'oops" ++ [LF]) Nil) (hd_ "")) Nil).
Definition demo_world (s : str) : world :=
  {| env := fun v => if list_eq_dec ascii_dec v (L "H") then Some (L "a$^b") else None; content := fun _ => Some s; present := fun _ => false; clean := fun f => match f with "/" :: _ => f | _ => "/" :: f end; h32 := fun _ => 5%N; predef := [L "__LINUX__"] |}.
Lemma demo_sound s : sound_world (demo_world s).
Proof.
  split; [intro f|intros; discriminate]. cbn. destruct f as [|[[] [] [] [] [] [] [] []] f]; now left.
Qed.
Lemma hd_ok r : not_next name_char (L r) -> ~ In LF (L r) -> head_ok (hd_ r).
Proof. intros A B. repeat split; auto; repeat constructor. Qed.
Ltac headok := apply hd_ok; [unfold not_next, name_char, letter, is_digit, from_to; cbn; (exact I || nope)|cbn; intuition discriminate].
Lemma demo_shaped : shaped demo_doc.
Proof.
  cbn [shaped demo_doc tail_shaped]. split; [headok|]. split; [split; [discriminate|split; [repeat constructor; cbn; lia|cbn; intuition discriminate]]|].
  split; [headok|]. split; [split; [|exact I]; apply no_hash; [right; exists (L "If"); reflexivity|cbn; intuition discriminate]|]. split; [|exact I].
  split; [headok|]. split; [apply no_hash; [right; exists []; reflexivity|cbn; intuition discriminate]|]. split; [|headok]. split; [|exact I]. apply no_hash; [right; exists (L "'oops"); reflexivity|cbn; intuition discriminate].
Qed.
Lemma demo_if : says (hd_ " X&&!Y||exists(H)") (L "if") (cond_tokens demo_cond).
Proof.
  unfold says. rw "if"%string (TKw (L "if")) (L " X&&!Y||exists(H)" ++ [LF]); [apply w_keyword; inlist|]. sp.
  rw "X"%string (TId (L "X")) (L "&&!Y||exists(H)" ++ [LF]); [apply w_other; cbn; intuition discriminate|]. apply r_pair; [inlist|].
  apply r_operator; [inlist|cbn; intros o Q; decompose [or] Q; try discriminate; contradiction|discriminate|].
  rw "Y"%string (TId (L "Y")) (L "||exists(H)" ++ [LF]); [apply w_other; cbn; intuition discriminate|]. apply r_pair; [inlist|].
  rw "exists"%string (TKw (L "exists")) (L "(H)" ++ [LF]); [apply w_keyword; inlist|]. br.
  rw "H"%string (TId (L "H")) (L ")" ++ [LF]); [apply w_other; cbn; intuition discriminate|]. br. sp. fin.
Qed.
(** The first part is taken; the string in the second is never closed. *)
Example C57_case : exists st, runs (demo_world (text demo_doc)) 0 (L "/r") (opened (demo_world (text demo_doc)) (L "r")) demo_doc [TFun (L "If")] st
  /\ parse (demo_world (text demo_doc)) (L "r") (Done ([TFun (L "If")], st)).
Proof.
  set (w := demo_world (text demo_doc)).
  assert (R : exists st, runs w 0 (L "/r") (opened w (L "r")) demo_doc [TFun (L "If")] st).
  { eexists. unfold demo_doc. eapply u_define.
    - unfold says. rw "define"%string (TKw (L "define")) (L " X" ++ [LF]); [apply w_keyword; inlist|]. sp. rw "X"%string (TId (L "X")) [LF]; [apply w_other; cbn; intuition discriminate|]. sp. fin.
    - intros [].
    - cbn. intuition discriminate.
    - eapply (u_if_yes w 0 (L "/r") _ _ _ _ _ _ [TFun (L "If")] _ [] _ demo_if).
      + split; [discriminate|]. split; [repeat constructor; discriminate|cbn; lia].
      + left. constructor; [left; now left|]. constructor; [|constructor]. cbn. intuition discriminate.
      + exact I.
      + eapply (u_text w 0 (L "/r") _ _ _ [TFun (L "If")] []); [|apply u_nil]. rw "If"%string (TFun (L "If")) [LF]; [apply w_function; inlist|]. sp. fin.
      + apply u_nil. }
  destruct R as (st & R). exists st. split; [exact R|]. apply (C57_document w (L "r") demo_doc); [apply demo_sound|apply demo_shaped|reflexivity|exact R].
Qed.
(** A world in which the variable has characters that are special in strings. *)
Example C59_case : exists t st, parse (demo_world (line_of (hd_ " H") (L "import"))) (L "r") (Done ([TVar (L ".H"); TOp OAssign; TStr t], st)) /\ t = L "a^$^^b".
Proof.
  set (w := demo_world (line_of (hd_ " H") (L "import"))).
  assert (Sy : says (hd_ " H") (L "import") [TId (L "H")]).
  { unfold says. rw "import"%string (TKw (L "import")) (L " H" ++ [LF]); [apply w_keyword; inlist|]. sp. rw "H"%string (TId (L "H")) [LF]; [apply w_other; cbn; intuition discriminate|]. sp. fin. }
  exists (L "a^$^^b"). eexists. split; [|reflexivity]. split; [discriminate|]. exists 9. vm_compute. reflexivity.
Qed.
(** A file that includes itself. *)
Example C58_case : parse (demo_world (line_of (hd_ " 'r'") (L "include"))) (L "r") Fail.
Proof.
  apply (C58_cycle _ _ (hd_ " 'r'") (L "r") []); [now left|headok| |reflexivity|now rewrite app_nil_r].
  unfold says. rw "include"%string (TKw (L "include")) (L " 'r'" ++ [LF]); [apply w_keyword; inlist|]. sp. apply (r_string _ _ SQ (L "r")); [now left| |sp; fin].
  apply b_char; [discriminate|discriminate|unfold line_end; intuition discriminate|constructor].
Qed.
(** Another world with the same result: it differs in what was not asked. *)
Example C60_case : exists w1 w2 st, same_tools w1 w2 /\ env w1 (L "Z") <> env w2 (L "Z") /\ parse w1 (L "r") (Done ([TFun (L "If")], st)) /\ same_on st w1 w2 /\ imported st = [(L "H", 5%N)].
Proof.
  set (w1 := demo_world (text demo_doc)).
  set (w2 := {| env := fun v => if list_eq_dec ascii_dec v (L "Z") then Some [] else env w1 v; content := content w1; present := present w1; clean := clean w1; h32 := h32 w1; predef := predef w1 |}).
  exists w1, w2. assert (P : exists st, parse w1 (L "r") (Done ([TFun (L "If")], st)) /\ imported st = [(L "H", 5%N)] /\ checked st = []).
  { eexists. split; [split; [discriminate|]; exists 20; vm_compute; reflexivity|]. split; reflexivity. }
  destruct P as (st & P & I & Ck). exists st. split; [repeat split|]. split; [discriminate|]. split; [exact P|]. split; [|exact I]. split; [|split].
  - rewrite I. cbn [map fst]. intros v [<-|[]]. reflexivity.
  - rewrite Ck. intros f [].
  - reflexivity.
Qed.
(** With #once it includes itself without harm. *)
Example C58_once_case : exists st, parse (demo_world (line_of (hd_ "") (L "once") ++ line_of (hd_ " 'r'") (L "include") ++ L "If")) (L "r") (Done ([TFun (L "If")], st)) /\ once_known st (L "/r").
Proof. eexists. split; [split; [discriminate|]; exists 20; vm_compute; reflexivity|]. exists [], []. split; [reflexivity|intros []]. Qed.
