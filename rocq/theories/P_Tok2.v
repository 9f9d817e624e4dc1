(** The tokenizer reads what the lexical grammar says. *)
From Coq Require Import String List Arith NArith ZArith Bool Ascii Lia.
From Verif Require Import M_Path M_Cond M_Tok S_Tok P_Tok.
Import ListNotations.
Open Scope char_scope.
Open Scope nat_scope.

Definition plain (c : ascii) : bool := negb (white c || Ascii.eqb c "/" || Ascii.eqb c ";").
Definition not_text (c : ascii) : bool := plain c && negb (id_start c) && negb (var_start c) && negb (str_start c).
Definition no_op2 (c : ascii) : bool := negb (Ascii.eqb c "=" || Ascii.eqb c "!" || Ascii.eqb c "<" || Ascii.eqb c ">" || Ascii.eqb c "&" || Ascii.eqb c "|").
Lemma classes c :
  implb (id_start c) (plain c) && implb (var_start c) (plain c && negb (id_start c)) &&
  implb (str_start c) (plain c && negb (id_start c) && negb (var_start c)) &&
  implb (op_char c) (not_text c) && implb (digit c) (not_text c && negb (op_char c) && no_op2 c) && implb (Ascii.eqb c "-") (no_op2 c) &&
  implb (Ascii.eqb c ",") (not_text c && negb (op_char c) && no_op2 c && negb (digit c)) &&
  implb (brace_char c) (not_text c && negb (op_char c) && no_op2 c && negb (digit c) && negb (Ascii.eqb c ",")) &&
  implb (Ascii.eqb c "#") (not_text c && negb (op_char c) && no_op2 c && negb (digit c) && negb (Ascii.eqb c ",") && negb (brace_char c)) = true.
Proof. destruct c as [b0 b1 b2 b3 b4 b5 b6 b7]. destruct b0, b1, b2, b3, b4, b5, b6, b7; reflexivity. Qed.
Lemma plain_comment c r : plain c = true -> white c = false /\ at_comment (c :: r) = false.
Proof.
  unfold plain. intro H. apply negb_true_iff in H. apply orb_false_iff in H as (H & S2). apply orb_false_iff in H as (H & S1).
  split; [exact H|]. unfold at_comment. now rewrite S1, S2.
Qed.
Lemma no_op2_none c d : no_op2 c = true -> op2 c d = None.
Proof.
  unfold no_op2, op2. intro H. apply negb_true_iff in H. repeat (apply orb_false_iff in H as (H & ?)). 
  repeat match goal with E : Ascii.eqb c _ = false |- _ => rewrite E; clear E end. cbn [andb]. destruct (Ascii.eqb d "="); reflexivity.
Qed.
Ltac classify c :=
  let H := fresh "Cl" in pose proof (classes c) as H; repeat (apply andb_true_iff in H as (H & ?)).
Ltac use H := match goal with
  | I : implb _ _ = true |- _ => rewrite H in I; cbn [implb] in I; repeat (apply andb_true_iff in I as (I & ?)) end.

Lemma implb_use a b : implb a b = true -> a = true -> b = true. Proof. destruct a, b; auto. Qed.
(** The facts about a character of a class. *)
Ltac facts c Hc :=
  let H := fresh "Cl" in
  pose proof (classes c) as H; repeat (apply andb_true_iff in H as (H & ?));
  repeat match goal with
         | I : implb ?a ?b = true |- _ =>
             first [ (let J := fresh in pose proof (implb_use a b I Hc) as J; clear I; repeat (apply andb_true_iff in J as (J & ?))) | clear I ]
         end;
  unfold not_text in *; repeat match goal with I : _ && _ = true |- _ => apply andb_true_iff in I as (I & ?) end;
  repeat match goal with I : negb _ = true |- _ => apply negb_true_iff in I end.

Lemma lex_word e c w s : letter c -> Forall name_char w -> not_next name_char s -> lex e ((c :: w) ++ s) = Lexeme (word_token (c :: w)) s.
Proof.
  intros Hc F N. apply id_start_iff in Hc. facts c Hc. match goal with P : plain c = true |- _ => destruct (plain_comment c (w ++ s) P) as (W & C) end.
  cbn [app]. unfold lex. rewrite W, C, Hc. rewrite span_app; [reflexivity| |].
  - eapply Forall_impl; [|exact F]. intros a. apply id_char_iff.
  - destruct s as [|d s]; [exact I|]. apply (iff_false _ _ (id_char_iff d)). exact N.
Qed.
Lemma lex_variable e p w s : p = "." \/ p = "^" -> w <> [] -> Forall name_char w -> not_next name_char s ->
  lex e (p :: w ++ s) = Lexeme (TVar (p :: w)) s.
Proof.
  intros Hp Ne F N. apply var_start_iff in Hp. facts p Hp. match goal with P : plain p = true |- _ => destruct (plain_comment p (w ++ s) P) as (W & C) end.
  destruct w as [|q w]; [congruence|]. inversion F as [|? ? Hq Fw]; subst. apply id_char_iff in Hq.
  assert (SS : str_start q = false).
  { destruct (str_start q) eqn:E; [|reflexivity]. facts q E. unfold id_char in Hq. apply orb_true_iff in Hq as [Hq|Hq].
    - change (id_start q = true) in Hq. congruence.
    - facts q Hq. congruence. }
  unfold lex. cbn [app] in *. rewrite W, C, Hp.
  match goal with I : id_start p = false |- _ => rewrite I end. rewrite SS, Hq.
  change (q :: w ++ s) with ((q :: w) ++ s). rewrite span_app; [reflexivity| |].
  - eapply Forall_impl; [|exact F]. intros a. apply id_char_iff.
  - destruct s as [|d s]; [exact I|]. apply (iff_false _ _ (id_char_iff d)). exact N.
Qed.
Lemma quoted_body q b s : quote q -> body q b -> quoted q false (b ++ q :: s) = Some (b, s).
Proof.
  intros Q. assert (Eq : at_eol q = false) by (destruct Q as [->| ->]; reflexivity). assert (Nq : Ascii.eqb "^" q = false) by (destruct Q as [->| ->]; reflexivity).
  induction 1 as [|c b Hq Hc Hl B IH|c b Hl B IH]; cbn [app quoted].
  - rewrite Eq, Ascii.eqb_refl. reflexivity.
  - apply (iff_false _ _ (at_eol_iff c)) in Hl. rewrite Hl. apply Ascii.eqb_neq in Hq. rewrite Hq. apply Ascii.eqb_neq in Hc. rewrite Hc. cbn [andb negb]. now rewrite IH.
  - apply (iff_false _ _ (at_eol_iff c)) in Hl. change (at_eol "^") with false. cbn iota. rewrite Nq. change (negb false && false) with false. cbn iota. rewrite Hl.
    change (negb (negb false && Ascii.eqb "^" "^")) with false. cbn [andb]. cbn iota. now rewrite IH.
Qed.
Lemma lex_quoted_variable e p q b s : p = "." \/ p = "^" -> quote q -> body q b -> lex e (p :: q :: b ++ q :: s) = Lexeme (TVar (p :: q :: b ++ [q])) s.
Proof.
  intros Hp Q B. apply var_start_iff in Hp. facts p Hp. match goal with P : plain p = true |- _ => destruct (plain_comment p (q :: b ++ q :: s) P) as (W & C) end.
  unfold lex. rewrite W, C, Hp. match goal with I : id_start p = false |- _ => rewrite I end.
  pose proof Q as Q'. apply str_start_iff in Q'. rewrite Q', quoted_body by assumption. reflexivity.
Qed.
Lemma lex_string e q b s : quote q -> body q b -> lex e (q :: b ++ q :: s) = Lexeme (TStr b) s.
Proof.
  intros Q B. pose proof Q as Q'. apply str_start_iff in Q'. facts q Q'. match goal with P : plain q = true |- _ => destruct (plain_comment q (b ++ q :: s) P) as (W & C) end.
  unfold lex. rewrite W, C, Q'. repeat match goal with I : _ q = false |- _ => rewrite I; clear I end. rewrite quoted_body by assumption. reflexivity.
Qed.
Lemma lex_past e c r : not_text c = true -> lex e (c :: r) =
        match (if e <? List.length r then op2 c (peek r) else None) with
        | Some o => Lexeme (TOp o) (tl r)
        | None =>
            if op_char c && negb (Ascii.eqb c "-" && digit (peek r)) then Lexeme (TOp (op1 c)) r
            else if digit c || Ascii.eqb c "-" then Lexeme (TNum (scan_i (c :: r))) (snd (span digit r))
            else if Ascii.eqb c "," then Lexeme TComma r
            else if brace_char c then Lexeme (TBrace c) r
            else if Ascii.eqb c "#" then Directive r
            else Bad
        end.
Proof.
  intro H. unfold not_text in H. repeat (apply andb_true_iff in H as (H & ?)). destruct (plain_comment c r H) as (W & C).
  repeat match goal with I : negb _ = true |- _ => apply negb_true_iff in I end. unfold lex. rewrite W, C.
  repeat match goal with I : _ c = false |- _ => rewrite I; clear I end. reflexivity.
Qed.
Lemma lex_pair e a b o s : In ((a, b), o) two_char -> e <= List.length s -> lex e (a :: b :: s) = Lexeme (TOp o) s.
Proof.
  intros H He. cbn [two_char In] in H.
  assert (Lt : e <? List.length (b :: s) = true) by (apply Nat.ltb_lt; cbn [List.length]; lia).
  decompose [or] H; try contradiction; match goal with E : _ = (_, _, _) |- _ => injection E as <- <- <- end; rewrite lex_past by reflexivity; rewrite Lt; reflexivity.
Qed.
Lemma lex_comma e s : lex e ("," :: s) = Lexeme TComma s.
Proof. rewrite lex_past by reflexivity. destruct (e <? _); [|reflexivity]. rewrite no_op2_none by reflexivity. reflexivity. Qed.
Lemma lex_hash e s : lex e ("#" :: s) = Directive s.
Proof. rewrite lex_past by reflexivity. destruct (e <? _); [|reflexivity]. rewrite no_op2_none by reflexivity. reflexivity. Qed.
Lemma lex_bracket e c s : bracket c -> lex e (c :: s) = Lexeme (TBrace c) s.
Proof.
  intro B. unfold bracket in B. cbn [In] in B. decompose [or] B; try contradiction; subst c; rewrite lex_past by reflexivity;
    (destruct (e <? _); [|reflexivity]); rewrite no_op2_none by reflexivity; reflexivity.
Qed.
Lemma two_char_op2 a d : (forall o, ~ In ((a, d), o) two_char) -> op2 a d = None.
Proof.
  intro H. unfold op2. destruct (Ascii.eqb_spec d "=") as [->|].
  - destruct (Ascii.eqb_spec a "=") as [->|]; [exfalso; apply (H OEq); cbn; tauto|].
    destruct (Ascii.eqb_spec a "!") as [->|]; [exfalso; apply (H ONe); cbn; tauto|].
    destruct (Ascii.eqb_spec a "<") as [->|]; [exfalso; apply (H OLe); cbn; tauto|].
    destruct (Ascii.eqb_spec a ">") as [->|]; [exfalso; apply (H OGe); cbn; tauto|]. reflexivity.
  - destruct (Ascii.eqb_spec a "&") as [->|]; cbn [andb].
    + destruct (Ascii.eqb_spec d "&") as [->|]; [exfalso; apply (H OAnd); cbn; tauto|]. cbn [andb]. reflexivity.
    + destruct (Ascii.eqb_spec a "|") as [->|]; cbn [andb]; [|reflexivity].
      destruct (Ascii.eqb_spec d "|") as [->|]; [exfalso; apply (H OOr); cbn; tauto|]. reflexivity.
Qed.
Lemma no_pair_op2 a s : no_pair a s -> op2 a (peek s) = None.
Proof.
  destruct s as [|d s]; cbn [no_pair peek]; [intros _|apply two_char_op2]. unfold op2. change (Ascii.eqb nul "=") with false. cbn iota.
  change (Ascii.eqb nul "&") with false. change (Ascii.eqb nul "|") with false. rewrite !andb_false_r. reflexivity.
Qed.
Lemma lex_operator e a o s : In (a, o) one_char -> no_pair a s -> (a = "-" -> not_next is_digit s) -> lex e (a :: s) = Lexeme (TOp o) s.
Proof.
  intros H N D.
  assert (Z : (if e <? List.length s then op2 a (peek s) else None) = None) by (destruct (e <? _); [now apply no_pair_op2|reflexivity]).
  cbn [one_char In] in H. decompose [or] H; try contradiction; match goal with E : _ = (_, _) |- _ => injection E as <- <- end; rewrite lex_past by reflexivity; rewrite Z; try reflexivity.
  specialize (D eq_refl). cbn [op_char Ascii.eqb orb]. change (Ascii.eqb "-" "-") with true. cbn [andb].
  assert (P : digit (peek s) = false). { destruct s as [|d s]; [reflexivity|]. apply (iff_false _ _ (digit_iff d)). exact D. }
  rewrite P. reflexivity.
Qed.
Lemma lex_odd_operator e a s : a = "&" \/ a = "|" -> no_pair a s -> lex e (a :: s) = Lexeme (TOp OAssign) s.
Proof.
  intros H N.
  assert (Z : (if e <? List.length s then op2 a (peek s) else None) = None) by (destruct (e <? _); [now apply no_pair_op2|reflexivity]).
  destruct H as [->| ->]; rewrite lex_past by reflexivity; rewrite Z; reflexivity.
Qed.
(** Digits, perhaps after a minus sign. *)
Lemma lex_digits e w d s : w = d \/ w = "-" :: d -> d <> [] -> Forall is_digit d -> not_next is_digit s -> lex e (w ++ s) = Lexeme (TNum (scan_i (w ++ s))) s.
Proof.
  intros Hw Ne F N.
  assert (Sp : span digit (d ++ s) = (d, s)).
  { apply span_app; [eapply Forall_impl; [|exact F]; intros a; apply digit_iff|]. destruct s as [|x s]; [exact I|]. apply (iff_false _ _ (digit_iff x)). exact N. }
  destruct d as [|c d]; [congruence|]. inversion F as [|? ? Hc F']; subst. apply digit_iff in Hc.
  destruct Hw as [->| ->].
  - facts c Hc. cbn [app]. rewrite lex_past by (unfold not_text; rewrite !andb_true_iff, !negb_true_iff; tauto).
    assert (Z : (if e <? List.length (d ++ s) then op2 c (peek (d ++ s)) else None) = None) by (destruct (e <? _); [now apply no_op2_none|reflexivity]).
    rewrite Z. match goal with I : op_char c = false |- _ => rewrite I end. cbn [andb]. rewrite Hc. cbn [orb].
    cbn [app span] in Sp. rewrite Hc in Sp. injection Sp as _ Sp. now rewrite Sp.
  - cbn [app]. rewrite lex_past by reflexivity.
    assert (Z : (if e <? List.length (c :: d ++ s) then op2 "-" (peek (c :: d ++ s)) else None) = None) by (destruct (e <? _); [now apply no_op2_none|reflexivity]).
    rewrite Z. cbn [peek]. rewrite Hc. change (op_char "-" && negb (Ascii.eqb "-" "-" && true)) with false. cbn iota. change (digit "-" || Ascii.eqb "-" "-") with true. cbn iota.
    cbn [app] in Sp. rewrite Sp. reflexivity.
Qed.

(** * Numbers *)
Lemma digit_value_dval c : is_digit c -> digit_value c = dval c.
Proof.
  intro H. unfold digit_value, dval. apply digit_iff in H. rewrite H. unfold nat_of_ascii. now rewrite N_nat_Z.
Qed.
Lemma base_decimal w : Forall is_digit w -> base_value 10 w = decimal 0 w.
Proof.
  unfold base_value. generalize 0%Z. intros a F. revert a. induction F as [|c w Hc F IH]; intro a; [reflexivity|]. cbn [fold_left decimal].
  rewrite IH, digit_value_dval by assumption. reflexivity.
Qed.
Lemma dval_range c : is_digit c -> (0 <= dval c <= 9)%Z.
Proof. unfold is_digit, from_to, dval. change (nat_of_ascii "0") with 48. change (nat_of_ascii "9") with 57. lia. Qed.
Lemma decimal_pos a w : (0 <= a)%Z -> Forall is_digit w -> (a <= decimal a w)%Z.
Proof.
  intros Ha F. revert a Ha. induction F as [|c w Hc F IH]; intros a Ha; cbn [decimal]; [lia|]. apply dval_range in Hc. specialize (IH (a * 10 + dval c)%Z). lia.
Qed.
Lemma magnitude_proper w s : proper w -> not_next is_digit s -> (w = ["0"] -> not_next (fun c => c = "x" \/ c = "X") s) -> magnitude (w ++ s) = decimal 0 w.
Proof.
  intros (Ne & F & P) N X. destruct w as [|c w]; [congruence|]. cbn [app magnitude]. destruct (Ascii.eqb_spec c "0") as [->|Nz].
  - destruct P as [P|P]; [|cbn [hd] in P; congruence]. injection P as ->. specialize (X eq_refl). cbn [app].
    assert (E : Ascii.eqb (peek s) "x" || Ascii.eqb (peek s) "X" = false).
    { destruct s as [|d s]; [reflexivity|]. cbn [peek not_next] in *. apply orb_false_iff. split; apply Ascii.eqb_neq; tauto. }
    rewrite E.
    assert (O : fst (span oct_digit s) = []).
    { destruct s as [|d s]; [reflexivity|]. cbn [span]. destruct (oct_digit d) eqn:Od; [|reflexivity]. exfalso. cbn [not_next] in N. apply N.
      unfold oct_digit in Od. apply within_iff in Od. unfold is_digit, from_to in *. change (nat_of_ascii "0") with 48 in *. change (nat_of_ascii "9") with 57. change (nat_of_ascii "7") with 55 in Od. lia. }
    rewrite O. reflexivity.
  - change (c :: w ++ s) with ((c :: w) ++ s). rewrite span_app.
    + cbn [fst]. now apply base_decimal.
    + eapply Forall_impl; [|exact F]. intros a. apply digit_iff.
    + destruct s as [|d s]; [exact I|]. apply (iff_false _ _ (digit_iff d)). exact N.
Qed.
Lemma to_i32_fits z : fits z -> to_i32 z = z.
Proof. unfold fits, to_i32. intro H. rewrite Z.mod_small; [lia|]. change (2 ^ 31)%Z with 2147483648%Z. change (2 ^ 32)%Z with 4294967296%Z. lia. Qed.
Lemma scan_number w z s : number w z -> not_next is_digit s -> (w = ["0"] \/ w = ["-"; "0"] -> not_next (fun c => c = "x" \/ c = "X") s) -> scan_i (w ++ s) = z.
Proof.
  intros H N X. destruct H as [w P Ft|w P Ft].
  - pose proof (magnitude_proper w s P N (fun E => X (or_introl E))) as M. destruct P as (Ne & F & P). destruct w as [|c w]; [congruence|].
    inversion F as [|? ? Hc F']; subst. unfold scan_i. cbn [app] in *. destruct (Ascii.eqb_spec c "-") as [->|_].
    { exfalso. unfold is_digit, from_to in Hc. change (nat_of_ascii "-") with 45 in Hc. change (nat_of_ascii "0") with 48 in Hc. lia. }
    rewrite M. assert (decimal 0 (c :: w) <= 2147483647)%Z by (unfold fits in Ft; lia). rewrite Z.min_r; [now apply to_i32_fits|].
    change (2 ^ 63 - 1)%Z with 9223372036854775807%Z. lia.
  - assert (M : magnitude (w ++ s) = decimal 0 w) by (apply magnitude_proper; [exact P|exact N|]; intros ->; apply X; now right).
    unfold scan_i. cbn [app]. change (Ascii.eqb "-" "-") with true. cbn iota. rewrite M. unfold fits in Ft. rewrite Z.max_r; [now apply to_i32_fits|].
    change (- 2 ^ 63)%Z with (-9223372036854775808)%Z. lia.
Qed.
Lemma word_means_token w t : word_means w t -> word_token w = t.
Proof.
  intro H. unfold word_token.
  assert (KT : ~ In (L "true") keywords) by (cbn; intuition discriminate). assert (KF : ~ In (L "false") keywords) by (cbn; intuition discriminate).
  destruct H as [->| ->|I|I|N]; try reflexivity.
  - cbn [keyword_list map In] in I. decompose [or] I; try contradiction; subst w; reflexivity.
  - cbn [function_list map In] in I. decompose [or] I; try contradiction; subst w; reflexivity.
  - cbn [In] in N. destruct (seqb w (L "true")) eqn:E1; [apply seqb_eq in E1; subst w; tauto|].
    destruct (seqb w (L "false")) eqn:E2; [apply seqb_eq in E2; subst w; tauto|].
    destruct (among keywords w) eqn:E3. { apply among_in in E3. exfalso. apply N. right. right. apply in_or_app. left. cbn in E3 |- *. tauto. }
    destruct (among functions w) eqn:E4. { apply among_in in E4. exfalso. apply N. right. right. apply in_or_app. right. cbn in E4 |- *. tauto. }
    reflexivity.
Qed.
Lemma word_token_means w : word_means w (word_token w).
Proof.
  unfold word_token. destruct (seqb w (L "true")) eqn:E1; [apply seqb_eq in E1; now apply w_true|].
  destruct (seqb w (L "false")) eqn:E2; [apply seqb_eq in E2; now apply w_false|].
  destruct (among keywords w) eqn:E3. { apply among_in in E3. apply w_keyword. cbn in E3 |- *. tauto. }
  destruct (among functions w) eqn:E4. { apply among_in in E4. apply w_function. cbn in E4 |- *. tauto. }
  apply w_other. cbn [In]. rewrite in_app_iff. intros [E|[E|[E|E]]].
  - symmetry in E. apply seqb_eq in E. congruence.
  - symmetry in E. apply seqb_eq in E. congruence.
  - assert (In w keywords) by (cbn in E |- *; tauto). apply among_in in H. congruence.
  - assert (In w functions) by (cbn in E |- *; tauto). apply among_in in H. congruence.
Qed.
