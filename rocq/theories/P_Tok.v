(** Lemmas on the tokenizer: characters, one lexeme, fuel. *)
From Coq Require Import String List Arith NArith ZArith Bool Ascii Lia.
From Verif Require Import M_Path M_Cond M_Tok S_Tok.
Import ListNotations.
Open Scope char_scope.
Open Scope nat_scope.

Lemma seqb_eq a b : seqb a b = true <-> a = b.
Proof. unfold seqb. destruct (list_eq_dec ascii_dec a b); split; congruence. Qed.
Lemma seqb_refl a : seqb a a = true. Proof. now apply seqb_eq. Qed.
Lemma among_in l s : among l s = true <-> In s l.
Proof.
  unfold among. rewrite existsb_exists. split.
  - intros (x & I & E). apply seqb_eq in E. now subst.
  - intro I. exists s. split; [exact I|apply seqb_refl].
Qed.

(** * Characters *)
Lemma within_iff a b c : within a b c = true <-> from_to a b c.
Proof.
  unfold within, from_to, nat_of_ascii. rewrite andb_true_iff, !N.leb_le. lia.
Qed.
Lemma eqb_iff a b : Ascii.eqb a b = true <-> a = b.
Proof. apply Ascii.eqb_eq. Qed.
Lemma digit_iff c : digit c = true <-> is_digit c.
Proof. apply within_iff. Qed.
Lemma id_start_iff c : id_start c = true <-> letter c.
Proof. unfold id_start, upper_, lower_, under, letter. rewrite !orb_true_iff, !within_iff, eqb_iff. tauto. Qed.
Lemma id_char_iff c : id_char c = true <-> name_char c.
Proof.
  unfold id_char, name_char. change (upper_ c || lower_ c || under c) with (id_start c).
  rewrite orb_true_iff, id_start_iff, digit_iff. tauto.
Qed.
Lemma white_iff c : white c = true <-> space c.
Proof. unfold white, space. rewrite !orb_true_iff, !eqb_iff. tauto. Qed.
Lemma at_eol_iff c : at_eol c = true <-> line_end c.
Proof. unfold at_eol, line_end. rewrite !orb_true_iff, !eqb_iff. tauto. Qed.
Lemma str_start_iff c : str_start c = true <-> quote c.
Proof. unfold str_start, quote. rewrite !orb_true_iff, !eqb_iff. tauto. Qed.
Lemma var_start_iff c : var_start c = true <-> c = "." \/ c = "^".
Proof. unfold var_start. rewrite !orb_true_iff, !eqb_iff. tauto. Qed.
Lemma brace_char_iff c : brace_char c = true <-> bracket c.
Proof. unfold brace_char, bracket. rewrite !orb_true_iff, !eqb_iff. cbn [In]. intuition congruence. Qed.
Lemma not_true b : b <> true <-> b = false. Proof. destruct b; split; congruence. Qed.
Lemma iff_false b P : (b = true <-> P) -> (b = false <-> ~ P).
Proof. intros H. rewrite <- not_true, H. tauto. Qed.

(** * Spans *)
Lemma span_app p w s : Forall (fun c => p c = true) w -> (match s with [] => True | c :: _ => p c = false end) -> span p (w ++ s) = (w, s).
Proof.
  intros F N. induction F as [|c w Hc F IH]; cbn [app span].
  - destruct s as [|c s]; [reflexivity|]. cbn [span]. now rewrite N.
  - rewrite Hc. rewrite IH. reflexivity.
Qed.
Lemma span_split p s : s = fst (span p s) ++ snd (span p s).
Proof. induction s as [|c s IH]; [reflexivity|]. cbn [span]. destruct (p c); cbn [fst snd app]; congruence. Qed.
Lemma span_forall p s : Forall (fun c => p c = true) (fst (span p s)).
Proof. induction s as [|c s IH]; [constructor|]. cbn [span]. destruct (p c) eqn:E; cbn [fst]; constructor; assumption. Qed.
Lemma span_stop p s : match snd (span p s) with [] => True | c :: _ => p c = false end.
Proof. induction s as [|c s IH]; [exact I|]. cbn [span]. destruct (p c) eqn:E; cbn [snd]; [exact IH|exact E]. Qed.
Lemma span_length p s : List.length (snd (span p s)) <= List.length s.
Proof. induction s as [|c s IH]; [reflexivity|]. cbn [span]. destruct (p c); cbn [snd List.length]; lia. Qed.
Lemma skip_white_length s : List.length (skip_white s) <= List.length s.
Proof. apply span_length. Qed.
Lemma skip_blank_length s : List.length (skip_blank s) <= List.length s.
Proof. apply span_length. Qed.

(** [r] is what remains of [s]. *)
Definition rest_of (r s : str) : Prop := exists p, s = p ++ r.
Lemma rest_refl s : rest_of s s. Proof. now exists []. Qed.
Lemma rest_cons c r s : rest_of r s -> rest_of r (c :: s).
Proof. intros (p & ->). now exists (c :: p). Qed.
Lemma rest_trans a b c : rest_of a b -> rest_of b c -> rest_of a c.
Proof. intros (p & ->) (q & ->). exists (q ++ p). now rewrite app_assoc. Qed.
Lemma rest_length r s : rest_of r s -> List.length r <= List.length s.
Proof. intros (p & ->). rewrite app_length. lia. Qed.
Lemma rest_span p s : rest_of (snd (span p s)) s.
Proof. exists (fst (span p s)). apply span_split. Qed.
Lemma rest_tl s : rest_of (tl s) s.
Proof. destruct s as [|c s]; [apply rest_refl|]. exists [c]. reflexivity. Qed.
Lemma rest_of_tail c r s : rest_of (c :: r) s -> rest_of r s.
Proof. intros (p & ->). exists (p ++ [c]). now rewrite <- app_assoc. Qed.

Lemma next_line_rest e s : rest_of (next_line e s) s.
Proof.
  induction s as [|c s IH]; [apply rest_refl|]. cbn [next_line].
  destruct (List.length (c :: s) <=? e); [apply rest_refl|]. destruct (Ascii.eqb c LF); apply rest_cons; [apply rest_refl|exact IH].
Qed.
Lemma next_line_less e s : e < List.length s -> List.length (next_line e s) < List.length s.
Proof.
  destruct s as [|c s]; intro H; [cbn [List.length] in H; lia|]. cbn [next_line].
  destruct (Nat.leb_spec (List.length (c :: s)) e); [lia|]. destruct (Ascii.eqb c LF); cbn [List.length]; [lia|].
  pose proof (rest_length _ _ (next_line_rest e s)). lia.
Qed.
Lemma next_line_more e s : e <= List.length s -> e <= List.length (next_line e s).
Proof.
  induction s as [|c s IH]; intro H; [exact H|]. cbn [next_line].
  destruct (Nat.leb_spec (List.length (c :: s)) e); [exact H|]. cbn [List.length] in *. destruct (Ascii.eqb c LF); [lia|]. apply IH. lia.
Qed.
Lemma next_line_lf e b s : ~ In LF b -> e <= List.length s -> next_line e (b ++ LF :: s) = s.
Proof.
  intros N H. induction b as [|c b IH]; cbn [app next_line].
  - destruct (Nat.leb_spec (List.length (LF :: s)) e) as [Q|Q]; [cbn [List.length] in Q; lia|]. reflexivity.
  - destruct (Nat.leb_spec (List.length (c :: b ++ LF :: s)) e) as [Q|Q]; [cbn [List.length] in Q; rewrite app_length in Q; cbn [List.length] in Q; lia|].
    destruct (Ascii.eqb_spec c LF) as [->|]; [exfalso; apply N; left; reflexivity|]. apply IH. intro; apply N; right; assumption.
Qed.
Lemma next_line_none b : ~ In LF b -> next_line 0 b = [].
Proof.
  intros N. induction b as [|c b IH]; [reflexivity|]. cbn [next_line]. cbn [List.length Nat.leb].
  destruct (Ascii.eqb_spec c LF) as [->|]; [exfalso; apply N; left; reflexivity|]. apply IH. intro; apply N; right; assumption.
Qed.

Lemma quoted_rest q esc s b t : quoted q esc s = Some (b, t) -> rest_of t s /\ List.length t < List.length s.
Proof.
  revert esc b t. induction s as [|c s IH]; intros esc b t H; [discriminate|]. cbn [quoted] in H.
  destruct (at_eol c); [discriminate|]. destruct (negb esc && Ascii.eqb c q).
  - injection H as <- <-. split; [apply rest_cons, rest_refl|]. cbn [List.length]. lia.
  - destruct (quoted q _ s) as [[b' t']|] eqn:E; [|discriminate]. injection H as <- <-. destruct (IH _ _ _ E) as (A & B).
    split; [now apply rest_cons|]. cbn [List.length]. lia.
Qed.

(** Every lexeme moves on, within the text. *)
Definition moves (x : lexed) (s : str) : Prop :=
  match x with Bad => True | Skipped r | Lexeme _ r | Directive r => rest_of r s /\ List.length r < List.length s end.
Lemma lex_moves e s : e < List.length s -> moves (lex e s) s.
Proof.
  destruct s as [|c r]; intro He; [cbn [List.length] in He; lia|]. unfold lex.
  assert (R : forall x, rest_of x r -> rest_of x (c :: r) /\ List.length x < List.length (c :: r)).
  { intros x Hx. split; [now apply rest_cons|]. apply rest_length in Hx. cbn [List.length]. lia. }
  destruct (white c) eqn:W.
  { unfold moves, skip_white. cbn [span]. rewrite W. cbn [snd]. apply R, rest_span. }
  destruct (at_comment (c :: r)).
  { split; [apply next_line_rest|now apply next_line_less]. }
  destruct (id_start c). { apply R, rest_span. }
  destruct (var_start c).
  { destruct r as [|q r']; [exact I|]. destruct (str_start q).
    - destruct (quoted q false r') as [[b t]|] eqn:Q; [|exact I]. apply quoted_rest in Q as (Q & _). apply R. now apply rest_cons.
    - destruct (id_char q); [|exact I]. apply R, rest_span. }
  destruct (str_start c).
  { destruct (quoted c false r) as [[b t]|] eqn:Q; [|exact I]. apply quoted_rest in Q as (Q & _). now apply R. }
  destruct (if e <? List.length r then op2 c (peek r) else None). { apply R, rest_tl. }
  destruct (op_char c && _). { apply R, rest_refl. }
  destruct (digit c || _). { apply R, rest_span. }
  destruct (Ascii.eqb c ","). { apply R, rest_refl. }
  destruct (brace_char c). { apply R, rest_refl. }
  destruct (Ascii.eqb c "#"). { apply R, rest_refl. } exact I.
Qed.

Lemma line_fuel f e s : List.length s <= f -> line f e s <> NoFuel.
Proof.
  revert s. induction f as [|f IH]; intros s H; cbn [line]; (destruct (Nat.leb_spec (List.length s) e) as [Q|Q]; [discriminate|]).
  - lia.
  - pose proof (lex_moves e s Q) as Mv. destruct (lex e s) as [r|t r|r|]; try discriminate; cbn [moves] in Mv.
    + apply IH. lia.
    + destruct (line f e r) eqn:E; try discriminate. intros _. apply (IH r); [lia|exact E].
Qed.
Lemma line_enough f f' e s : List.length s <= f -> List.length s <= f' -> line f e s = line f' e s.
Proof.
  revert f' s. induction f as [|f IH]; intros f' s H H'; destruct f' as [|f']; cbn [line]; (destruct (Nat.leb_spec (List.length s) e) as [Q|Q]; [reflexivity|]); try lia.
  pose proof (lex_moves e s Q) as Mv. destruct (lex e s) as [r|t r|r|]; try reflexivity; cbn [moves] in Mv.
  - apply IH; lia.
  - rewrite (IH f' r) by lia. reflexivity.
Qed.

(** * More fuel changes nothing *)
Definition better {A} (x y : res A) : Prop := x = NoFuel \/ y = x.
Lemma better_refl {A} (x : res A) : better x x. Proof. now right. Qed.
Lemma better_bind {A B} (x y : res A) (f g : A -> res B) : better x y -> (forall a, better (f a) (g a)) -> better (bind x f) (bind y g).
Proof. intros [->| ->] H; [now left|]. destruct x as [a| |]; cbn [bind]; [apply H|now right|now left]. Qed.
Lemma better_emit ts x y : better x y -> better (emit ts x) (emit ts y).
Proof. intro H. apply better_bind; [exact H|]. intro. apply better_refl. Qed.
Lemma better_none r x y : better x y -> better (none_left r x) (none_left r y).
Proof. intro H. destruct r; [exact H|apply better_refl]. Qed.
Definition better_rec (f g : nat -> str -> state -> str -> nat -> res (list token * state)) : Prop :=
  forall d fl st s e, better (f d fl st s e) (g d fl st s e).
Lemma better_open f g w d st x : better_rec f g -> better (open_file f w d st x) (open_file g w d st x).
Proof.
  intro H. unfold open_file. destruct (lookup (files st) (clean w x)) as [[|]|]; destruct (content w (clean w x)); try apply better_refl; apply H.
Qed.
Lemma better_direct f g w d fl st a s e : better_rec f g -> better (direct f w d fl st a s e) (direct g w d fl st a s e).
Proof.
  intro H. unfold direct. destruct a as [|t a]; [apply better_refl|]. destruct t as [b|k|x|x|x|x|o|z| |c]; try apply better_refl.
  destruct (seqb k (L "define")).
  { destruct a as [|t r]; [apply better_refl|]. destruct t; try apply better_refl. destruct (defined w st s0); [apply better_refl|]. apply better_none, H. }
  destruct (seqb k (L "undef")).
  { destruct a as [|t r]; [apply better_refl|]. destruct t; try apply better_refl. destruct (among (macros st) s0); [|apply better_refl]. apply better_none, H. }
  destruct (seqb k (L "once")). { apply better_none, H. }
  destruct (seqb k (L "import")).
  { destruct a as [|t r]; [apply better_refl|]. destruct t; try apply better_refl.
    destruct (import_var w st s0 false) as [[[|] h] st']; [|apply better_refl]. apply better_none, better_emit, H. }
  destruct (seqb k (L "include")).
  { destruct (128 <=? S d); [apply better_refl|]. destruct a as [|t r]; [apply better_refl|]. destruct t; try apply better_refl.
    apply better_bind; [now apply better_open|]. intros x. apply better_none, better_emit, H. }
  destruct (seqb k (L "if")); [|apply better_refl].
  apply better_bind; [apply better_refl|]. intros [[b rest] st1]. apply better_bind; [apply better_refl|]. intros [[r be] k1].
  apply better_bind; [apply better_refl|]. intros [[blk r2] st2]. apply better_bind.
  - destruct blk as [[t te]|]; [apply H|apply better_refl].
  - intros v. apply better_none, better_emit, H.
Qed.
Lemma better_body f g w d fl st s e : better_rec f g -> better (tok_body f w d fl st s e) (tok_body g w d fl st s e).
Proof.
  intro H. unfold tok_body. destruct (List.length s <=? e); [apply better_refl|]. destruct (lex e s); try apply better_refl.
  - apply H.
  - apply better_emit, H.
  - apply better_bind; [apply better_refl|]. intro. now apply better_direct.
Qed.
Lemma tok_better f w : better_rec (tok f w) (tok (S f) w).
Proof.
  induction f as [|f IH]; intros d fl st s e; [now left|]. change (tok (S f) w d fl st s e) with (tok_body (tok f w) w d fl st s e).
  change (tok (S (S f)) w d fl st s e) with (tok_body (tok (S f) w) w d fl st s e). now apply better_body.
Qed.
Lemma tok_more f f' w d fl st s e x : tok f w d fl st s e = x -> x <> NoFuel -> f <= f' -> tok f' w d fl st s e = x.
Proof.
  intros H N. induction 1 as [|f' _ IH]; [exact H|]. destruct (tok_better f' w d fl st s e); congruence.
Qed.

(** The result, whatever the fuel. *)
Definition yields (w : world) (d : nat) (fl : str) (st : state) (s : str) (e : nat) (x : res (list token * state)) : Prop :=
  x <> NoFuel /\ exists f, tok f w d fl st s e = x.
Lemma yields_unique w d fl st s e x y : yields w d fl st s e x -> yields w d fl st s e y -> x = y.
Proof.
  intros (N & f & F) (M & g & G). apply (tok_more f (f + g)) in F; [|exact N|lia]. apply (tok_more g (f + g)) in G; [|exact M|lia]. congruence.
Qed.
Lemma emit_fuel ts x : emit ts x <> NoFuel <-> x <> NoFuel.
Proof. unfold emit. destruct x; cbn [bind]; split; congruence. Qed.
Lemma yields_end w d fl st s e : List.length s <= e -> yields w d fl st s e (Done ([], st)).
Proof.
  intro H. split; [discriminate|]. exists 1. cbn [tok]. unfold tok_body. apply Nat.leb_le in H. now rewrite H.
Qed.
Lemma yields_skip w d fl st s e r x : e < List.length s -> lex e s = Skipped r -> yields w d fl st r e x -> yields w d fl st s e x.
Proof.
  intros H Lx (N & f & F). split; [exact N|]. exists (S f). cbn [tok]. unfold tok_body. apply Nat.leb_gt in H. now rewrite H, Lx.
Qed.
Lemma yields_lexeme w d fl st s e t r x : e < List.length s -> lex e s = Lexeme t r -> yields w d fl st r e x -> yields w d fl st s e (emit [t] x).
Proof.
  intros H Lx (N & f & F). split; [now apply emit_fuel|]. exists (S f). cbn [tok]. unfold tok_body. apply Nat.leb_gt in H. now rewrite H, Lx, F.
Qed.
Lemma yields_bad w d fl st s e : e < List.length s -> lex e s = Bad -> yields w d fl st s e Fail.
Proof.
  intros H Lx. split; [discriminate|]. exists 1. cbn [tok]. unfold tok_body. apply Nat.leb_gt in H. now rewrite H, Lx.
Qed.
(** Skipping white space first makes no difference. *)
Lemma yields_white w d fl st s e x : yields w d fl st s e x -> yields w d fl st (skip_white s) e x.
Proof.
  intros Y. destruct s as [|c s]; [exact Y|]. destruct (white c) eqn:W; [|unfold skip_white; cbn [span]; rewrite W; exact Y].
  destruct (Nat.leb_spec (List.length (c :: s)) e) as [Q|Q].
  - assert (x = Done ([], st)) by (eapply yields_unique; [exact Y|now apply yields_end]). subst x. apply yields_end.
    pose proof (skip_white_length (c :: s)). lia.
  - destruct Y as (N & f & F). split; [exact N|]. destruct f as [|f]; [cbn [tok] in F; congruence|]. exists f. cbn [tok] in F. unfold tok_body in F.
    apply Nat.leb_gt in Q. rewrite Q in F. unfold lex in F. rewrite W in F. exact F.
Qed.
Lemma yields_space w d fl st c s e x : space c -> e <= List.length s -> yields w d fl st s e x -> yields w d fl st (c :: s) e x.
Proof.
  intros Sp He Y. apply white_iff in Sp. apply (yields_skip w d fl st (c :: s) e (skip_white s)).
  - cbn [List.length]. lia.
  - unfold lex. rewrite Sp. f_equal. unfold skip_white. cbn [span]. now rewrite Sp.
  - now apply yields_white.
Qed.
