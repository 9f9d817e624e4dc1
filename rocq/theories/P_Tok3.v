(** The tokenizer and the lexical grammar, both ways. *)
From Coq Require Import String List Arith NArith ZArith Bool Ascii Lia.
From Verif Require Import M_Path M_Cond M_Tok S_Tok P_Tok P_Tok2.
Import ListNotations.
Open Scope char_scope.
Open Scope nat_scope.

Definition ends_line (s : str) : Prop := s = [] \/ exists t, s = t ++ [LF].
(** The text can be followed by x. *)
Definition closed (s r x : str) : Prop := r <> [] \/ ends_line s \/ x = [].

Section R.
Context {on : str -> str -> Z -> Prop} {oo : ascii -> oper -> Prop}.
Lemma reads_rest s ts r : reads on oo s ts r -> rest_of r s.
Proof.
  induction 1; try (now apply rest_refl); try (now apply rest_cons).
  - eapply rest_trans; [exact IHreads|]. exists (h ++ b ++ [LF]). now rewrite <- !app_assoc.
  - exists (h ++ b). now rewrite app_nil_r.
  - eapply rest_trans; [exact IHreads|]. now exists w.
  - apply rest_cons. eapply rest_trans; [exact IHreads|]. now exists w.
  - apply rest_cons, rest_cons. eapply rest_trans; [exact IHreads|]. exists (b ++ [q]). now rewrite <- app_assoc.
  - apply rest_cons. eapply rest_trans; [exact IHreads|]. exists (b ++ [q]). now rewrite <- app_assoc.
  - now apply rest_cons, rest_cons.
  - eapply rest_trans; [exact IHreads|]. now exists w.
  - eapply rest_trans; [exact IHreads|]. now exists w.
Qed.
Lemma reads_nil ts r : reads on oo [] ts r -> r = [].
Proof. intro H. apply reads_rest in H as (p & E). symmetry in E. apply app_eq_nil in E. tauto. Qed.

Lemma closed_tail w c s ts r x : closed (w ++ c :: s) r x -> c <> LF -> reads on oo s ts r -> closed s r x /\ (s = [] -> x = []).
Proof.
  intros C N R. destruct C as [C|[[C|(t & C)]|C]].
  - split; [now left|]. intros ->. apply reads_nil in R. congruence.
  - destruct w; discriminate.
  - destruct s as [|d s].
    + exfalso. apply app_inj_tail in C as (_ & C). congruence.
    + split; [|discriminate]. right. left. right.
      destruct (exists_last (l := d :: s) ltac:(discriminate)) as (u & y & E). rewrite E in C |- *. exists u.
      replace (w ++ c :: u ++ [y]) with ((w ++ c :: u) ++ [y]) in C by (rewrite <- app_assoc; reflexivity). apply app_inj_tail in C as (_ & ->). reflexivity.
  - split; [right; right; exact C|auto].
Qed.
Lemma closed_after_lf w s r x : closed (w ++ LF :: s) r x -> closed s r x.
Proof.
  intros [C|[[C|(t & C)]|C]].
  - now left.
  - destruct w; discriminate.
  - destruct s as [|d s]; [right; left; now left|]. right. left. right.
    destruct (exists_last (l := d :: s) ltac:(discriminate)) as (u & y & E). rewrite E in C |- *. exists u.
    replace (w ++ LF :: u ++ [y]) with ((w ++ LF :: u) ++ [y]) in C by (rewrite <- app_assoc; reflexivity). apply app_inj_tail in C as (_ & ->). reflexivity.
  - right; right; exact C.
Qed.
End R.

Lemma not_next_app P s x : not_next P s -> (s = [] -> x = []) -> not_next P (s ++ x).
Proof. destruct s as [|c s]; intros H E; [rewrite (E eq_refl); exact I|exact H]. Qed.
Lemma no_pair_app a s x : no_pair a s -> (s = [] -> x = []) -> no_pair a (s ++ x).
Proof. destruct s as [|c s]; intros H E; [rewrite (E eq_refl); exact I|exact H]. Qed.
Lemma emit_emit a b x : emit a (emit b x) = emit (a ++ b) x.
Proof. destruct x as [[ts st]| |]; cbn; [now rewrite app_assoc|reflexivity|reflexivity]. Qed.
Lemma emit_nil x : emit [] x = x.
Proof. destruct x as [[ts st]| |]; reflexivity. Qed.
Lemma name_not_lf c : name_char c -> c <> LF.
Proof. intros H ->. apply id_char_iff in H. discriminate. Qed.
Lemma digit_not_lf c : is_digit c -> c <> LF.
Proof. intros H ->. apply digit_iff in H. discriminate. Qed.
Lemma last_of (P : ascii -> Prop) w : w <> [] -> Forall P w -> exists u c, w = u ++ [c] /\ P c.
Proof.
  intros N F. destruct (exists_last N) as (u & c & ->). exists u, c. split; [reflexivity|]. apply Forall_app in F as (_ & F). now inversion F.
Qed.
Lemma number_digits w z : number w z -> exists d, (w = d \/ w = "-" :: d) /\ d <> [] /\ Forall is_digit d.
Proof. intros [u (N & F & _) _|u (N & F & _) _]; exists u; auto. Qed.
Lemma number_last w z : number w z -> exists u c, w = u ++ [c] /\ is_digit c.
Proof.
  intro H. destruct (number_digits _ _ H) as (d & E & N & F). destruct (last_of _ _ N F) as (u & c & -> & Hc).
  destruct E as [->| ->]; [exists u, c|exists ("-" :: u), c]; auto.
Qed.

(** What the text says is what the tokenizer finds, whatever follows. *)
Section Steps.
Variables (e : nat) (G : str -> list token -> Prop).
Hypothesis g_skip : forall s r ts, e < List.length s -> lex e s = Skipped r -> G r ts -> G s ts.
Hypothesis g_lexeme : forall s t r ts, e < List.length s -> lex e s = Lexeme t r -> G r ts -> G s (t :: ts).
Hypothesis g_space : forall c s ts, space c -> e <= List.length s -> G s ts -> G (c :: s) ts.
Lemma means_steps s ts r : means s ts r -> forall x tx, closed s r x -> e <= List.length (r ++ x) -> G (r ++ x) tx -> G (s ++ x) (ts ++ tx).
Proof.
  induction 1 as [r Hr|c s ts r Sp R IH|h b s ts r Hh Nb R IH|h b Hh Nb|v t s ts r Wd Nn Wm R IH|p v s ts r Hp Ne Fv Nn R IH|p q b s ts r Hp Hq B R IH
    |q b s ts r Hq B R IH|a b o s ts r Ho R IH|a o s ts r Ho Np Nm R IH|v z s ts r Hn Nn Nx R IH|s ts r R IH|c s ts r Hb R IH|v z s ts r [] Nn R IH|a o s ts r [] Np R IH];
    intros x tx Cl He Y.
  - exact Y.
  - cbn [app]. apply g_space; [exact Sp| |].
    + apply reads_rest in R. apply rest_length in R. rewrite app_length in *. lia.
    + apply IH; try assumption. destruct (ascii_dec c LF) as [->|Nl]; [now apply (closed_after_lf [])|]. eapply (closed_tail []); eassumption.
  - assert (Le : e <= List.length (s ++ x)) by (apply reads_rest in R; apply rest_length in R; rewrite app_length in *; lia).
    assert (Cl' : closed s r x). { apply (closed_after_lf (h ++ b)). rewrite <- app_assoc. exact Cl. }
    specialize (IH x tx Cl' He Y).
    assert (Nh : ~ In LF (h ++ b)). { rewrite in_app_iff. intros [I|I]; [|tauto]. destruct Hh as [->| ->]; cbn in I; intuition discriminate. }
    rewrite <- !app_assoc. cbn [app].
    apply (g_skip _ (s ++ x)); [rewrite !app_length; cbn [List.length]; lia| |exact IH].
    assert (Nl : next_line e (h ++ b ++ LF :: s ++ x) = s ++ x) by (rewrite app_assoc; apply next_line_lf; assumption).
    destruct Hh as [->| ->]; cbn [app L list_ascii_of_string] in *; unfold lex; cbn [white at_comment peek]; [change (white "/") with false|change (white ";") with false]; cbn iota;
      [change (("/" =? "/")%char && ("/" =? "/")%char || ("/" =? ";")%char) with true|change (((";" =? "/")%char && (peek (b ++ LF :: s ++ x) =? "/")%char) || (";" =? ";")%char) with true]; cbn iota; now rewrite Nl.
  - assert (x = []).
    { destruct Cl as [Cl|[[Cl|(t & Cl)]|Cl]]; [congruence| |  |exact Cl].
      - destruct Hh as [->| ->]; discriminate.
      - exfalso. assert (I : In LF (h ++ b)) by (rewrite Cl; apply in_or_app; right; left; reflexivity). apply in_app_or in I as [I|I]; [|tauto].
        destruct Hh as [->| ->]; cbn in I; intuition discriminate. }
    subst x. cbn [app List.length] in *. assert (e = 0) as E0 by lia. rewrite app_nil_r.
    assert (Nh : ~ In LF (h ++ b)). { rewrite in_app_iff. intros [I|I]; [|tauto]. destruct Hh as [->| ->]; cbn in I; intuition discriminate. }
    apply (g_skip _ []); [destruct Hh as [->| ->]; cbn; lia| |exact Y]. pose proof (next_line_none _ Nh) as Nl. rewrite E0.
    destruct Hh as [->| ->]; cbn [app L list_ascii_of_string] in *; unfold lex; cbn [white at_comment peek]; [change (white "/") with false|change (white ";") with false]; cbn iota;
      [change (("/" =? "/")%char && ("/" =? "/")%char || ("/" =? ";")%char) with true|change (((";" =? "/")%char && (peek b =? "/")%char) || (";" =? ";")%char) with true]; cbn iota; now rewrite Nl.
  - destruct Wd as (c & u & -> & Hc & Fu).
    assert (La : exists p y, c :: u = p ++ [y] /\ name_char y) by (apply last_of; [discriminate|constructor; [now left|exact Fu]]).
    destruct La as (p & y & E & Hy). assert (K : closed s r x /\ (s = [] -> x = [])).
    { rewrite E, <- app_assoc in Cl. cbn [app] in Cl. eapply closed_tail; [exact Cl|now apply name_not_lf|exact R]. }
    destruct K as (Cl' & Nil). specialize (IH x tx Cl' He Y). rewrite <- app_assoc.
    apply g_lexeme with (r := s ++ x); [|rewrite lex_word; [f_equal; now apply word_means_token|exact Hc|exact Fu|now apply not_next_app]|exact IH].
    apply reads_rest in R. apply rest_length in R. rewrite !app_length in *. cbn [List.length]. lia.
  - destruct (last_of _ _ Ne Fv) as (u & y & E & Hy). assert (K : closed s r x /\ (s = [] -> x = [])).
    { rewrite E, <- app_assoc in Cl. cbn [app] in Cl. eapply (closed_tail (p :: u)); [exact Cl|now apply name_not_lf|exact R]. }
    destruct K as (Cl' & Nil). specialize (IH x tx Cl' He Y). cbn [app]. rewrite <- app_assoc.
    apply g_lexeme with (r := s ++ x); [|apply lex_variable; auto; now apply not_next_app|exact IH].
    apply reads_rest in R. apply rest_length in R. cbn [List.length]. rewrite !app_length in *. lia.
  - assert (K : closed s r x /\ (s = [] -> x = [])).
    { eapply (closed_tail (p :: q :: b) q); [exact Cl| |exact R]. destruct Hq as [->| ->]; discriminate. }
    destruct K as (Cl' & Nil). specialize (IH x tx Cl' He Y). cbn [app]. rewrite <- app_assoc. cbn [app]. apply g_lexeme with (r := s ++ x); [|now apply lex_quoted_variable|exact IH].
    apply reads_rest in R. apply rest_length in R. cbn [List.length]. rewrite !app_length in *. cbn [List.length]. rewrite app_length. lia.
  - assert (K : closed s r x /\ (s = [] -> x = [])).
    { eapply (closed_tail (q :: b) q); [exact Cl| |exact R]. destruct Hq as [->| ->]; discriminate. }
    destruct K as (Cl' & Nil). specialize (IH x tx Cl' He Y). cbn [app]. rewrite <- app_assoc. cbn [app]. apply g_lexeme with (r := s ++ x); [|now apply lex_string|exact IH].
    apply reads_rest in R. apply rest_length in R. cbn [List.length]. rewrite !app_length in *. cbn [List.length]. rewrite app_length. lia.
  - assert (K : closed s r x /\ (s = [] -> x = [])).
    { eapply (closed_tail [a] b); [exact Cl| |exact R]. intros ->. cbn [two_char one_char In] in Ho. intuition discriminate. }
    destruct K as (Cl' & Nil). specialize (IH x tx Cl' He Y). cbn [app].
    assert (e <= List.length (s ++ x)) by (apply reads_rest in R; apply rest_length in R; rewrite !app_length in *; lia).
    apply g_lexeme with (r := s ++ x); [cbn [List.length]; lia|now apply lex_pair|exact IH].
  - assert (K : closed s r x /\ (s = [] -> x = [])).
    { eapply (closed_tail [] a); [exact Cl| |exact R]. intros ->. cbn [two_char one_char In] in Ho. intuition discriminate. }
    destruct K as (Cl' & Nil). specialize (IH x tx Cl' He Y). cbn [app].
    assert (e <= List.length (s ++ x)) by (apply reads_rest in R; apply rest_length in R; rewrite !app_length in *; lia).
    apply g_lexeme with (r := s ++ x); [cbn [List.length]; lia|apply lex_operator; [exact Ho|now apply no_pair_app|intro; apply not_next_app; auto]|exact IH].
  - destruct (number_last _ _ Hn) as (u & y & E & Hy). assert (K : closed s r x /\ (s = [] -> x = [])).
    { rewrite E, <- app_assoc in Cl. cbn [app] in Cl. eapply closed_tail; [exact Cl|now apply digit_not_lf|exact R]. }
    destruct K as (Cl' & Nil). specialize (IH x tx Cl' He Y). rewrite <- app_assoc.
    destruct (number_digits _ _ Hn) as (dd & Ed & Nd & Fd).
    apply g_lexeme with (r := s ++ x); [| |exact IH].
    + apply reads_rest in R. apply rest_length in R. rewrite !app_length in *. rewrite E, app_length. cbn [List.length]. lia.
    + rewrite (lex_digits e v dd); [|exact Ed|exact Nd|exact Fd|now apply not_next_app]. f_equal. f_equal. apply scan_number; [exact Hn|now apply not_next_app|].
      intro Z. apply not_next_app; [now apply Nx|exact Nil].
  - assert (K : closed s r x /\ (s = [] -> x = [])).
    { eapply (closed_tail [] ","); [exact Cl|discriminate|exact R]. }
    destruct K as (Cl' & Nil). specialize (IH x tx Cl' He Y). cbn [app].
    assert (e <= List.length (s ++ x)) by (apply reads_rest in R; apply rest_length in R; rewrite !app_length in *; lia).
    apply g_lexeme with (r := s ++ x); [cbn [List.length]; lia|apply lex_comma|exact IH].
  - assert (K : closed s r x /\ (s = [] -> x = [])).
    { eapply (closed_tail [] c); [exact Cl| |exact R]. intros ->. unfold bracket in Hb. cbn [In] in Hb. intuition discriminate. }
    destruct K as (Cl' & Nil). specialize (IH x tx Cl' He Y). cbn [app].
    assert (e <= List.length (s ++ x)) by (apply reads_rest in R; apply rest_length in R; rewrite !app_length in *; lia).
    apply g_lexeme with (r := s ++ x); [cbn [List.length]; lia|now apply lex_bracket|exact IH].
Qed.
End Steps.

Lemma means_yields w d fl st s ts r x e X : means s ts r -> closed s r x -> e <= List.length (r ++ x) ->
  yields w d fl st (r ++ x) e X -> yields w d fl st (s ++ x) e (emit ts X).
Proof.
  intros M C Le Y. assert (H : yields w d fl st (s ++ x) e (emit (ts ++ []) X)); [|now rewrite app_nil_r in H].
  apply (means_steps e (fun s ts => yields w d fl st s e (emit ts X))) with (r := r); auto.
  - intros. eapply yields_skip; eauto.
  - intros s0 t r0 ts0 Ls Lx Y0. change (t :: ts0) with ([t] ++ ts0). rewrite <- emit_emit. eapply yields_lexeme; eauto.
  - intros. now apply yields_space.
  - now rewrite emit_nil.
Qed.
Lemma line_skip f e s r : e < List.length s -> lex e s = Skipped r -> List.length s <= f -> line f e s = line (List.length r) e r.
Proof.
  intros Ls Lx Lf. pose proof (lex_moves e s Ls) as M. rewrite Lx in M. destruct M as (_ & M). destruct f as [|f]; [lia|]. cbn [line].
  destruct (Nat.leb_spec (List.length s) e); [lia|]. rewrite Lx. apply line_enough; lia.
Qed.
Lemma line_done e s : List.length s <= e -> line (List.length s) e s = Done [].
Proof. intro Le. destruct (List.length s) eqn:E; cbn [line]; rewrite E; destruct (Nat.leb_spec (List.length s) e) as [H|H]; rewrite ?E in *; try (destruct (Nat.leb_spec 0 e)); try (destruct (Nat.leb_spec (S n) e)); try reflexivity; lia. Qed.
Lemma line_space e c s : space c -> e <= List.length s -> line (List.length (c :: s)) e (c :: s) = line (List.length s) e s.
Proof.
  intros Sp Le. assert (W : white c = true) by now apply white_iff. assert (Lx : lex e (c :: s) = Skipped (skip_white s)).
  { unfold lex. rewrite W. unfold skip_white. cbn [span]. now rewrite W. }
  rewrite (line_skip _ e (c :: s) (skip_white s)); [|cbn; lia|exact Lx|lia].
  destruct s as [|d s]; [reflexivity|]. destruct (white d) eqn:Wd.
  - destruct (le_lt_dec (List.length (d :: s)) e) as [Q|Q].
    + rewrite !line_done; [reflexivity|exact Q|]. pose proof (skip_white_length (d :: s)). lia.
    + symmetry. apply line_skip; [exact Q| |lia]. unfold lex. now rewrite Wd.
  - unfold skip_white. cbn [span]. now rewrite Wd.
Qed.
Lemma means_line s ts x : means s ts [] -> ends_line s -> line (List.length (s ++ x)) (List.length x) (s ++ x) = Done ts.
Proof.
  intros M C. rewrite <- (app_nil_r ts). apply (means_steps (List.length x) (fun s ts => line (List.length s) (List.length x) s = Done ts)) with (r := []); auto.
  - intros s0 r0 ts0 Ls Lx H. now rewrite (line_skip _ _ _ r0).
  - intros s0 t r0 ts0 Ls Lx H. pose proof (lex_moves _ _ Ls) as Mv. rewrite Lx in Mv. destruct Mv as (_ & Mv). destruct (List.length s0) eqn:E0; [lia|]. cbn [line]. rewrite E0.
    destruct (Nat.leb_spec (S n) (List.length x)); [lia|]. rewrite Lx. rewrite (line_enough n (List.length r0)) by lia. now rewrite H.
  - intros c s0 ts0 Sp Le H. now rewrite line_space.
  - right. now left.
  - cbn [app]. now apply line_done.
Qed.

(** * Nothing else is accepted *)
Lemma quoted_inv q s : (forall b t, quoted q false s = Some (b, t) -> body q b /\ s = b ++ q :: t) /\
  (forall b t, quoted q true s = Some (b, t) -> exists c b', b = c :: b' /\ ~ line_end c /\ body q b' /\ s = b ++ q :: t).
Proof.
  induction s as [|c s (IH1 & IH2)]; split; intros b t H; cbn [quoted] in H; try discriminate; (destruct (at_eol c) eqn:El; [discriminate|]); apply (iff_false _ _ (at_eol_iff c)) in El.
  - cbn [negb andb] in H. destruct (Ascii.eqb_spec c q) as [->|Nq].
    + injection H as <- <-. split; [constructor|reflexivity].
    + destruct (Ascii.eqb_spec c "^") as [->|Nc].
      * destruct (quoted q true s) as [[b' t']|] eqn:Q; [|discriminate]. injection H as <- <-. destruct (IH2 _ _ eq_refl) as (c' & b'' & -> & Lc & Bb & ->).
        split; [now constructor|reflexivity].
      * destruct (quoted q false s) as [[b' t']|] eqn:Q; [|discriminate]. injection H as <- <-. destruct (IH1 _ _ eq_refl) as (Bb & ->). split; [now constructor|reflexivity].
  - cbn [negb andb] in H. destruct (quoted q false s) as [[b' t']|] eqn:Q; [|discriminate]. injection H as <- <-. destruct (IH1 _ _ eq_refl) as (Bb & ->).
    exists c, b'. auto.
Qed.
Lemma next_line_cases s : exists b, ~ In LF b /\ (s = b ++ LF :: next_line 0 s \/ (s = b /\ next_line 0 s = [])).
Proof.
  induction s as [|c s (b & N & IH)]; [exists []; split; [tauto|right; auto]|]. cbn [next_line]. cbn [List.length Nat.leb].
  destruct (Ascii.eqb_spec c LF) as [->|Nc]; [exists []; split; [tauto|left; reflexivity]|].
  exists (c :: b). split; [intros [?|?]; congruence||tauto|]. destruct IH as [IH|(-> & IH)]; [left; cbn [app]; congruence|right; auto].
Qed.
Lemma accepts_white s ts r : accepts (skip_white s) ts r -> accepts s ts r.
Proof.
  unfold skip_white. induction s as [|c s IH]; [auto|]. cbn [span]. destruct (white c) eqn:W; [|auto]. destruct (span white s) as [a b]. cbn [snd] in *. intro H. apply r_space; [now apply white_iff|apply IH; exact H].
Qed.
Lemma op2_two a b o : op2 a b = Some o -> In ((a, b), o) two_char.
Proof.
  unfold op2. destruct (Ascii.eqb_spec b "=") as [->|].
  - destruct (Ascii.eqb_spec a "=") as [->|]; [intro E; injection E as <-; cbn; tauto|].
    destruct (Ascii.eqb_spec a "!") as [->|]; [intro E; injection E as <-; cbn; tauto|].
    destruct (Ascii.eqb_spec a "<") as [->|]; [intro E; injection E as <-; cbn; tauto|].
    destruct (Ascii.eqb_spec a ">") as [->|]; [intro E; injection E as <-; cbn; tauto|]. discriminate.
  - destruct (Ascii.eqb_spec a "&") as [->|]; cbn [andb].
    + destruct (Ascii.eqb_spec b "&") as [->|]; [intro E; injection E as <-; cbn; tauto|]. discriminate.
    + destruct (Ascii.eqb_spec a "|") as [->|]; cbn [andb]; [|discriminate].
      destruct (Ascii.eqb_spec b "|") as [->|]; [intro E; injection E as <-; cbn; tauto|]. discriminate.
Qed.
Lemma two_op2 a b o : In ((a, b), o) two_char -> op2 a b = Some o.
Proof.
  intro H. cbn [two_char In] in H. decompose [or] H; try contradiction; match goal with E : _ = (_, _, _) |- _ => injection E as <- <- <- end; reflexivity.
Qed.
Lemma proper_dec w : proper w \/ ~ proper w.
Proof.
  unfold proper. destruct w as [|c w]; [right; tauto|].
  assert (D : Forall is_digit (c :: w) \/ ~ Forall is_digit (c :: w)).
  { destruct (forallb digit (c :: w)) eqn:E; [left|right].
    - apply Forall_forall. intros x I. rewrite forallb_forall in E. apply digit_iff. auto.
    - intro F. assert (forallb digit (c :: w) = true); [|congruence]. apply forallb_forall. intros x I. rewrite Forall_forall in F. apply digit_iff. auto. }
  destruct D as [D|D]; [|right; tauto]. destruct (ascii_dec c "0") as [->|N].
  - destruct w as [|d w]; [left; repeat split; auto; discriminate|]. right. intros (_ & _ & [E|E]); [discriminate|]. now apply E.
  - left. repeat split; auto. discriminate.
Qed.
Lemma digits_inv w d s : w = d \/ w = "-" :: d -> d <> [] -> Forall is_digit d -> not_next is_digit s -> forall ts r, accepts s ts r -> accepts (w ++ s) (TNum (scan_i (w ++ s)) :: ts) r.
Proof.
  intros Ew Ne F N ts r A. set (z := scan_i (w ++ s)).
  assert (D : number w z \/ ~ number w z).
  { destruct (proper_dec d) as [P|P].
    - destruct Ew as [->| ->].
      + destruct (Z_le_dec (decimal 0 d) 2147483647) as [Q|Q].
        * assert (Nm : number d (decimal 0 d)). { constructor; [exact P|]. unfold fits. pose proof (decimal_pos 0 d ltac:(lia) F). lia. }
          destruct (Z.eq_dec z (decimal 0 d)) as [->|X]; [now left|]. right. intro M. apply X. inversion M; subst.
          -- reflexivity.
          -- inversion F as [|? ? Hm _]. apply digit_iff in Hm. discriminate.
        * right. intro M. inversion M as [u Pu Fu Eu Ez|u Pu Fu Eu Ez]; subst.
          -- unfold fits in Fu. lia.
          -- inversion F as [|? ? Hm _]. apply digit_iff in Hm. discriminate.
      + destruct (Z_le_dec (-2147483648) (- decimal 0 d)) as [Q|Q].
        * assert (Nm : number ("-" :: d) (- decimal 0 d)). { constructor; [exact P|]. unfold fits. pose proof (decimal_pos 0 d ltac:(lia) F). lia. }
          destruct (Z.eq_dec z (- decimal 0 d)) as [->|X]; [now left|]. right. intro M. apply X. inversion M as [u Pu Fu Eu Ez|u Pu Fu Eu Ez]; subst.
          -- destruct Pu as (_ & Fu' & _). inversion Fu' as [|? ? Hm _]. apply digit_iff in Hm. discriminate.
          -- reflexivity.
        * right. intro M. inversion M as [u Pu Fu Eu Ez|u Pu Fu Eu Ez]; subst.
          -- destruct Pu as (_ & Fu' & _). inversion Fu' as [|? ? Hm _]. apply digit_iff in Hm. discriminate.
          -- unfold fits in Fu. lia.
    - right. intro M. inversion M as [u Pu Fu Eu Ez|u Pu Fu Eu Ez]; subst; destruct Ew as [Ew|Ew]; try congruence.
      + destruct Pu as (_ & Fu' & _). rewrite Ew in Fu'. inversion Fu' as [|? ? Hm _]. apply digit_iff in Hm. discriminate.
      + rewrite <- Ew in F. inversion F as [|? ? Hm _]. apply digit_iff in Hm. discriminate. }
  destruct D as [D|D].
  - assert (X : (w = ["0"] \/ w = ["-"; "0"]) /\ (hd " " s = "x" \/ hd " " s = "X") \/ (w = ["0"] \/ w = ["-"; "0"] -> not_next (fun c => c = "x" \/ c = "X") s)).
    { destruct s as [|c s]; [right; exact (fun _ => I)|]. cbn [hd not_next]. destruct (ascii_dec c "x"), (ascii_dec c "X"); try (right; intros _ [?|?]; congruence);
        (destruct (list_eq_dec ascii_dec w ["0"]); [left; auto|]); (destruct (list_eq_dec ascii_dec w ["-"; "0"]); [left; auto|]); right; tauto. }
    destruct X as [X|X]; [|now apply r_number]. apply r_odd_number; try assumption. exists d. auto.
  - apply r_odd_number; try assumption. exists d. auto.
Qed.

Lemma accepts_nil ts r : accepts [] ts r -> ts = [] /\ r = [].
Proof.
  intro A. remember [] as s eqn:E in A. destruct A; try discriminate E; subst; auto; exfalso;
    repeat match goal with H : _ ++ _ = [] |- _ => apply app_eq_nil in H as (? & ?) end; try discriminate; subst.
  - match goal with H : word [] |- _ => destruct H as (? & ? & H & _); discriminate end.
  - match goal with H : number [] _ |- _ => destruct (number_digits _ _ H) as (d & [<-|?] & Nd & _); congruence end.
  - match goal with H : other_number [] _ _ |- _ => destruct H as (d & [<-|?] & Nd & _); congruence end.
Qed.

Lemma lex_inv s : s <> [] -> match lex 0 s with
  | Skipped r => forall ts q, accepts r ts q -> accepts s ts q
  | Lexeme t r => forall ts q, accepts r ts q -> accepts s (t :: ts) q
  | Directive r => s = "#" :: r
  | Bad => True
  end.
Proof.
  destruct s as [|c r]; [congruence|]. intros _. unfold lex.
  destruct (white c) eqn:W. { intros. now apply accepts_white. }
  destruct (at_comment (c :: r)) eqn:C.
  { intros ts q A. cbn [at_comment] in C. apply orb_true_iff in C as [C|C].
    - apply andb_true_iff in C as (C1 & C2). apply Ascii.eqb_eq in C1, C2. subst c. destruct r as [|c r]; [discriminate|]. cbn [peek] in C2. subst c.
      change (next_line 0 ("/" :: "/" :: r)) with (next_line 0 r) in A. change ("/" :: "/" :: r) with (L "//" ++ r).
      destruct (next_line_cases r) as (b & N & [E|(E & E0)]).
      + rewrite E. apply r_comment; auto.
      + rewrite E0 in A. rewrite E. destruct (accepts_nil _ _ A) as (-> & ->). apply r_comment_end; auto.
    - apply Ascii.eqb_eq in C. subst c. change (next_line 0 (";" :: r)) with (next_line 0 r) in A. change (";" :: r) with (L ";" ++ r).
      destruct (next_line_cases r) as (b & N & [E|(E & E0)]).
      + rewrite E. apply r_comment; auto.
      + rewrite E0 in A. rewrite E. destruct (accepts_nil _ _ A) as (-> & ->). apply r_comment_end; auto. }
  destruct (id_start c) eqn:Is.
  { intros ts q A. rewrite (span_split id_char r) at 1. change (c :: fst (span id_char r) ++ snd (span id_char r)) with ((c :: fst (span id_char r)) ++ snd (span id_char r)).
    apply r_word; [| |apply word_token_means|exact A].
    - exists c, (fst (span id_char r)). split; [reflexivity|]. split; [now apply id_start_iff|]. eapply Forall_impl; [|apply span_forall]. intros a. apply id_char_iff.
    - pose proof (span_stop id_char r) as S. destruct (snd (span id_char r)) as [|x y]; [exact I|]. apply (iff_false _ _ (id_char_iff x)). exact S. }
  destruct (var_start c) eqn:Vs.
  { apply var_start_iff in Vs. destruct r as [|q r']; [exact I|]. destruct (str_start q) eqn:Ss.
    - destruct (quoted q false r') as [[b t]|] eqn:Q; [|exact I]. intros ts z A. apply quoted_inv in Q as (B & ->). apply r_quoted_variable; auto. now apply str_start_iff.
    - destruct (id_char q) eqn:Iq; [|exact I]. intros ts z A. rewrite (span_split id_char (q :: r')) at 1. apply r_variable; auto.
      + cbn [span]. rewrite Iq. discriminate.
      + eapply Forall_impl; [|apply span_forall]. intros a. apply id_char_iff.
      + pose proof (span_stop id_char (q :: r')) as S. destruct (snd (span id_char (q :: r'))) as [|x y]; [exact I|]. apply (iff_false _ _ (id_char_iff x)). exact S. }
  destruct (str_start c) eqn:Ss.
  { destruct (quoted c false r) as [[b t]|] eqn:Q; [|exact I]. intros ts z A. apply quoted_inv in Q as (B & ->). apply r_string; auto. now apply str_start_iff. }
  destruct (if 0 <? List.length r then op2 c (peek r) else None) as [o|] eqn:O.
  { destruct r as [|d r]; [discriminate|]. cbn in O. intros ts z A. apply r_pair; [now apply op2_two|exact A]. }
  assert (Np : no_pair c r).
  { destruct r as [|d r]; [exact I|]. cbn in O. intros o H. apply two_op2 in H. congruence. }
  destruct (op_char c && negb (Ascii.eqb c "-" && digit (peek r))) eqn:Oc.
  { apply andb_true_iff in Oc as (Oc & Nm). intros ts z A. unfold op_char in Oc. rewrite !orb_true_iff, !Ascii.eqb_eq in Oc.
    assert (Dm : c = "-" -> not_next is_digit r).
    { intros ->. change (Ascii.eqb "-" "-") with true in Nm. cbn [andb] in Nm. destruct r as [|d r]; [exact I|]. apply negb_true_iff in Nm. apply (iff_false _ _ (digit_iff d)). exact Nm. }
    decompose [or] Oc; subst c; try (apply r_operator; [cbn; tauto|exact Np|exact Dm|exact A]); (apply r_odd_operator; [split; [auto|reflexivity]|exact Np|exact A]). }
  destruct (digit c || Ascii.eqb c "-") eqn:Dc.
  { intros ts z A. apply orb_true_iff in Dc as [Dc|Dc].
    - rewrite (span_split digit r) at 1 2. change (c :: fst (span digit r) ++ snd (span digit r)) with ((c :: fst (span digit r)) ++ snd (span digit r)).
      apply (digits_inv _ (c :: fst (span digit r))); auto; [discriminate| |].
      + constructor; [now apply digit_iff|]. eapply Forall_impl; [|apply span_forall]. intros a. apply digit_iff.
      + pose proof (span_stop digit r) as S. destruct (snd (span digit r)) as [|x y]; [exact I|]. apply (iff_false _ _ (digit_iff x)). exact S.
    - apply Ascii.eqb_eq in Dc. subst c. change (op_char "-") with true in Oc. change (Ascii.eqb "-" "-") with true in Oc. cbn [andb] in Oc. apply negb_false_iff in Oc.
      rewrite (span_split digit r) at 1 2. change ("-" :: fst (span digit r) ++ snd (span digit r)) with (("-" :: fst (span digit r)) ++ snd (span digit r)).
      apply (digits_inv _ (fst (span digit r))); auto.
      + destruct r as [|d r]; [discriminate|]. cbn [peek] in Oc. cbn [span]. rewrite Oc. discriminate.
      + eapply Forall_impl; [|apply span_forall]. intros a. apply digit_iff.
      + pose proof (span_stop digit r) as S. destruct (snd (span digit r)) as [|x y]; [exact I|]. apply (iff_false _ _ (digit_iff x)). exact S. }
  destruct (Ascii.eqb_spec c ",") as [->|]. { intros. now apply r_comma. }
  destruct (brace_char c) eqn:Bc. { intros. apply r_bracket; [now apply brace_char_iff|assumption]. }
  destruct (Ascii.eqb_spec c "#") as [->|]; [reflexivity|exact I].
Qed.

Lemma tok_accepts f w d fl st s ts st' : tok f w d fl st s 0 = Done (ts, st') ->
  exists ts1 r, accepts s ts1 r /\ ((r = [] /\ ts = ts1 /\ st' = st) \/ (hd " " r = "#" /\ exists ts2, ts = ts1 ++ ts2)).
Proof.
  revert s ts. induction f as [|f IH]; intros s ts H; [discriminate|]. cbn [tok] in H. unfold tok_body in H.
  destruct s as [|c s]; [cbn in H; injection H as <- <-; exists [], []; split; [apply r_end; auto|left; auto]|].
  change (List.length (c :: s) <=? 0) with false in H. cbn iota in H. pose proof (lex_inv (c :: s) ltac:(discriminate)) as I.
  destruct (lex 0 (c :: s)) as [r|t r|r|]; [| | |discriminate].
  - destruct (IH _ _ H) as (ts1 & q & A & C). exists ts1, q. auto.
  - unfold emit in H. destruct (tok f w d fl st r 0) as [[u su]| |] eqn:E; try discriminate. cbn [bind fst snd] in H. injection H as <- <-.
    destruct (IH _ _ E) as (ts1 & q & A & C). exists (t :: ts1), q. split; [auto|]. destruct C as [(-> & -> & ->)|(Hq & ts2 & ->)]; [left; auto|right; split; [exact Hq|]; exists ts2; reflexivity].
  - rewrite I. exists [], ("#" :: r). split; [apply r_end; right; reflexivity|]. right. split; [reflexivity|]. exists ts. reflexivity.
Qed.
