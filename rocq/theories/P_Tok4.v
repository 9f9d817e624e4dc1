(** Tokenizing always ends. *)
From Coq Require Import String List Arith NArith ZArith Bool Ascii Lia.
From Verif Require Import M_Path M_Cond M_Tok S_Tok P_Tok P_Tok2 P_Tok3.
Import ListNotations.
Open Scope char_scope.
Open Scope nat_scope.

Definition blanks (p : str) : Prop := Forall (fun c => blank c = true) p.
(** What follows the range is nothing, or a '#' that is the first thing on its line or in the range. *)
Definition tidy (s : str) (e : nat) : Prop :=
  e <= List.length s /\ (e = 0 \/ exists p t, s = p ++ t /\ List.length t = e /\ hd " " t = "#" /\ (blanks p \/ exists q b, p = q ++ LF :: b /\ blanks b)).

Lemma app_split (a b c d : str) : a ++ b = c ++ d -> List.length d <= List.length b -> exists m, c = a ++ m /\ b = m ++ d.
Proof.
  revert c. induction a as [|x a IH]; intros c E Le; cbn in *.
  - now exists c.
  - destruct c as [|y c]; cbn in E.
    + subst d. cbn in Le. rewrite app_length in Le. lia.
    + injection E as <- E. destruct (IH c E Le) as (m & -> & ->). now exists m.
Qed.
Lemma tidy_rest s e r : tidy s e -> rest_of r s -> e <= List.length r -> tidy r e.
Proof.
  intros (Le & T) (u & E) Lr. split; [exact Lr|]. destruct T as [T|(p & t & Es & Lt & Ht & B)]; [now left|]. right.
  rewrite Es in E. destruct (app_split u r p t (eq_sym E) ltac:(lia)) as (m & Ep & Er). exists m, t. repeat split; auto.
  destruct B as [B|(q & b & Eq & B)].
  - left. rewrite Ep in B. apply Forall_app in B. tauto.
  - rewrite Eq in Ep. destruct (le_lt_dec (List.length (LF :: b)) (List.length m)) as [Q|Q].
    + right. destruct (app_split u m q (LF :: b) (eq_sym Ep) Q) as (n & _ & ->). now exists n, b.
    + left. assert (Qb : List.length m <= List.length b) by (cbn in Q; lia). symmetry in Ep.
      replace (q ++ LF :: b) with ((q ++ [LF]) ++ b) in Ep by (rewrite <- app_assoc; reflexivity).
      destruct (app_split (q ++ [LF]) b u m (eq_sym Ep) Qb) as (n & _ & Eb). rewrite Eb in B. apply Forall_app in B. tauto.
Qed.

Lemma span_stays p q t : p "#" = false -> hd " " t = "#" -> List.length t <= List.length (snd (span p (q ++ t))).
Proof.
  intros P H. induction q as [|c q IH]; cbn [app].
  - destruct t as [|c t]; [cbn; lia|]. cbn in H. subst c. cbn [span]. rewrite P. cbn [snd]. lia.
  - cbn [span]. destruct (p c); cbn [snd]; [exact IH|]. cbn [List.length]. rewrite app_length. lia.
Qed.
Lemma tidy_span p s e : tidy s e -> p "#" = false -> e <= List.length (snd (span p s)).
Proof.
  intros (Le & [->|(q & t & -> & <- & H & _)]) P; [lia|]. now apply span_stays.
Qed.
Lemma quoted_stays q esc u v b t : quoted q esc (u ++ LF :: v) = Some (b, t) -> List.length v < List.length t.
Proof.
  revert esc b. induction u as [|c u IH]; intros esc b H; cbn [app quoted] in H.
  - change (at_eol LF) with true in H. discriminate.
  - destruct (at_eol c); [discriminate|]. destruct (negb esc && (c =? q)%char).
    + injection H as <- <-. rewrite app_length. cbn. lia.
    + destruct (quoted q (negb esc && (c =? "^")%char) (u ++ LF :: v)) as [[b' t']|] eqn:E; [|discriminate]. injection H as <- <-. eapply IH; eassumption.
Qed.
(** A range whose first character is no blank and which is not empty has a line end in it. *)
Lemma tidy_line c r e : tidy (c :: r) e -> e < List.length (c :: r) -> blank c = false -> c <> LF -> e = 0 \/ exists u v, r = u ++ LF :: v /\ e <= List.length v.
Proof.
  intros (Le & [->|(p & t & E & <- & H & B)]) Lt Bc Nl; [now left|]. right. destruct p as [|x p]; [cbn in E; subst t; cbn in *; lia|]. cbn in E. injection E as <- ->.
  destruct B as [B|(q & b & Eq & B)]; [inversion B; congruence|]. destruct q as [|y q]; cbn in Eq; injection Eq as -> ->; [congruence|].
  exists q, (b ++ t). rewrite <- app_assoc. split; [reflexivity|rewrite app_length; lia].
Qed.
Lemma lex_stays e s : tidy s e -> e < List.length s -> match lex e s with Skipped r => e <= List.length r | Lexeme _ r => e <= List.length r | Directive r => e <= List.length r | Bad => True end.
Proof.
  intros T Lt. destruct s as [|c r]; [cbn in Lt; lia|]. unfold lex.
  assert (Lr : e <= List.length r) by (cbn in Lt; lia).
  assert (Tr : tidy r e) by (eapply tidy_rest; [exact T|now apply rest_cons, rest_refl|exact Lr]).
  destruct (white c) eqn:W. { now apply tidy_span. }
  assert (Bc : blank c = false). { unfold white, blank in *. rewrite !orb_false_iff in W. destruct W as (((W1 & _) & _) & W2). now rewrite W1, W2. }
  assert (Nl : c <> LF) by (intros ->; discriminate).
  destruct (at_comment (c :: r)). { apply next_line_more. cbn. lia. }
  destruct (id_start c). { now apply tidy_span. }
  destruct (var_start c).
  { destruct r as [|q r]; [exact I|]. destruct (str_start q) eqn:Ss.
    - destruct (quoted q false r) as [[b t]|] eqn:Q; [|exact I]. destruct (tidy_line _ _ _ T Lt Bc Nl) as [->|(u & v & E & Lv)]; [lia|].
      destruct u as [|y u]; cbn in E; injection E as -> ->; [discriminate|]. apply quoted_stays in Q. lia.
    - destruct (id_char q); [|exact I]. now apply tidy_span. }
  destruct (str_start c).
  { destruct (quoted c false r) as [[b t]|] eqn:Q; [|exact I]. destruct (tidy_line _ _ _ T Lt Bc Nl) as [->|(u & v & -> & Lv)]; [lia|]. apply quoted_stays in Q. lia. }
  destruct (Nat.ltb_spec e (List.length r)).
  - destruct (op2 c (peek r)); [destruct r; cbn in *; lia|]. destruct (op_char c && negb ((c =? "-")%char && digit (peek r))); [exact Lr|].
    destruct (digit c || (c =? "-")%char); [now apply tidy_span|]. destruct (c =? ",")%char; [exact Lr|]. destruct (brace_char c); [exact Lr|]. destruct (c =? "#")%char; [exact Lr|exact I].
  - destruct (op_char c && negb ((c =? "-")%char && digit (peek r))); [exact Lr|].
    destruct (digit c || (c =? "-")%char); [now apply tidy_span|]. destruct (c =? ",")%char; [exact Lr|]. destruct (brace_char c); [exact Lr|]. destruct (c =? "#")%char; [exact Lr|exact I].
Qed.

(** * The search for the end of a block *)
Lemma next_line_cut e s : e <= List.length s -> exists u, s = u ++ next_line e s /\ (u = [] \/ (exists v, u = v ++ [LF]) \/ List.length (next_line e s) = e).
Proof.
  induction s as [|c s IH]; intro Le; [exists []; auto|]. cbn [next_line]. destruct (Nat.leb_spec (List.length (c :: s)) e); [exists []; auto|].
  destruct (Ascii.eqb_spec c LF) as [->|N]; [exists [LF]; split; [reflexivity|right; left; now exists []]|].
  destruct (IH ltac:(cbn in *; lia)) as (u & E & C). exists (c :: u). split; [cbn; congruence|]. destruct C as [->|[(v & ->)|C]]; [|right; left; now exists (c :: v)|auto].
  right. right. cbn [app] in E. rewrite <- E. destruct (le_lt_dec (List.length s) e) as [Q|Q]; [cbn in *; lia|].
  pose proof (next_line_less e s Q) as Z. rewrite <- E in Z. lia.
Qed.
Lemma tidy_before s e s1 u : s1 = u ++ s -> u = [] \/ (exists v, u = v ++ [LF]) -> tidy s e -> tidy s1 e.
Proof.
  intros -> U (Le & T). split; [rewrite app_length; lia|]. destruct T as [T|(p & t & -> & Lt & Ht & B)]; [now left|]. right. exists (u ++ p), t. rewrite app_assoc. repeat split; auto.
  destruct U as [->|(v & ->)]; [exact B|]. right. destruct B as [B|(q & b & -> & B)].
  - exists v, p. rewrite <- app_assoc. auto.
  - exists ((v ++ [LF]) ++ q), b. rewrite <- !app_assoc. auto.
Qed.
Lemma directive_rest s n r : directive_name s = Some (n, r) -> s = n ++ r /\ List.length r < List.length s /\ Forall (fun c => (lower_ c || under c) = true) n.
Proof.
  unfold directive_name. destruct (lower_ (peek s)) eqn:E; [|discriminate]. intro H. injection H as H.
  pose proof (span_split (fun c => lower_ c || under c) s) as Sp. pose proof (span_forall (fun c => lower_ c || under c) s) as F. rewrite H in Sp, F. cbn [fst snd] in *. split; [exact Sp|]. split; [|exact F].
  destruct s as [|c s]; [discriminate|]. cbn [peek] in E. cbn [span] in H. rewrite E in H. cbn [orb] in H. injection H as <- <-. cbn [List.length]. pose proof (span_length (fun c => lower_ c || under c) s). lia.
Qed.
Lemma skip_blank_split s : exists u, s = u ++ skip_blank s /\ blanks u.
Proof. exists (fst (span blank s)). split; [apply span_split|apply span_forall]. Qed.
Definition found (s : str) (e : nat) (x : res (str * nat * kind)) : Prop :=
  match x with
  | NoFuel => False
  | Fail => True
  | Done (r, be, _) => rest_of r s /\ List.length r < List.length s /\ e <= List.length r /\ tidy s be
  end.
Lemma found_before u s1 s e x : s1 = u ++ s -> u = [] \/ (exists v, u = v ++ [LF]) -> found s e x -> found s1 e x.
Proof.
  intros E U. destruct x as [[[r be] k]| |]; cbn [found]; try tauto. intros (R & Ll & Le & T). split; [|split; [|split]].
  - eapply rest_trans; [exact R|]. now exists u.
  - subst s1. rewrite app_length. lia.
  - exact Le.
  - eapply tidy_before; eassumption.
Qed.
Lemma to_endif_found f allow : forall depth s e, tidy s e -> List.length s < f -> found s e (to_endif f allow depth s e).
Proof.
  induction f as [|f IH]; intros depth s e T Lf; [lia|]. cbn [to_endif]. destruct (skip_blank_split s) as (u & Es & Bu). set (s1 := skip_blank s) in *.
  assert (L1 : e <= List.length s1) by (apply tidy_span; [exact T|reflexivity]).
  assert (T1 : tidy s1 e) by (eapply tidy_rest; [exact T|now exists u|exact L1]).
  assert (Ls : List.length s1 <= List.length s) by apply skip_blank_length.
  destruct (Nat.eqb_spec (List.length s1) e) as [|Ne]; [exact I|].
  assert (Next : forall d r, rest_of r s1 -> e <= List.length r -> found s e (to_endif f allow d (next_line e r) e)).
  { intros d r R Lr. destruct (le_lt_dec (List.length r) e) as [Q|Q].
    - destruct f as [|f']; [destruct s1; cbn in *; lia|]. assert (N : next_line e r = r) by (destruct r; [reflexivity|cbn [next_line]; destruct (Nat.leb_spec (List.length (a :: r)) e); [reflexivity|lia]]).
      rewrite N. cbn [to_endif]. assert (Tr : tidy r e) by (eapply tidy_rest; eauto). assert (e <= List.length (skip_blank r)) by (apply tidy_span; [exact Tr|reflexivity]).
      pose proof (skip_blank_length r). assert (Z : List.length (skip_blank r) = e) by lia. rewrite Z, Nat.eqb_refl. exact I.
    - destruct (next_line_cut e r Lr) as (v & Er & C). pose proof (next_line_less e r Q) as Nl. pose proof (rest_length _ _ R) as Rl.
      destruct (le_lt_dec (List.length (next_line e r)) e) as [Q2|Q2].
      + pose proof (next_line_more e r Lr). destruct f as [|f']; [lia|]. cbn [to_endif].
        assert (Tr : tidy (next_line e r) e). { eapply tidy_rest; [exact T1| |lia]. eapply rest_trans; [apply next_line_rest|exact R]. }
        assert (e <= List.length (skip_blank (next_line e r))) by (apply tidy_span; [exact Tr|reflexivity]).
        pose proof (skip_blank_length (next_line e r)). assert (Z : List.length (skip_blank (next_line e r)) = e) by lia. rewrite Z, Nat.eqb_refl. exact I.
      + destruct R as (p & Ep). destruct C as [->|[(z & ->)|C]]; [cbn [app] in Er; rewrite <- Er in Nl; lia| |lia].
        apply (found_before (u ++ p ++ z ++ [LF]) s (next_line e r)).
        * rewrite Es, Ep. rewrite Er at 1. rewrite <- !app_assoc. reflexivity.
        * right. exists (u ++ p ++ z). now rewrite <- !app_assoc.
        * apply IH; [|lia]. eapply tidy_rest; [exact T1| |lia]. eapply rest_trans; [apply next_line_rest|]. now exists p. }
  destruct (Ascii.eqb_spec (peek s1) "#") as [H|H].
  - destruct s1 as [|c s2] eqn:E1; [discriminate|]. cbn [peek] in H. subst c. cbn [tl].
    assert (Tb : tidy s (List.length ("#" :: s2))).
    { split; [rewrite Es, app_length; lia|]. right. exists u, ("#" :: s2). auto. }
    destruct (directive_name (skip_blank s2)) as [[n r]|] eqn:D; [|exact I]. pose proof (directive_rest _ _ _ D) as (Ed & Ld & Fd).
    assert (T2 : tidy s2 e) by (eapply tidy_rest; [exact T1|now exists ["#"]|cbn in *; lia]).
    assert (L3 : e <= List.length (skip_blank s2)) by (apply tidy_span; [exact T2|reflexivity]).
    assert (Lr : e <= List.length r).
    { unfold directive_name in D. destruct (lower_ (peek (skip_blank s2))); [|discriminate]. injection D as D. replace r with (snd (span (fun c => lower_ c || under c) (skip_blank s2))) by now rewrite D.
      apply tidy_span; [|reflexivity]. eapply tidy_rest; [exact T2|apply rest_span|exact L3]. }
    assert (Rr : rest_of r ("#" :: s2)). { apply rest_cons. eapply rest_trans; [|apply rest_span]. exists n. exact Ed. }
    assert (Rs : rest_of r s). { eapply rest_trans; [exact Rr|]. now exists u. }
    pose proof (skip_blank_length s2) as Lb.
    assert (Lt : List.length r < List.length s) by (cbn in Ls; lia).
    destruct (seqb n (L "endif")).
    { destruct (depth =? 1); [|now apply Next]. cbn [found]. repeat split.
      - eapply rest_trans; [apply next_line_rest|exact Rs].
      - pose proof (rest_length _ _ (next_line_rest e r)). lia.
      - now apply next_line_more.
      - apply Tb.
      - apply Tb. }
    destruct (seqb n (L "if")); [now apply Next|].
    destruct ((depth =? 1) && seqb n (L "elif")); [destruct allow; [|exact I]; cbn [found]; auto|].
    destruct ((depth =? 1) && seqb n (L "else")); [destruct allow; [|exact I]; cbn [found]; auto|].
    now apply Next.
  - apply Next; [apply rest_refl|exact L1].
Qed.
Lemma find_endif_found allow s e : tidy s e -> found s e (find_endif allow s e).
Proof. intro T. apply to_endif_found; [exact T|lia]. Qed.

(** * Conditions and branches *)
Lemma operand_shorter w fl ev st ts x r st' : operand w fl ev st ts = Some (x, r, st') -> List.length r < List.length ts.
Proof.
  unfold operand. destruct ts as [|t ts]; [discriminate|]. destruct t; try discriminate.
  - destruct (seqb k (L "exists")).
    + destruct ts as [|a [|t [|b ts]]]; try discriminate; destruct t; try discriminate. destruct (is_left a && is_right b); [|discriminate].
      destruct ev; [destruct (import_var w st s true) as [[? ?] ?]|]; intro H; injection H as <- <- <-; cbn; lia.
    + destruct (seqb k (L "file_exists")); [|discriminate].
      destruct ts as [|a [|t [|b ts]]]; try discriminate; destruct t; try discriminate. destruct (is_left a && is_right b); [|discriminate].
      destruct ev; [destruct (check_file w st (expand_path fl s)) as [? ?]|]; intro H; injection H as <- <- <-; cbn; lia.
  - intro H; injection H as <- <- <-. cbn. lia.
Qed.
Lemma history_ends f w fl ev : forall first st ts h, List.length ts < f -> history f w fl ev first st ts h <> NoFuel.
Proof.
  induction f as [|f IH]; intros first st ts h Lf; [lia|]. cbn [history]. destruct (first || is_and ts || is_or ts); [|discriminate].
  destruct (first && (is_and ts || is_or ts)); [discriminate|].
  set (ts1 := if is_and ts || is_or ts then tl ts else ts). assert (L1 : List.length ts1 <= List.length ts) by (unfold ts1; destruct (is_and ts || is_or ts); [destruct ts; cbn; lia|lia]).
  destruct (match ts1 with TOp ONot :: r => (true, r) | _ => (false, ts1) end) as [neg ts2] eqn:E2.
  assert (L2 : List.length ts2 <= List.length ts1).
  { destruct ts1 as [|[| | | | | |[]| | |] ts1']; injection E2 as <- <-; cbn; lia. }
  destruct (operand w fl ev st ts2) as [[[x ts3] st3]|] eqn:O; [|discriminate]. apply operand_shorter in O.
  destruct first; [apply IH; lia|]. destruct (_ =? max_history); [discriminate|]. apply IH. lia.
Qed.
Lemma if_expr_ends w fl ev st ts : if_expr w fl ev st ts <> NoFuel.
Proof.
  unfold if_expr. pose proof (history_ends (S (List.length ts)) w fl ev true st ts [] ltac:(lia)) as H.
  destruct (history (S (List.length ts)) w fl ev true st ts []) as [[[? ?] ?]| |]; cbn; congruence.
Qed.
Lemma line_ends e r : line (List.length r) e r <> NoFuel.
Proof. now apply line_fuel. Qed.
(** What the search for a branch gives: a block inside the range, and what follows it. *)
Definition chose (s0 : str) (e : nat) (x : res (option (str * nat) * str * state)) : Prop :=
  match x with
  | NoFuel => False
  | Fail => True
  | Done (block, r, _) => rest_of r s0 /\ e <= List.length r /\ match block with Some (t, te) => rest_of t s0 /\ tidy t te | None => True end
  end.
Lemma branches_chose w fl e s0 : forall f k result block s st, tidy s e -> rest_of s s0 -> List.length s < f ->
  match block with Some (t, te) => rest_of t s0 /\ tidy t te | None => True end -> chose s0 e (branches f w fl e k result block s st).
Proof.
  induction f as [|f IH]; intros k result block s st T R Lf B; [lia|]. cbn [branches]. destruct k.
  - cbn [chose]. repeat split; auto. apply T.
  - pose proof (find_endif_found false s e T) as F. destruct (find_endif false s e) as [[[r be] k]| |]; cbn [bind found chose] in *; try tauto.
    destruct F as (Rr & Lr & Le & Tb). repeat split; [eapply rest_trans; eassumption|exact Le|]. destruct result; [exact B|]. auto.
  - set (after := next_line e s). assert (Ta : tidy after e).
    { eapply tidy_rest; [exact T|apply next_line_rest|]. apply next_line_more, T. }
    assert (Ra : rest_of after s) by apply next_line_rest.
    pose proof (line_ends (List.length after) s) as Nl. destruct (line (List.length s) (List.length after) s) as [args| |]; cbn [bind]; [|exact I|congruence].
    pose proof (if_expr_ends w fl (negb result) st args) as Ni. destruct (if_expr w fl (negb result) st args) as [[[b rest] st']| |]; cbn [bind]; [|exact I|congruence].
    pose proof (find_endif_found true after e Ta) as F. destruct (find_endif true after e) as [[[r be] k]| |]; cbn [bind found] in *; [|exact I|tauto].
    destruct rest; [|exact I]. destruct F as (Rr & Lr & Le & Tb). apply IH.
    + eapply tidy_rest; eassumption.
    + eapply rest_trans; [exact Rr|]. eapply rest_trans; eassumption.
    + pose proof (rest_length _ _ Ra). lia.
    + destruct (negb result && b); [split; [eapply rest_trans; eassumption|exact Tb]|exact B].
Qed.

(** * The whole *)
Lemma yields_done w d fl st s e : (exists f x, tok f w d fl st s e = x /\ x <> NoFuel) -> exists x, yields w d fl st s e x.
Proof. intros (f & x & E & N). exists x. split; [exact N|]. now exists f. Qed.
Lemma emit_done ts x : x <> NoFuel -> emit ts x <> NoFuel.
Proof. destruct x; cbn; congruence. Qed.
Definition ends w d fl st s e : Prop := exists f, tok f w d fl st s e <> NoFuel.
Lemma ends_more w d fl st s e f f' : f <= f' -> tok f w d fl st s e <> NoFuel -> tok f' w d fl st s e = tok f w d fl st s e.
Proof. intros Le N. eapply tok_more; [reflexivity|exact N|exact Le]. Qed.

Section Ends.
Variables (w : world) (d : nat).
Hypothesis Inner : S d < 128 -> forall fl st t, ends w (S d) fl st t 0.

Lemma open_ends fl st p : S d < 128 -> exists f x, x <> NoFuel /\ forall f', f <= f' -> open_file (tok f' w) w (S d) st (expand_path fl p) = x.
Proof.
  intro Ld. unfold open_file. set (n := clean w (expand_path fl p)).
  destruct (lookup (files st) n) as [[]|].
  - exists 0. eexists. split; [|reflexivity]. discriminate.
  - destruct (content w n) as [t|]; [|exists 0; eexists; split; [|reflexivity]; discriminate].
    destruct (Inner Ld n st t) as (f & N). exists f. eexists. split; [exact N|]. intros. now apply ends_more.
  - destruct (content w n) as [t|]; [|exists 0; eexists; split; [|reflexivity]; discriminate].
    destruct (Inner Ld n (set_files (files st ++ [(n, false)]) st) t) as (f & N). exists f. eexists. split; [exact N|]. intros. now apply ends_more.
Qed.

(** A step that needs one more call. *)
Definition settles (g : nat -> res (list token * state)) : Prop := exists f x, x <> NoFuel /\ forall f', f <= f' -> g f' = x.
Lemma settles_const x : x <> NoFuel -> settles (fun _ => x).
Proof. intro N. exists 0, x. auto. Qed.
Lemma settles_tok d' fl st s e : ends w d' fl st s e -> settles (fun f => tok f w d' fl st s e).
Proof. intros (f & N). exists f, (tok f w d' fl st s e). split; [exact N|]. intros. now apply ends_more. Qed.
Lemma settles_emit ts g : settles g -> settles (fun f => emit ts (g f)).
Proof. intros (f & x & N & H). exists f, (emit ts x). split; [now apply emit_done|]. intros. now rewrite H. Qed.
Lemma settles_none r g : settles g -> settles (fun f => none_left r (g f)).
Proof. intros H. destruct r; [exact H|]. exists 0, Fail. split; [discriminate|reflexivity]. Qed.
Lemma settles_bind g h : settles g -> (forall v, settles (fun f => h f v)) -> settles (fun f => bind (g f) (h f)).
Proof.
  intros (f & x & N & H) K. destruct x as [v| |]; [|exists f, Fail; split; [discriminate|]; intros; now rewrite H|congruence].
  destruct (K v) as (f2 & y & N2 & H2). exists (Nat.max f f2), y. split; [exact N2|]. intros f' Lf. rewrite H by lia. cbn [bind]. apply H2. lia.
Qed.

Lemma step_ends s e fl st : tidy s e -> (forall s' e' fl' st', tidy s' e' -> List.length s' < List.length s -> ends w d fl' st' s' e') -> ends w d fl st s e.
Proof.
  intros T IH. assert (G : settles (fun f => tok_body (tok f w) w d fl st s e)).
  2:{ destruct G as (f & x & N & H). exists (S f). cbn [tok]. rewrite H by lia. exact N. }
  unfold tok_body. destruct (Nat.leb_spec (List.length s) e) as [Le|Lt]; [now apply settles_const|].
  pose proof (lex_stays e s T Lt) as Ls. pose proof (lex_moves e s Lt) as Lm. unfold moves in Lm. destruct (lex e s) as [r|t r|r|]; [| | |now apply settles_const].
  - apply settles_tok, IH; [|tauto]. eapply tidy_rest; [exact T|tauto|exact Ls].
  - apply settles_emit, settles_tok, IH; [|tauto]. eapply tidy_rest; [exact T|tauto|exact Ls].
  - destruct Lm as (Rr & Lr). assert (Tr : tidy r e) by (eapply tidy_rest; eassumption).
    set (after := next_line e r). assert (Ra : rest_of after r) by apply next_line_rest. pose proof (rest_length _ _ Ra) as La.
    assert (Ta : tidy after e) by (eapply tidy_rest; [exact Tr|exact Ra|now apply next_line_more]).
    assert (Go : forall st', settles (fun f => tok f w d fl st' after e)) by (intro; apply settles_tok, IH; [exact Ta|lia]).
    pose proof (line_ends (List.length after) r) as Nl. destruct (line (List.length r) (List.length after) r) as [args| |]; cbn [bind]; [|now apply settles_const|congruence].
    unfold direct. destruct args as [|[] a]; try now apply settles_const.
    destruct (seqb k (L "define")).
    { destruct a as [|[] a]; try now apply settles_const. destruct (defined w st s0); [now apply settles_const|]. apply settles_none, Go. }
    destruct (seqb k (L "undef")).
    { destruct a as [|[] a]; try now apply settles_const. destruct (among (macros st) s0); [|now apply settles_const]. apply settles_none, Go. }
    destruct (seqb k (L "once")). { apply settles_none, Go. }
    destruct (seqb k (L "import")).
    { destruct a as [|[] a]; try now apply settles_const. destruct (import_var w st s0 false) as [[[] ?] ?]; [|now apply settles_const]. apply settles_none, settles_emit, Go. }
    destruct (seqb k (L "include")).
    { destruct (Nat.leb_spec 128 (S d)); [now apply settles_const|]. destruct a as [|[] a]; try now apply settles_const.
      apply settles_bind; [|intros; apply settles_none, settles_emit, Go]. destruct (open_ends fl st s0 ltac:(lia)) as (f & x & N & Hx). now exists f, x. }
    destruct (seqb k (L "if")); [|now apply settles_const].
    pose proof (if_expr_ends w fl true st a) as Ni. destruct (if_expr w fl true st a) as [[[b rest] st1]| |]; cbn [bind]; [|now apply settles_const|congruence].
    pose proof (find_endif_found true after e Ta) as F. destruct (find_endif true after e) as [[[r1 be] k1]| |]; cbn [bind found] in *; [|now apply settles_const|tauto].
    destruct F as (R1 & L1 & Le1 & Tb).
    pose proof (branches_chose w fl e after (S (List.length r1)) k1 b (if b then Some (after, be) else None) r1 st1) as C.
    destruct (branches (S (List.length r1)) w fl e k1 b (if b then Some (after, be) else None) r1 st1) as [[[block r2] st2]| |]; cbn [bind chose] in *;
      [|now apply settles_const|exfalso; apply C; [eapply tidy_rest; eassumption|exact R1|lia|destruct b; [split; [apply rest_refl|exact Tb]|exact I]]].
    destruct C as (R2 & Le2 & B); [eapply tidy_rest; eassumption|exact R1|lia|destruct b; [split; [apply rest_refl|exact Tb]|exact I]|].
    apply settles_bind.
    + destruct block as [[t te]|]; [|now apply settles_const]. destruct B as (Rt & Tt). apply settles_tok, IH; [exact Tt|]. pose proof (rest_length _ _ Rt). lia.
    + intro v. apply settles_none, settles_emit, settles_tok, IH; [eapply tidy_rest; eassumption|]. pose proof (rest_length _ _ R2). lia.
Qed.
Lemma level_ends : forall n s e fl st, tidy s e -> List.length s <= n -> ends w d fl st s e.
Proof.
  induction n as [|n IH]; intros s e fl st T Ln; apply step_ends; auto; intros; [lia|]. apply IH; [assumption|lia].
Qed.
End Ends.

Lemma tidy_0 s : tidy s 0. Proof. split; [lia|now left]. Qed.
Lemma tok_ends w : forall k d, 128 <= d + k -> forall s e fl st, tidy s e -> ends w d fl st s e.
Proof.
  induction k as [|k IH]; intros d Hd s e fl st T; eapply level_ends; eauto; intros Ld *; [lia|]. apply IH; [lia|apply tidy_0].
Qed.
Theorem tokenize_ends w root : exists fuel, tokenize fuel w root <> NoFuel.
Proof.
  unfold tokenize, open_file. set (n := clean w root). cbn [lookup files start]. destruct (content w n) as [t|]; [|exists 0; discriminate].
  apply (tok_ends w 128); [lia|apply tidy_0].
Qed.
