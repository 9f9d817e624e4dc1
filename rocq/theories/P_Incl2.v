(** Include parsing of cl.exe output, and the recording of names. *)
From Coq Require Import List Arith NArith Bool Ascii String Lia.
From Verif Require Import M_Path M_Names M_Incl S_Incl P_Incl.
Import ListNotations.
Open Scope nat_scope.

Definition colon : ascii := ":"%char.
Lemma to_colon_iff s a b : to_colon s = Some (a, b) <-> s = a ++ colon :: b /\ ~ In colon a.
Proof.
  revert a b. induction s as [|c s IH]; intros a b; cbn [to_colon].
  - split; [discriminate|]. intros [E _]. destruct a; discriminate.
  - fold colon. destruct (Ascii.eqb_spec c colon) as [->|N].
    + split.
      * intros [= <- <-]. split; [reflexivity|easy].
      * intros [E H]. destruct a as [|x a]; [injection E as ->; reflexivity|]. exfalso. apply H. injection E as <- _. now left.
    + split.
      * destruct (to_colon s) as [[a' b']|] eqn:E; [|discriminate]. intros [= <- <-].
        destruct (proj1 (IH a' b') eq_refl) as [-> Y]. split; [reflexivity|]. intros [H|H]; congruence.
      * intros [E2 H]. destruct a as [|x a]; [injection E2 as -> _; congruence|]. injection E2 as <- E2.
        replace (to_colon s) with (Some (a, b)); [reflexivity|]. symmetry. apply IH. split; [exact E2|]. intros Z. apply H. now right.
Qed.
Lemma skip_spaces_iff s : exists k, s = repeat sp k ++ skip_spaces s /\ match skip_spaces s with c :: _ => c <> sp | [] => True end.
Proof.
  induction s as [|c s (k & E & H)]; [now exists 0|]. cbn [skip_spaces]. destruct (Ascii.eqb_spec c sp) as [->|N].
  - exists (S k). split; [cbn [repeat app]; now rewrite <- E|exact H].
  - exists 0. split; [reflexivity|exact N].
Qed.
Lemma skip_spaces_exact k c r : c <> sp -> skip_spaces (repeat sp k ++ c :: r) = c :: r.
Proof. intros N. induction k as [|k IH]; cbn [repeat app skip_spaces]; [now destruct (Ascii.eqb_spec c sp)|exact IH]. Qed.

Lemma letter_iff c : letter c = true <-> exists i, i < 26 /\ (c = ascii_of_nat (65 + i) \/ c = ascii_of_nat (97 + i)).
Proof.
  unfold letter. cbn zeta. rewrite orb_true_iff, !andb_true_iff, !Nat.leb_le. split.
  - intros [[A B]|[A B]].
    + exists (nat_of_ascii c - 65). split; [lia|]. left. rewrite <- (ascii_nat_embedding c) at 1. f_equal. lia.
    + exists (nat_of_ascii c - 97). split; [lia|]. right. rewrite <- (ascii_nat_embedding c) at 1. f_equal. lia.
  - intros (i & Hi & [-> | ->]); rewrite nat_ascii_embedding by lia; lia.
Qed.
Lemma letter_plain c : letter c = true -> c <> sp /\ c <> colon /\ forbidden c = false.
Proof.
  intros H. split; [intros ->; discriminate|split; [intros ->; discriminate|]].
  destruct (forbidden c) eqn:F; [|reflexivity]. unfold forbidden in F. cbn [existsb] in F. rewrite !orb_true_iff, !Ascii.eqb_eq in F.
  repeat destruct F as [F|F]; subst; discriminate.
Qed.
Lemma count_colons s : List.length (filter (Ascii.eqb colon) s) = 0 <-> ~ In colon s.
Proof.
  split.
  - intros H I. assert (X : In colon (filter (Ascii.eqb colon) s)) by (apply filter_In; split; [exact I|apply Ascii.eqb_refl]).
    destruct (filter (Ascii.eqb colon) s); [destruct X|discriminate].
  - intros H. destruct (filter (Ascii.eqb colon) s) as [|x l] eqn:E; [reflexivity|]. exfalso.
    assert (X : In x (filter (Ascii.eqb colon) s)) by (rewrite E; now left). apply filter_In in X. destruct X as [X Y].
    apply Ascii.eqb_eq in Y. now subst.
Qed.
Lemma forbidden_iff c : forbidden c = true \/ c = colon <-> In c (L "<>|?*:") \/ c = Q.
Proof.
  unfold forbidden, L. cbn [existsb list_ascii_of_string In]. rewrite !orb_true_iff, !Ascii.eqb_eq. unfold colon, Q.
  split; intros H; repeat destruct H as [H|H]; subst; try discriminate; auto 10; try (exfalso; easy).
Qed.
Definition looks_full (s : str) : bool :=
  match s with
  | [] => false
  | c1 :: rest => valid_path s && letter c1 && match rest with c2 :: _ => Ascii.eqb c2 ":"%char | [] => false end
  end.
Lemma looks_full_iff s : looks_full s = true <-> drive_path s.
Proof.
  unfold drive_path. destruct s as [|d s]; cbn [looks_full]; [split; [discriminate|intros (d & r & E & _); discriminate]|].
  rewrite !andb_true_iff. destruct s as [|c2 rest]; [split; [intros [_ X]; discriminate|intros (d' & r & E & _); discriminate]|].
  rewrite Ascii.eqb_eq. unfold valid_path. rewrite andb_true_iff, negb_true_iff, Nat.leb_le. split.
  - intros [[[F C] Ld] ->]. exists d, rest. split; [reflexivity|split; [now apply letter_iff|]].
    destruct (letter_plain d Ld) as (_ & Dc & _).
    fold colon in C. cbn [filter] in C. destruct (Ascii.eqb_spec colon d) as [X|_]; [congruence|]. rewrite Ascii.eqb_refl in C. cbn [List.length] in C.
    assert (NC : ~ In colon rest) by (apply count_colons; lia).
    intros c Hc. assert (NF : ~ (forbidden c = true \/ c = colon)).
    { intros [X| ->]; [|contradiction]. assert (Y : existsb forbidden (d :: ":"%char :: rest) = true) by (apply existsb_exists; exists c; split; [right; now right|exact X]). congruence. }
    rewrite forbidden_iff in NF. tauto.
  - intros (d' & r & [= <- -> <-] & Ld & H). apply letter_iff in Ld. destruct (letter_plain d Ld) as (_ & Dc & Df).
    split; [split; [split|]|]; auto.
    + destruct (existsb forbidden (d :: ":"%char :: rest)) eqn:X; [|reflexivity]. apply existsb_exists in X. destruct X as (c & [<-|[<-|X]] & Y); [congruence|discriminate|].
      destruct (H c X) as [A B]. exfalso. assert (Z : In c (L "<>|?*:") \/ c = Q) by (apply forbidden_iff; now left). tauto.
    + fold colon. cbn [filter]. destruct (Ascii.eqb_spec colon d) as [X|_]; [congruence|]. rewrite Ascii.eqb_refl. cbn [List.length].
      replace (List.length (filter (Ascii.eqb colon) rest)) with 0; [lia|]. symmetry. apply count_colons. intros X. destruct (H _ X) as [A _].
      apply A. now repeat (try (now left); right).
Qed.

Lemma mscl_line_iff l n : mscl_line l = Some n <->
  exists a b k, a <> [] /\ b <> [] /\ ~ In ":"%char a /\ ~ In ":"%char b /\ drive_path n /\ l = a ++ ":"%char :: b ++ ":"%char :: repeat sp k ++ n.
Proof.
  fold colon. unfold mscl_line. split.
  - destruct (to_colon l) as [[[|x a] r]|] eqn:T1; try discriminate. apply to_colon_iff in T1. destruct T1 as [-> N1].
    destruct (to_colon r) as [[[|y b] r2]|] eqn:T2; try discriminate. apply to_colon_iff in T2. destruct T2 as [-> N2].
    destruct (skip_spaces_iff r2) as (k & E & _). intros H.
    assert (X : looks_full (skip_spaces r2) = true /\ skip_spaces r2 = n).
    { unfold looks_full. destruct (skip_spaces r2) as [|c1 rest]; [discriminate|].
      destruct (valid_path (c1 :: rest) && letter c1 && match rest with c2 :: _ => Ascii.eqb c2 ":"%char | [] => false end); [|discriminate].
      split; congruence. }
    destruct X as [X1 X2]. apply looks_full_iff in X1. rewrite X2 in X1, E. exists (x :: a), (y :: b), k. rewrite E. split; [discriminate|split; [discriminate|split; [exact N1|split; [exact N2|split; [exact X1|reflexivity]]]]].
  - intros (a & b & k & A & B & NA & NB & D & ->).
    assert (T1 : to_colon (a ++ colon :: b ++ colon :: repeat sp k ++ n) = Some (a, b ++ colon :: repeat sp k ++ n)) by (apply to_colon_iff; auto).
    assert (T2 : to_colon (b ++ colon :: repeat sp k ++ n) = Some (b, repeat sp k ++ n)) by (apply to_colon_iff; auto).
    rewrite T1. destruct a as [|x a]; [congruence|]. rewrite T2. destruct b as [|y b]; [congruence|].
    pose proof (proj2 (looks_full_iff n) D) as LF0. destruct n as [|c n]; [discriminate|].
    assert (Hc : c <> sp). { cbn [looks_full] in LF0. apply andb_true_iff in LF0. destruct LF0 as [LF0 _]. apply andb_true_iff in LF0. now apply (letter_plain c). }
    rewrite skip_spaces_exact by exact Hc. unfold looks_full in LF0. now rewrite LF0.
Qed.

Lemma drop_cr_iff l x : drop_cr l = x <-> l = x ++ [CR] \/ l = x /\ forall y, l <> y ++ [CR].
Proof.
  unfold drop_cr. destruct (rev l) as [|c r] eqn:E.
  - assert (l = []) as -> by (rewrite <- (rev_involutive l), E; reflexivity). split.
    + intros <-. right. split; [reflexivity|]. intros y H. destruct y; discriminate.
    + intros [H|[H _]]; [destruct x; discriminate|exact H].
  - assert (El : l = rev r ++ [c]) by (rewrite <- (rev_involutive l), E; reflexivity). rewrite El. clear E El l.
    destruct (Ascii.eqb_spec c CR) as [->|N].
    + split; [intros <-; now left|]. intros [H|[H K]]; [now apply app_inj_tail in H|]. now destruct (K (rev r)).
    + split.
      * intros <-. right. split; [reflexivity|]. intros y H. apply app_inj_tail in H. tauto.
      * intros [H|[H _]]; [apply app_inj_tail in H; tauto|exact H].
Qed.

Lemma mscl_loop_line l s acc : no_lf l -> mscl_loop acc (l ++ LF :: s) = add1 (mscl_line (drop_cr (rev acc ++ l))) (mscl_loop [] s).
Proof.
  revert acc. induction l as [|c l IH]; intros acc H; cbn [app mscl_loop].
  - rewrite Ascii.eqb_refl. now rewrite app_nil_r.
  - destruct (Ascii.eqb_spec c LF) as [->|N]; [exfalso; apply H; now left|]. rewrite IH by (intros X; apply H; now right).
    cbn [rev]. now rewrite <- app_assoc.
Qed.
Lemma mscl_loop_end l acc : no_lf l -> mscl_loop acc l = [].
Proof.
  revert acc. induction l as [|c l IH]; intros acc H; cbn [mscl_loop]; [reflexivity|].
  destruct (Ascii.eqb_spec c LF) as [->|N]; [exfalso; apply H; now left|]. apply IH. intros X; apply H; now right.
Qed.
Definition with_lf (ls : list str) : list (str * ascii) := map (fun l => (l, LF)) ls.

Lemma mscl_lines ls last : (forall l, In l (ls ++ [last]) -> no_lf l) ->
  forall n, In n (mscl_names (text_of (with_lf ls) last)) <-> by_show_includes ls n.
Proof.
  unfold mscl_names, by_show_includes. induction ls as [|l ls IH]; intros HL n; cbn [with_lf map text_of].
  - rewrite mscl_loop_end by (apply HL; now left). cbn [In]. split; [intros []|]. intros (l & a & b & k & [[[] _]|[]] & _).
  - rewrite mscl_loop_line by (apply HL; now left). cbn [rev app].
    specialize (IH (fun l0 H => HL l0 (or_intror H)) n). fold (with_lf ls) in *.
    assert (X : In n (add1 (mscl_line (drop_cr l)) (mscl_loop [] (text_of (with_lf ls) last))) <->
      mscl_line (drop_cr l) = Some n \/ In n (mscl_loop [] (text_of (with_lf ls) last))).
    { destruct (mscl_line (drop_cr l)); cbn [add1 In]; split.
      - intros [->|H]; auto.
      - intros [[= ->]|H]; auto.
      - auto.
      - intros [H|H]; [discriminate|auto]. }
    rewrite X, IH. clear X. rewrite mscl_line_iff. destruct (drop_cr_iff l (drop_cr l)) as [D _]. specialize (D eq_refl).
    split.
    + intros [(a & b & k & H)|(x & a & b & k & H1 & H2)].
      * exists (drop_cr l), a, b, k. split; [|exact H]. destruct D as [D|[D1 D2]].
        -- right. rewrite <- D. now left.
        -- left. rewrite <- D1. split; [now left|exact D2].
      * exists x, a, b, k. split; [|exact H2]. destruct H1 as [[H1 H3]|H1]; [left; split; [now right|exact H3]|right; now right].
    + intros (x & a & b & k & H1 & H2).
      assert (Y : x = drop_cr l \/ (In x ls /\ (forall x0, x <> x0 ++ [CR]) \/ In (x ++ [CR]) ls)).
      { destruct H1 as [[[->|H1] H3]|[H1|H1]]; auto.
        - left. symmetry. apply drop_cr_iff. auto.
        - left. symmetry. apply drop_cr_iff. auto. }
      destruct Y as [->|Y]; [left; eauto|]. right. exists x, a, b, k. auto.
Qed.

(** * Preprocessed output of cl.exe *)
Definition is_blank (c : ascii) : bool := Ascii.eqb c sp || Ascii.eqb c TAB.
Lemma find_line1_len s : forall b b' r, find_line1 b s = Some (b', r) -> List.length r + 8 <= List.length s.
Proof.
  induction s as [|c s IH]; intros b b' r; cbn [find_line1].
  - discriminate.
  - destruct (strip line1 (c :: s)) as [x|] eqn:E.
    + intros [= <- <-]. apply strip_iff in E. rewrite E, app_length. cbn. lia.
    + intros H. apply IH in H. cbn [List.length]. lia.
Qed.
Lemma to_quote_len s a b : to_quote s = Some (a, b) -> List.length b < List.length s.
Proof. rewrite to_quote_iff. intros [-> _]. rewrite app_length. cbn [List.length]. lia. Qed.
Lemma pre_fuel : forall f f' b s, List.length s < f -> List.length s < f' -> pre_loop f b s = pre_loop f' b s.
Proof.
  induction f as [|f IH]; intros f' b s H H'; [lia|]. destruct f' as [|f']; [lia|]. cbn [pre_loop].
  destruct (find_line1 b s) as [[b1 r]|] eqn:E; [|reflexivity]. apply find_line1_len in E.
  destruct (at_line_start b1); [|apply IH; lia].
  destruct (to_quote r) as [[x r1]|] eqn:E1; [|reflexivity]. apply to_quote_len in E1.
  destruct (to_quote r1) as [[n r2]|] eqn:E2; [|reflexivity]. apply to_quote_len in E2. f_equal. apply IH; cbn [List.length]; lia.
Qed.
Definition pre_run (b s : str) : option (list str) := pre_loop (S (List.length s)) b s.
Lemma pre_run_eq b s : pre_run b s =
  match find_line1 b s with
  | None => Some []
  | Some (b1, r) =>
      if at_line_start b1 then
        match to_quote r with
        | None => None
        | Some (x, r1) => match to_quote r1 with
                          | None => None
                          | Some (name, r2) => option_map (cons name) (pre_run (rev name ++ Q :: rev x ++ rev line1 ++ b1) (Q :: r2))
                          end
        end
      else pre_run (rev line1 ++ b1) r
  end.
Proof.
  unfold pre_run at 1. cbn [pre_loop].
  destruct (find_line1 b s) as [[b1 r]|] eqn:E; [|reflexivity]. apply find_line1_len in E.
  destruct (at_line_start b1); [|unfold pre_run; apply pre_fuel; lia].
  destruct (to_quote r) as [[x r1]|] eqn:E1; [|reflexivity]. apply to_quote_len in E1.
  destruct (to_quote r1) as [[n r2]|] eqn:E2; [|reflexivity]. apply to_quote_len in E2. f_equal. unfold pre_run. apply pre_fuel; cbn [List.length]; lia.
Qed.

(** [k] is what follows a line here: nothing, or LF. *)
Definition cont_lf (k : str) : Prop := k = [] \/ exists r, k = LF :: r.
Lemma strip_none_lf pre s k : cont_lf k -> ~ In LF pre -> strip pre s = None -> strip pre (s ++ k) = None.
Proof.
  intros C. revert s. induction pre as [|x pre IH]; intros s N; cbn [strip]; [congruence|].
  destruct s as [|y s]; cbn [app].
  - intros _. destruct C as [->|(r & ->)]; [reflexivity|]. destruct (Ascii.eqb_spec x LF) as [->|_]; [exfalso; apply N; now left|reflexivity].
  - destruct (Ascii.eqb x y); [|auto]. apply IH. intros X. apply N. now right.
Qed.
Lemma line1_no_lf : ~ In LF line1.
Proof. intros H. repeat (destruct H as [H|H]; [discriminate|]). destruct H. Qed.

(** Searching through a line: found in it, or not. *)
Lemma find_line1_line k : cont_lf k -> forall t b,
  (exists u v, t = u ++ line1 ++ v /\ find_line1 b (t ++ k) = Some (rev u ++ b, v ++ k)) \/
  find_line1 b (t ++ k) = find_line1 (rev t ++ b) k.
Proof.
  intros C. induction t as [|c t IH]; intros b.
  - right. reflexivity.
  - cbn [app]. destruct (strip line1 (c :: t)) as [v|] eqn:E.
    + left. exists [], v. assert (E2 := strip_app _ _ _ k E). apply strip_iff in E. split; [exact E|].
      cbn [find_line1]. change (c :: t ++ k) with ((c :: t) ++ k). rewrite E2. reflexivity.
    + assert (E2 := strip_none_lf _ _ k C line1_no_lf E). cbn [find_line1]. change (c :: t ++ k) with ((c :: t) ++ k). rewrite E2. cbn [app].
      destruct (IH (c :: b)) as [(u & v & -> & F)|F].
      * left. exists (c :: u), v. split; [reflexivity|]. rewrite F. cbn [rev]. now rewrite <- app_assoc.
      * right. rewrite F. cbn [rev]. now rewrite <- app_assoc.
Qed.
Lemma dead_ext u b : at_line_start b = false -> no_lf u -> at_line_start (u ++ b) = false.
Proof.
  intros H. induction u as [|c u IH]; intros N; [exact H|]. cbn [app at_line_start].
  destruct (Ascii.eqb c sp || Ascii.eqb c TAB); [apply IH; intros X; apply N; now right|]. apply Ascii.eqb_neq. intros ->. apply N. now left.
Qed.
Lemma no_lf_rev u : no_lf u -> no_lf (rev u).
Proof. intros H X. apply H. now apply in_rev. Qed.
Lemma no_lf_app a b : no_lf (a ++ b) <-> no_lf a /\ no_lf b.
Proof. unfold no_lf. rewrite in_app_iff. tauto. Qed.

(** The rest of a line after something that is not blank. *)
Lemma dead_line k : cont_lf k -> forall m t b, List.length t <= m -> at_line_start b = false -> no_lf t ->
  pre_run b (t ++ k) = pre_run (rev t ++ b) k.
Proof.
  intros C. induction m as [|m IH]; intros t b Hm Hb NL.
  - destruct t; [reflexivity|cbn in Hm; lia].
  - rewrite pre_run_eq. destruct (find_line1_line k C t b) as [(u & v & -> & F)|F].
    + rewrite F. apply no_lf_app in NL. destruct NL as [NU NV]. apply no_lf_app in NV. destruct NV as [_ NV].
      rewrite dead_ext by (auto; now apply no_lf_rev). rewrite IH; auto.
      * rewrite !rev_app_distr, !app_assoc. reflexivity.
      * rewrite !app_length in Hm. cbn in Hm. lia.
    + rewrite F. now rewrite <- pre_run_eq.
Qed.

Definition line_names (l : str) (n : str) : Prop := exists b x tail, blanks b /\ ~ In Q x /\ ~ In Q n /\ l = b ++ L "#line 1 " ++ x ++ Q :: n ++ Q :: tail.
Lemma split_blanks l : exists b t, blanks b /\ l = b ++ t /\ match t with c :: _ => is_blank c = false | [] => True end.
Proof.
  induction l as [|c l (b & t & B & E & H)]; [exists [], []; split; [intros c []|auto]|].
  destruct (is_blank c) eqn:X.
  - exists (c :: b), t. split; [|split; [now rewrite E|exact H]]. intros d [<-|D]; [|auto]. unfold is_blank in X. rewrite orb_true_iff, !Ascii.eqb_eq in X. exact X.
  - exists [], (c :: l). split; [intros d []|auto].
Qed.
Lemma blanks_unique b t b' t' : blanks b -> blanks b' -> b ++ t = b' ++ t' ->
  match t with c :: _ => is_blank c = false | [] => True end -> match t' with c :: _ => is_blank c = false | [] => True end -> b = b' /\ t = t'.
Proof.
  assert (BB : forall c, c = sp \/ c = TAB -> is_blank c = true) by (intros c [-> | ->]; reflexivity).
  revert b'. induction b as [|c b IH]; intros b' HB HB' E Ht Ht'; destruct b' as [|c' b'].
  - auto.
  - cbn [app] in E. subst t. rewrite (BB c') in Ht by (apply HB'; now left). discriminate.
  - cbn [app] in E. subst t'. rewrite (BB c) in Ht' by (apply HB; now left). discriminate.
  - cbn [app] in E. injection E as -> E. destruct (IH b') as [-> ->]; auto; intros d D; [apply HB|apply HB']; now right.
Qed.
Lemma at_line_start_blanks b acc : blanks b -> at_line_start acc = true -> at_line_start (rev b ++ acc) = true.
Proof.
  intros HB HA. induction b as [|c b IH] using rev_ind; [exact HA|]. rewrite rev_app_distr. cbn [rev app at_line_start].
  assert (X : c = sp \/ c = TAB) by (apply HB, in_or_app; right; now left). assert (Y : blanks b) by (intros d D; apply HB, in_or_app; now left).
  destruct X as [-> | ->]; cbn; auto.
Qed.
Lemma blanks_no_line1 b c : blanks b -> ~ In hash b -> blanks (c :: b) -> c <> hash.
Proof. intros _ _ H ->. destruct (H hash (or_introl eq_refl)); discriminate. Qed.
Lemma find_line1_blanks b acc s : blanks b -> find_line1 acc (b ++ s) = find_line1 (rev b ++ acc) s.
Proof.
  revert acc. induction b as [|c b IH]; intros acc HB; [reflexivity|]. cbn [app find_line1 rev].
  assert (Hc : c = sp \/ c = TAB) by (apply HB; now left).
  replace (strip line1 (c :: b ++ s)) with (@None str) by (destruct Hc as [-> | ->]; reflexivity).
  rewrite IH by (intros d D; apply HB; now right). now rewrite <- app_assoc.
Qed.

Lemma pre_line l acc k : cont_lf k -> at_line_start acc = true -> no_lf l -> two_quotes l ->
  (exists n, line_names l n /\ (forall n', line_names l n' -> n' = n) /\ pre_run acc (l ++ k) = option_map (cons n) (pre_run (rev l ++ acc) k)) \/
  ((forall n, ~ line_names l n) /\ pre_run acc (l ++ k) = pre_run (rev l ++ acc) k).
Proof.
  intros C HA NL TQ. destruct (split_blanks l) as (b & t & HB & -> & Ht).
  apply no_lf_app in NL. destruct NL as [_ NL].
  assert (LN : forall n, line_names (b ++ t) n -> exists x tl, ~ In Q x /\ ~ In Q n /\ t = line1 ++ x ++ Q :: n ++ Q :: tl).
  { intros n (b' & x & tl & B1 & B2 & B3 & E). exists x, tl. split; [exact B2|split; [exact B3|]].
    apply (blanks_unique _ _ _ _ HB B1 E Ht). reflexivity. }
  assert (ST : pre_run acc (b ++ t ++ k) = pre_run (rev b ++ acc) (t ++ k)).
  { rewrite (pre_run_eq acc), find_line1_blanks by exact HB. now rewrite <- pre_run_eq. }
  rewrite <- app_assoc, ST. rewrite rev_app_distr, <- app_assoc.
  pose proof (at_line_start_blanks b acc HB HA) as HA2.
  destruct (strip line1 t) as [r|] eqn:S1.
  - apply strip_iff in S1. subst t. destruct (TQ b r HB eq_refl) as (x0 & y0 & z0 & ->).
    apply no_lf_app in NL. destruct NL as [_ NL]. left.
    destruct (to_quote (x0 ++ Q :: y0 ++ Q :: z0)) as [[x r1]|] eqn:T1.
    2:{ exfalso. apply to_quote_none in T1. apply T1, in_or_app. right. now left. }
    assert (T1' := T1). apply to_quote_iff in T1. destruct T1 as [T1 NX].
    assert (HQ : In Q r1).
    { apply to_quote_iff in T1'. destruct T1' as [E _]. revert E NX. clear. revert x0. induction x as [|c x IH]; intros x0 E NX.
      - destruct x0 as [|c0 x0]; cbn [app] in E.
        + injection E as <-. apply in_or_app. right. now left.
        + injection E as _ <-. apply in_or_app. right. now left.
      - destruct x0 as [|c0 x0]; cbn [app] in E; injection E as E0 E.
        + exfalso. apply NX. left; congruence.
        + apply (IH x0 E). intros X. apply NX. now right. }
    destruct (to_quote r1) as [[n r2]|] eqn:T2; [|exfalso; now apply to_quote_none in T2].
    assert (T2' := T2). apply to_quote_iff in T2. destruct T2 as [T2 NN].
    assert (FORM : x0 ++ Q :: y0 ++ Q :: z0 = x ++ Q :: n ++ Q :: r2) by (rewrite T1, T2; reflexivity). rewrite FORM in *. clear x0 y0 z0 FORM.
    exists n. split; [|split].
    + exists b, x, r2. auto.
    + intros n' H. destruct (LN n' H) as (x' & tl & N1 & N2 & E). apply app_inv_head in E.
      assert (A1 : to_quote (x' ++ Q :: n' ++ Q :: tl) = Some (x', n' ++ Q :: tl)) by (apply to_quote_iff; auto).
      rewrite <- E, T1' in A1. injection A1 as -> ->.
      assert (A2 : to_quote (n' ++ Q :: tl) = Some (n', tl)) by (apply to_quote_iff; auto). rewrite T2' in A2. congruence.
    + rewrite pre_run_eq. rewrite <- app_assoc. unfold line1 at 1. change (L "#line 1 ") with line1.
      assert (FL : find_line1 (rev b ++ acc) (line1 ++ (x ++ Q :: n ++ Q :: r2) ++ k) = Some (rev b ++ acc, (x ++ Q :: n ++ Q :: r2) ++ k)).
      { assert (Z : strip line1 (line1 ++ (x ++ Q :: n ++ Q :: r2) ++ k) = Some ((x ++ Q :: n ++ Q :: r2) ++ k)) by (apply strip_iff; reflexivity).
        destruct (line1 ++ (x ++ Q :: n ++ Q :: r2) ++ k) eqn:EE; [discriminate|]. cbn [find_line1]. now rewrite Z. }
      rewrite FL, HA2, (to_quote_app _ _ _ k T1'). rewrite T2 in *. rewrite (to_quote_app _ _ _ k T2'). f_equal.
      change (Q :: r2 ++ k) with ((Q :: r2) ++ k). apply no_lf_app in NL. destruct NL as [NLx NL].
      change (Q :: n ++ Q :: r2) with ([Q] ++ n ++ Q :: r2) in NL. apply no_lf_app in NL. destruct NL as [NLq NL]. apply no_lf_app in NL. destruct NL as [NLn NL].
      rewrite (dead_line k C (List.length (Q :: r2))); auto.
      * f_equal. rewrite !rev_app_distr. cbn [rev]. rewrite !rev_app_distr. cbn [rev]. rewrite <- !app_assoc. cbn [app]. rewrite <- ?app_assoc. cbn [app]. reflexivity.
      * apply dead_ext; [reflexivity|now apply no_lf_rev].
  - right. split.
    + intros n H. destruct (LN n H) as (x & tl & _ & _ & E). assert (Z : strip line1 t = Some (x ++ Q :: n ++ Q :: tl)) by (apply strip_iff; exact E). congruence.
    + destruct t as [|c t]; [reflexivity|].
      rewrite pre_run_eq. cbn [app find_line1]. assert (Z := strip_none_lf _ _ k C line1_no_lf S1). cbn [app] in Z. rewrite Z. rewrite <- pre_run_eq.
      rewrite (dead_line k C (List.length t)); auto.
      * f_equal. cbn [rev]. now rewrite <- app_assoc.
      * cbn [at_line_start]. unfold is_blank in Ht. rewrite Ht. apply Ascii.eqb_neq. intros ->. apply NL. now left.
      * intros X. apply NL. now right.
Qed.

Lemma pre_lines : forall ls last acc, (forall l, In l (ls ++ [last]) -> no_lf l /\ two_quotes l) -> at_line_start acc = true ->
  exists names, pre_run acc (text_of (with_lf ls) last) = Some names /\ forall n, In n names <-> exists l, In l (ls ++ [last]) /\ line_names l n.
Proof.
  induction ls as [|l ls IH]; intros last acc HL HA; cbn [with_lf map text_of app].
  - destruct (HL last (or_introl eq_refl)) as [NL TQ].
    replace (pre_run acc last) with (pre_run acc (last ++ [])) by now rewrite app_nil_r.
    destruct (pre_line last acc [] (or_introl eq_refl) HA NL TQ) as [(n & L1 & L2 & E)|[L1 E]]; rewrite E.
    + exists [n]. split; [reflexivity|]. intros n'. cbn [In]. split.
      * intros [<-|[]]. exists last. auto.
      * intros (l & [<-|[]] & H). left. symmetry. auto.
    + exists []. split; [reflexivity|]. intros n'. cbn [In]. split; [intros []|]. intros (l & [<-|[]] & H). now apply (L1 n').
  - destruct (HL l (or_introl eq_refl)) as [NL TQ]. fold (with_lf ls).
    assert (C : cont_lf (LF :: text_of (with_lf ls) last)) by (right; eauto).
    destruct (IH last (LF :: rev l ++ acc) (fun x H => HL x (or_intror H)) eq_refl) as (names & EN & HN).
    assert (X : pre_run (rev l ++ acc) (LF :: text_of (with_lf ls) last) = Some names).
    { rewrite <- EN. rewrite !pre_run_eq. cbn [find_line1]. reflexivity. }
    destruct (pre_line l acc _ C HA NL TQ) as [(n & L1 & L2 & E)|[L1 E]]; rewrite E, X; cbn [option_map].
    + exists (n :: names). split; [reflexivity|]. intros n'. cbn [In]. rewrite HN. split.
      * intros [<-|(x & H1 & H2)]; [exists l; auto|exists x; auto].
      * intros (x & [<-|H1] & H2); [left; symmetry; auto|right; eauto].
    + exists names. split; [reflexivity|]. intros n'. cbn [In]. rewrite HN. split.
      * intros (x & H1 & H2). eauto.
      * intros (x & [<-|H1] & H2); [now destruct (L1 n')|eauto].
Qed.
