(** Include parsing, line by line. *)
From Coq Require Import List Arith NArith Bool Ascii String Lia.
From Verif Require Import M_Path M_Names M_Incl S_Incl.
Import ListNotations.
Open Scope nat_scope.

(** [k] is what follows a line: nothing, or a line end. *)
Definition cont (k : str) : Prop := k = [] \/ exists c r, k = c :: r /\ is_nl c = true.

Lemma is_nl_iff c : is_nl c = true <-> c = LF \/ c = CR.
Proof. unfold is_nl. rewrite orb_true_iff, !Ascii.eqb_eq. tauto. Qed.
Lemma not_nl_sym c x : is_nl c = true -> is_nl x = false -> Ascii.eqb x c = false /\ Ascii.eqb c x = false.
Proof. intros A B. assert (x <> c) by (intros ->; congruence). split; apply Ascii.eqb_neq; congruence. Qed.

Lemma strip_iff pre s r : strip pre s = Some r <-> s = pre ++ r.
Proof.
  revert s. induction pre as [|x pre IH]; intros s; cbn [strip app]; [split; congruence|].
  destruct s as [|y s]; [split; congruence|]. destruct (Ascii.eqb_spec x y) as [->|N].
  - rewrite IH. split; congruence.
  - split; congruence.
Qed.
Lemma strip_app pre s r k : strip pre s = Some r -> strip pre (s ++ k) = Some (r ++ k).
Proof. rewrite !strip_iff. intros ->. now rewrite app_assoc. Qed.
Lemma strip_none_app pre s k : cont k -> Forall (fun x => is_nl x = false) pre -> strip pre s = None -> strip pre (s ++ k) = None.
Proof.
  intros C F. revert s. induction F as [|x pre Fx F IH]; intros s; cbn [strip]; [congruence|].
  destruct s as [|y s]; cbn [app].
  - intros _. destruct C as [->|(c & r & -> & Hc)]; [reflexivity|]. destruct (not_nl_sym c x Hc Fx) as [-> _]. reflexivity.
  - destruct (Ascii.eqb x y); auto.
Qed.
Lemma to_quote_iff s a b : to_quote s = Some (a, b) <-> s = a ++ Q :: b /\ ~ In Q a.
Proof.
  revert a b. induction s as [|c s IH]; intros a b; cbn [to_quote].
  - split; [discriminate|]. intros [E _]. destruct a; discriminate.
  - destruct (Ascii.eqb_spec c Q) as [->|N].
    + split.
      * intros [= <- <-]. split; [reflexivity|easy].
      * intros [E H]. destruct a as [|x a]; [injection E as ->; reflexivity|]. exfalso. apply H. injection E as <- _. now left.
    + split.
      * destruct (to_quote s) as [[a' b']|] eqn:E; [|discriminate]. intros [= <- <-].
        destruct (proj1 (IH a' b') eq_refl) as [-> Y]. split; [reflexivity|]. intros [H|H]; congruence.
      * intros [E2 H]. destruct a as [|x a]; [injection E2 as -> _; congruence|]. injection E2 as <- E2.
        replace (to_quote s) with (Some (a, b)); [reflexivity|]. symmetry. apply IH. split; [exact E2|]. intros Z. apply H. now right.
Qed.
Lemma to_quote_none s : to_quote s = None <-> ~ In Q s.
Proof.
  induction s as [|c s IH]; cbn [to_quote In]; [tauto|]. destruct (Ascii.eqb_spec c Q) as [->|N].
  - split; [discriminate|]. intros H. exfalso. apply H. now left.
  - destruct (to_quote s) as [[a b]|].
    + split; [discriminate|]. intros H. assert (X : Some (a, b) = None) by (apply IH; tauto). discriminate.
    + split; [|reflexivity]. intros _ [H|H]; [congruence|]. now apply IH in H.
Qed.
Lemma to_quote_app s a b k : to_quote s = Some (a, b) -> to_quote (s ++ k) = Some (a, b ++ k).
Proof. rewrite !to_quote_iff. intros [-> H]. split; [now rewrite <- app_assoc|exact H]. Qed.

Lemma is_digit_iff c : is_digit c = true <-> exists d, d < 10 /\ c = ascii_of_nat (48 + d).
Proof.
  unfold is_digit. cbn zeta. rewrite andb_true_iff, !Nat.leb_le. split.
  - intros [A B]. exists (nat_of_ascii c - 48). split; [lia|]. rewrite <- (ascii_nat_embedding c) at 1. f_equal. lia.
  - intros (d & Hd & ->). rewrite nat_ascii_embedding by lia. lia.
Qed.
Lemma digit_not_nl c : is_digit c = true -> is_nl c = false.
Proof. destruct (is_nl c) eqn:E; [|reflexivity]. apply is_nl_iff in E. destruct E as [->| ->]; discriminate. Qed.

Lemma skip_digits_iff p s p' s' : skip_digits p s = (p', s') ->
  exists ds, Forall (fun c => is_digit c = true) ds /\ s = ds ++ s' /\ p' = last ds p /\ match s' with c :: _ => is_digit c = false | [] => True end.
Proof.
  revert p. induction s as [|c s IH]; intros p; cbn [skip_digits].
  - intros [= <- <-]. exists []. cbn. auto.
  - destruct (is_digit c) eqn:D.
    + intros H. destruct (IH _ H) as (ds & A & B & C & E). exists (c :: ds). repeat split; auto.
      * now rewrite B.
      * rewrite C. destruct ds; [reflexivity|]. cbn [last]. clear. revert a. induction ds; intros x; [reflexivity|]. cbn [last]. destruct ds; auto.
    + intros [= <- <-]. exists []. cbn. auto.
Qed.
Lemma skip_digits_app p s k p' s' : cont k -> skip_digits p s = (p', s') -> skip_digits p (s ++ k) = (p', s' ++ k).
Proof.
  intros C. revert p. induction s as [|c s IH]; intros p; cbn [skip_digits app].
  - intros [= <- <-]. destruct C as [->|(c & r & -> & Hc)]; [reflexivity|]. cbn [skip_digits app].
    destruct (is_digit c) eqn:D; [|reflexivity]. apply digit_not_nl in D. congruence.
  - destruct (is_digit c); [apply IH|]. intros [= <- <-]. reflexivity.
Qed.
Lemma digits_iff ds : digits ds <-> Forall (fun c => is_digit c = true) ds.
Proof.
  unfold digits. rewrite Forall_forall. split; intros H c Hc; apply is_digit_iff; auto; now apply H.
Qed.
Lemma skip_digits_exact ds p c r : digits ds -> is_digit c = false -> skip_digits p (ds ++ c :: r) = (last ds p, c :: r).
Proof.
  rewrite digits_iff. intros F D. revert p. induction F as [|x ds Hx F IH]; intros p; cbn [app skip_digits].
  - now rewrite D.
  - rewrite Hx, IH. f_equal. destruct ds; [reflexivity|]. cbn [last]. clear. revert a. induction ds; intros y; [reflexivity|]. cbn [last]. destruct ds; auto.
Qed.

(** What a line does is what it does alone. *)
Lemma found_include_app hf p s k : cont k -> found_include hf p s <> Fail ->
  found_include hf p (s ++ k) = match found_include hf p s with Fail => Fail | Go a b c d => Go a b (c ++ k) d end.
Proof.
  intros C. unfold found_include. destruct (skip_digits p s) as [p1 s1] eqn:E. rewrite (skip_digits_app p s k p1 s1 C E).
  destruct s1 as [|c1 s2]; cbn [app].
  { intros _. destruct C as [->|(c & r & -> & Hc)]; [reflexivity|]. cbn [app].
    destruct (not_nl_sym c sp Hc eq_refl) as [_ ->]. reflexivity. }
  destruct (Ascii.eqb c1 sp); [|reflexivity]. destruct s2 as [|c2 s3]; cbn [app].
  { intros _. destruct C as [->|(c & r & -> & Hc)]; [reflexivity|]. cbn [app].
    destruct (not_nl_sym c Q Hc eq_refl) as [_ ->]. reflexivity. }
  destruct (Ascii.eqb c2 Q); [|reflexivity]. destruct s3 as [|c3 s3]; [intros X; now destruct X|].
  change ((c3 :: s3) ++ k) with (c3 :: s3 ++ k) at 1. cbn [app].
  destruct (Ascii.eqb c3 "<"%char); [reflexivity|]. change (c3 :: s3 ++ k) with ((c3 :: s3) ++ k).
  destruct (to_quote (c3 :: s3)) as [[n s4]|] eqn:T; [|intros X; now destruct X]. rewrite (to_quote_app _ _ _ k T). intros _.
  destruct (bad_slash (last n Q)); [reflexivity|]. f_equal.
  destruct (strip [sp; "1"%char] s4) as [r|] eqn:S1.
  - now rewrite (strip_app _ _ _ k S1).
  - rewrite strip_none_app; auto.
Qed.
Lemma after_hash_app hf s k : cont k -> after_hash hf s <> Fail ->
  after_hash hf (s ++ k) = match after_hash hf s with Fail => Fail | Go a b c d => Go a b (c ++ k) d end.
Proof.
  intros C. unfold after_hash. destruct (strip [sp] s) as [r|] eqn:S1.
  - rewrite (strip_app _ _ _ k S1). now apply found_include_app.
  - rewrite (strip_none_app [sp] s k C) by (auto; repeat constructor). destruct (strip (L "line ") s) as [r|] eqn:S2.
    + rewrite (strip_app _ _ _ k S2). now apply found_include_app.
    + rewrite (strip_none_app _ s k C) by (auto; repeat constructor). reflexivity.
Qed.

(** What a line marker adds, from its form. *)
Lemma last_digits ds p : Forall (fun c => is_digit c = true) ds -> is_nl p = false -> is_nl (last ds p) = false.
Proof.
  intros F. revert p. induction F as [|c ds H F IH]; intros p Hp; [exact Hp|]. cbn [last]. destruct ds as [|x ds]; [now apply digit_not_nl|]. auto.
Qed.
Lemma last_snoc {A} (l : list A) d : l <> [] -> exists l', l = l' ++ [last l d].
Proof. intros H. exists (removelast l). now apply app_removelast_last. Qed.

Definition adds (hf : bool) (s n : str) : Prop :=
  exists ds tail, digits ds /\ file_name n /\ s = ds ++ sp :: Q :: n ++ Q :: tail /\ (hf = false \/ has_prefix (L " 1") tail).

Lemma file_name_checks n : ~ In Q n -> (file_name n <-> match n with c :: _ => Ascii.eqb c "<"%char = false | [] => True end /\ bad_slash (last n Q) = false).
Proof.
  intros HQ. unfold file_name. split.
  - intros (_ & A & B). split.
    + destruct n as [|c n]; [exact I|]. apply Ascii.eqb_neq. intros ->. apply A. exists n. reflexivity.
    + destruct n as [|c n]; [reflexivity|]. destruct (last_snoc (c :: n) Q) as (d & E); [discriminate|].
      destruct (B _ _ E) as [X Y]. unfold bad_slash. apply orb_false_iff. split; now apply Ascii.eqb_neq.
  - intros [A B]. split; [exact HQ|split].
    + intros (r & ->). cbn in A. discriminate.
    + intros d c ->. rewrite last_last in B. unfold bad_slash in B. apply orb_false_iff in B. destruct B as [B1 B2].
      split; now apply Ascii.eqb_neq.
Qed.

Lemma adds_unique ds ds' n n' t t' : digits ds -> digits ds' -> ~ In Q n -> ~ In Q n' ->
  ds ++ sp :: Q :: n ++ Q :: t = ds' ++ sp :: Q :: n' ++ Q :: t' -> n = n' /\ t = t'.
Proof.
  intros A B C D E.
  assert (X : skip_digits LF (ds ++ sp :: Q :: n ++ Q :: t) = skip_digits LF (ds' ++ sp :: Q :: n' ++ Q :: t')) by now rewrite E.
  rewrite !skip_digits_exact in X by (auto; reflexivity). apply (f_equal snd) in X. cbn [snd] in X.
  assert (Y : n ++ Q :: t = n' ++ Q :: t') by congruence.
  assert (Z : to_quote (n ++ Q :: t) = Some (n, t)) by (apply to_quote_iff; auto). rewrite Y in Z.
  assert (Z' : to_quote (n' ++ Q :: t') = Some (n', t')) by (apply to_quote_iff; auto). split; congruence.
Qed.

Lemma no_nl_app a b : no_nl (a ++ b) <-> no_nl a /\ no_nl b.
Proof. unfold no_nl. rewrite !in_app_iff. tauto. Qed.
Lemma no_nl_cons c b : no_nl (c :: b) <-> is_nl c = false /\ no_nl b.
Proof.
  unfold no_nl. cbn [In]. destruct (is_nl c) eqn:E.
  - apply is_nl_iff in E. split; [|intros [? _]; discriminate]. intros [A B]. destruct E as [->| ->]; tauto.
  - assert (~ (c = LF \/ c = CR)) by (rewrite <- is_nl_iff; congruence). tauto.
Qed.

Lemma found_include_spec hf p s : no_nl s -> is_nl p = false ->
  (forall ds rest, digits ds -> s = ds ++ sp :: Q :: rest -> has_prefix (L "<") rest \/ In Q rest) ->
  exists p' t a, found_include hf p s = Go hf p' t a /\ no_nl t /\ is_nl p' = false /\ List.length t <= List.length s /\
    forall n, a = Some n <-> adds hf s n.
Proof.
  intros NL Hp HC. unfold found_include. destruct (skip_digits p s) as [p1 s1] eqn:E.
  destruct (skip_digits_iff _ _ _ _ E) as (ds & F & -> & -> & ND). apply no_nl_app in NL. destruct NL as [NLd NL].
  pose proof (last_digits ds p F Hp) as Hl. pose proof (proj2 (digits_iff ds) F) as HD. rewrite app_length.
  assert (NO : forall n, adds hf (ds ++ s1) n -> exists r, s1 = sp :: Q :: r).
  { intros n (ds' & tl & A & B & C & _).
    assert (X : skip_digits LF (ds ++ s1) = (last ds LF, s1)).
    { destruct s1 as [|c s1]; [|now apply skip_digits_exact]. exfalso. rewrite app_nil_r in C. subst ds.
      apply Forall_app in F. destruct F as [_ F]. inversion F; subst. discriminate. }
    rewrite C, skip_digits_exact in X by (auto; reflexivity). apply (f_equal snd) in X. cbn [snd] in X. eexists. symmetry. exact X. }
  destruct s1 as [|c1 s2].
  { exists (last ds p), [], None. split; [reflexivity|split; [exact NL|split; [exact Hl|split; [lia|]]]].
    intros n. split; [discriminate|]. intros X. destruct (NO _ X); discriminate. }
  apply no_nl_cons in NL. destruct NL as [N1 NL]. cbn [List.length].
  destruct (Ascii.eqb_spec c1 sp) as [->|D1].
  2:{ exists (last ds p), (c1 :: s2), None. split; [reflexivity|split; [now apply no_nl_cons|split; [exact Hl|split; [cbn [List.length]; lia|]]]].
      intros n. split; [discriminate|]. intros X. destruct (NO _ X) as [r Y]. congruence. }
  destruct s2 as [|c2 s3].
  { exists sp, [], None. split; [reflexivity|split; [exact NL|split; [reflexivity|split; [lia|]]]].
    intros n. split; [discriminate|]. intros X. destruct (NO _ X); discriminate. }
  destruct (Ascii.eqb_spec c2 Q) as [->|D2].
  2:{ exists sp, (c2 :: s3), None. split; [reflexivity|split; [exact NL|split; [reflexivity|split; [cbn [List.length]; lia|]]]].
      intros n. split; [discriminate|]. intros X. destruct (NO _ X) as [r Y]. congruence. }
  apply no_nl_cons in NL. destruct NL as [_ NL]. specialize (HC ds s3 HD eq_refl).
  assert (SAME : forall n, adds hf (ds ++ sp :: Q :: s3) n -> exists tl, s3 = n ++ Q :: tl /\ file_name n /\ (hf = false \/ has_prefix (L " 1") tl)).
  { intros n (ds' & tl & A & B & C & D). exists tl. split; [|split; assumption].
    assert (X : skip_digits LF (ds ++ sp :: Q :: s3) = skip_digits LF (ds' ++ sp :: Q :: n ++ Q :: tl)) by now rewrite C.
    rewrite !skip_digits_exact in X by (auto; reflexivity). apply (f_equal snd) in X. cbn [snd] in X. congruence. }
  destruct s3 as [|c3 s3].
  { exfalso. destruct HC as [[r X]|[]]. discriminate. }
  destruct (Ascii.eqb_spec c3 "<"%char) as [->|D3].
  { exists Q, ("<"%char :: s3), None. split; [reflexivity|split; [exact NL|split; [reflexivity|split; [cbn [List.length]; lia|]]]].
    intros n. split; [discriminate|]. intros X. destruct (SAME _ X) as (tl & Y & (_ & B & _) & _).
    exfalso. destruct n as [|x n]; cbn [app] in Y; [discriminate|]. injection Y as <- _. apply B. exists n. reflexivity. }
  assert (HQ : In Q (c3 :: s3)) by (destruct HC as [[r X]|X]; [injection X as -> _; congruence|exact X]).
  destruct (to_quote (c3 :: s3)) as [[n0 s4]|] eqn:T; [|exfalso; now apply to_quote_none in T].
  apply to_quote_iff in T. destruct T as [T TQ]. rewrite T in NL. apply no_nl_app in NL. destruct NL as [NLn NL].
  assert (SAME2 : forall n, adds hf (ds ++ sp :: Q :: c3 :: s3) n -> n = n0 /\ file_name n0 /\ (hf = false \/ has_prefix (L " 1") s4)).
  { intros n X. destruct (SAME _ X) as (tl & Y & Z & W). rewrite T in Y.
    assert (U : to_quote (n0 ++ Q :: s4) = Some (n0, s4)) by (apply to_quote_iff; auto).
    assert (V : to_quote (n ++ Q :: tl) = Some (n, tl)) by (apply to_quote_iff; split; [reflexivity|apply Z]).
    rewrite Y, V in U. injection U as -> ->. auto. }
  assert (LEN : List.length (c3 :: s3) = List.length n0 + S (List.length s4)) by (rewrite T, app_length; reflexivity).
  pose proof (file_name_checks n0 TQ) as FN.
  assert (FST : match n0 with c :: _ => Ascii.eqb c "<"%char = false | [] => True end).
  { destruct n0 as [|x n0]; [exact I|]. injection T as <- _. now apply Ascii.eqb_neq. }
  destruct (bad_slash (last n0 Q)) eqn:BS.
  { exists (last n0 Q), (Q :: s4), None. split; [reflexivity|split; [exact NL|split]].
    - unfold bad_slash in BS. apply orb_true_iff in BS. rewrite !Ascii.eqb_eq in BS. destruct BS as [-> | ->]; reflexivity.
    - split; [cbn [List.length] in *; lia|]. intros n. split; [discriminate|]. intros X. destruct (SAME2 _ X) as (_ & Y & _).
      apply FN in Y. destruct Y as [_ Y]. congruence. }
  assert (FN0 : file_name n0) by (apply FN; auto).
  apply no_nl_cons in NL. destruct NL as [_ NL].
  exists Q, s4. eexists. split; [reflexivity|split; [exact NL|split; [reflexivity|split; [cbn [List.length] in *; lia|]]]].
  intros n. split.
  - intros X. assert (Y : n = n0 /\ (hf = false \/ has_prefix (L " 1") s4)).
    { destruct (strip [sp; "1"%char] s4) as [r|] eqn:S1.
      - injection X as <-. split; [reflexivity|]. right. apply strip_iff in S1. exists r. exact S1.
      - destruct hf; [discriminate|]. injection X as <-. auto. }
    destruct Y as [-> Y]. exists ds, s4. rewrite T. auto.
  - intros X. destruct (SAME2 _ X) as (-> & _ & Y). destruct (strip [sp; "1"%char] s4) as [r|] eqn:S1; [reflexivity|].
    destruct Y as [->|[r Y]]; [reflexivity|]. exfalso. assert (Z : strip [sp; "1"%char] s4 = Some r) by (apply strip_iff; exact Y). congruence.
Qed.

(** The state after a line: the flag only goes down, at a line starting with #line. *)
Definition is_line_directive (l : str) : Prop := has_prefix (L "#line ") l.
Definition line_adds (hf : bool) (l n : str) : Prop :=
  exists tail, marker (L "#line ") l n tail \/ (marker (L "# ") l n tail /\ (hf = false \/ has_prefix (L " 1") tail)).

Lemma after_hash_spec hf s : no_nl s -> quotes_closed (hash :: s) ->
  exists hf' p' t a, after_hash hf s = Go hf' p' t a /\ no_nl t /\ is_nl p' = false /\ List.length t <= List.length s /\
    (forall n, a = Some n <-> line_adds hf (hash :: s) n) /\ (hf' = false <-> hf = false \/ is_line_directive (hash :: s)).
Proof.
  intros NL QC. unfold after_hash.
  assert (LD : is_line_directive (hash :: s) <-> exists r, strip (L "line ") s = Some r).
  { unfold is_line_directive, has_prefix. split.
    - intros [r E]. exists r. apply strip_iff. change (hash :: s = hash :: L "line " ++ r) in E. congruence.
    - intros [r E]. exists r. apply strip_iff in E. now rewrite E. }
  destruct (strip [sp] s) as [r|] eqn:S1.
  - apply strip_iff in S1. cbn [app] in S1. subst s. apply no_nl_cons in NL. destruct NL as [_ NL].
    destruct (found_include_spec hf sp r NL eq_refl) as (p' & t & a & A & B & C & D & E).
    { intros ds rest HD ->. exact (QC (L "# ") ds rest (or_introl eq_refl) HD eq_refl). }
    exists hf, p', t, a. split; [exact A|split; [exact B|split; [exact C|split; [cbn [List.length]; lia|split]]]].
    + intros n. rewrite E. unfold adds, line_adds, marker. split.
      * intros (ds & tl & H1 & H2 & -> & H3). exists tl. right. split; [|exact H3]. exists ds. auto.
      * intros (tl & [(ds & H1 & H2 & H3)|[(ds & H1 & H2 & H3) H4]]).
        -- discriminate H3.
        -- exists ds, tl. split; [exact H1|split; [exact H2|split; [|exact H4]]]. change (hash :: sp :: r = hash :: sp :: (ds ++ sp :: Q :: n ++ Q :: tl)) in H3. congruence.
    + rewrite LD. split; [auto|]. intros [H|[x H]]; [exact H|]. apply strip_iff in H. discriminate.
  - destruct (strip (L "line ") s) as [r|] eqn:S2.
    + apply strip_iff in S2. subst s. apply no_nl_app in NL. destruct NL as [_ NL].
      destruct (found_include_spec false sp r NL eq_refl) as (p' & t & a & A & B & C & D & E).
      { intros ds rest HD ->. exact (QC (L "#line ") ds rest (or_intror eq_refl) HD eq_refl). }
      exists false, p', t, a. split; [exact A|split; [exact B|split; [exact C|split; [rewrite app_length; lia|split]]]].
      * intros n. rewrite E. unfold adds, line_adds, marker. split.
        -- intros (ds & tl & H1 & H2 & -> & H3). exists tl. left. exists ds. auto.
        -- intros (tl & [(ds & H1 & H2 & H3)|[(ds & H1 & H2 & H3) H4]]).
           ++ exists ds, tl. split; [exact H1|split; [exact H2|split; [|now left]]].
              change (L "#line " ++ r = L "#line " ++ (ds ++ sp :: Q :: n ++ Q :: tl)) in H3. now apply app_inv_head in H3.
           ++ discriminate H3.
      * split; [|reflexivity]. intros _. right. apply LD. eauto.
    + exists hf, hash, s, None. split; [reflexivity|split; [exact NL|split; [reflexivity|split; [lia|split]]]].
      * intros n. split; [discriminate|]. intros (tl & [(ds & H1 & H2 & H3)|[(ds & H1 & H2 & H3) H4]]).
        -- change (hash :: s = hash :: L "line " ++ (ds ++ sp :: Q :: n ++ Q :: tl)) in H3.
           assert (X : strip (L "line ") s = Some (ds ++ sp :: Q :: n ++ Q :: tl)) by (apply strip_iff; congruence). congruence.
        -- change (hash :: s = hash :: [sp] ++ (ds ++ sp :: Q :: n ++ Q :: tl)) in H3.
           assert (X : strip [sp] s = Some (ds ++ sp :: Q :: n ++ Q :: tl)) by (apply strip_iff; congruence). congruence.
      * rewrite LD. split; [auto|]. intros [H|[x H]]; congruence.
Qed.

(** Looking for the next line. *)
Lemma next_hash_skip p s c r : no_nl s -> is_nl c = true -> (is_nl p = false \/ ~ has_prefix [hash] s) ->
  next_hash p (s ++ c :: r) = next_hash c r.
Proof.
  revert p. induction s as [|x s IH]; intros p NL Hc H; cbn [app next_hash].
  - destruct (not_nl_sym c hash Hc eq_refl) as [_ ->]. reflexivity.
  - apply no_nl_cons in NL. destruct NL as [Nx NL]. replace (Ascii.eqb x hash && is_nl p) with false; [apply IH; auto|].
    symmetry. apply andb_false_iff. destruct H as [->|H]; [now right|]. left. apply Ascii.eqb_neq. intros ->. apply H. now exists s.
Qed.
Lemma next_hash_end p s : no_nl s -> (is_nl p = false \/ ~ has_prefix [hash] s) -> next_hash p s = None.
Proof.
  revert p. induction s as [|x s IH]; intros p NL H; cbn [next_hash]; [reflexivity|].
  apply no_nl_cons in NL. destruct NL as [Nx NL]. replace (Ascii.eqb x hash && is_nl p) with false; [apply IH; auto|].
  symmetry. apply andb_false_iff. destruct H as [->|H]; [now right|]. left. apply Ascii.eqb_neq. intros ->. apply H. now exists s.
Qed.
Lemma next_hash_here p s : is_nl p = true -> next_hash p (hash :: s) = Some s.
Proof. intros H. cbn [next_hash]. now rewrite H. Qed.
Lemma hash_or_not l : (exists s, l = hash :: s) \/ ~ has_prefix [hash] l.
Proof.
  destruct l as [|c l]; [right; intros [r E]; discriminate|]. destruct (Ascii.eqb_spec c hash) as [->|N]; [left; eauto|].
  right. intros [r E]. injection E as -> _. congruence.
Qed.

Definition announced (hf : bool) (lines : list str) (n : str) : Prop :=
  exists before l after, lines = before ++ l :: after /\
    exists tail, marker (L "#line ") l n tail \/
      (marker (L "# ") l n tail /\ (hf = false \/ has_prefix (L " 1") tail \/ exists l', In l' before /\ is_line_directive l')).

Lemma announced_cons hf hf' l lines n : (hf' = false <-> hf = false \/ is_line_directive l) ->
  (announced hf (l :: lines) n <-> line_adds hf l n \/ announced hf' lines n).
Proof.
  intros HH. unfold announced, line_adds. split.
  - intros (b & x & a & E & tl & H). destruct b as [|y b]; cbn [app] in E; injection E as -> ->.
    + left. exists tl. destruct H as [H|[H [K|[K|(l' & [] & _)]]]]; auto.
    + right. exists b, x, a. split; [reflexivity|]. exists tl. destruct H as [H|[H K]]; [auto|]. right. split; [exact H|].
      destruct K as [K|[K|(l' & [->|K] & K2)]]; [left; tauto|auto|left; tauto|]. right. right. eauto.
  - intros [(tl & H)|(b & x & a & -> & tl & H)].
    + exists [], l, lines. split; [reflexivity|]. exists tl. destruct H as [H|[H [K|K]]]; auto.
    + exists (l :: b), x, a. split; [reflexivity|]. exists tl. destruct H as [H|[H K]]; [auto|]. right. split; [exact H|].
      destruct K as [K|[K|(l' & K & K2)]]; [|auto|].
      * apply HH in K. destruct K as [K|K]; [auto|]. right. right. exists l. split; [now left|exact K].
      * right. right. exists l'. split; [now right|exact K2].
Qed.
Lemma announced_nil hf n : ~ announced hf [] n.
Proof. intros (b & x & a & E & _). destruct b; discriminate. Qed.
Lemma line_adds_hash hf l n : line_adds hf l n -> exists s, l = hash :: s.
Proof. intros (tl & [(ds & _ & _ & ->)|[(ds & _ & _ & ->) _]]); cbn; eauto. Qed.

Lemma gcc_lines : forall ls last fuel hf p,
  (forall l, In l (map fst ls ++ [last]) -> no_nl l /\ quotes_closed l) ->
  (forall lc, In lc ls -> is_nl (snd lc) = true) ->
  List.length (text_of ls last) < fuel -> is_nl p = true ->
  exists names, gcc_loop fuel hf p (text_of ls last) = Some names /\ forall n, In n names <-> announced hf (map fst ls ++ [last]) n.
Proof.
  induction ls as [|[l c] ls IH]; intros last fuel hf p HL HC HF HP; cbn [text_of map fst app] in *.
  - destruct (HL last (or_introl eq_refl)) as [NL QC]. destruct fuel as [|fuel]; [lia|]. cbn [gcc_loop].
    destruct (hash_or_not last) as [[s ->]|NH].
    + rewrite next_hash_here by exact HP. apply no_nl_cons in NL. destruct NL as [_ NL].
      destruct (after_hash_spec hf s NL QC) as (hf' & p' & t & a & -> & T1 & T2 & T3 & T4 & T5).
      cbn [List.length] in HF. destruct fuel as [|fuel]; [lia|]. cbn [gcc_loop]. rewrite next_hash_end by auto.
      eexists. split; [reflexivity|]. intros n. rewrite (announced_cons hf hf' _ _ _ T5), <- T4.
      pose proof (announced_nil hf' n). destruct a; cbn [add1 In]; split; try tauto.
      * intros [->|[]]. auto.
      * intros [[= ->]|X]; tauto.
      * intros [X|X]; [discriminate|tauto].
    + rewrite next_hash_end by auto. exists []. split; [reflexivity|]. intros n. rewrite (announced_cons hf hf).
      * pose proof (announced_nil hf n). cbn [In]. split; [tauto|]. intros [X|X]; [|tauto]. destruct (line_adds_hash _ _ _ X) as [s ->].
        apply NH. now exists s.
      * split; [auto|]. intros [X|[r X]]; [exact X|]. exfalso. apply NH. exists (L "line " ++ r). exact X.
  - destruct (HL l (or_introl eq_refl)) as [NL QC]. pose proof (HC (l, c) (or_introl eq_refl)) as Hc. cbn [snd] in Hc.
    assert (HL' : forall l0, In l0 (map fst ls ++ [last]) -> no_nl l0 /\ quotes_closed l0) by (intros; apply HL; now right).
    assert (HC' : forall lc, In lc ls -> is_nl (snd lc) = true) by (intros; apply HC; now right).
    rewrite app_length in HF. cbn [List.length] in HF. destruct fuel as [|fuel]; [lia|].
    destruct (hash_or_not l) as [[s ->]|NH].
    + cbn [app gcc_loop]. rewrite next_hash_here by exact HP. apply no_nl_cons in NL. destruct NL as [_ NL].
      destruct (after_hash_spec hf s NL QC) as (hf' & p' & t & a & A & T1 & T2 & T3 & T4 & T5).
      rewrite after_hash_app, A by (try congruence; right; eauto). cbn [List.length] in HF. destruct fuel as [|fuel]; [lia|].
      destruct (IH last (S fuel) hf' c HL' HC') as (names & E & I); [lia|exact Hc|].
      assert (X : gcc_loop (S fuel) hf' p' (t ++ c :: text_of ls last) = Some names).
      { rewrite <- E. cbn [gcc_loop]. rewrite next_hash_skip by auto. reflexivity. }
      rewrite X. eexists. split; [reflexivity|]. intros n. rewrite (announced_cons hf hf' _ _ _ T5), <- T4, <- I.
      destruct a; cbn [add1 In]; split; try tauto.
      * intros [->|H]; auto.
      * intros [[= ->]|H]; auto.
      * intros [H|H]; [discriminate|auto].
    + destruct (IH last (S fuel) hf c HL' HC') as (names & E & I); [lia|exact Hc|].
      exists names. split.
      * rewrite <- E. cbn [gcc_loop]. rewrite next_hash_skip by auto. reflexivity.
      * intros n. rewrite (announced_cons hf hf), I.
        -- split; [auto|]. intros [X|X]; [|exact X]. destruct (line_adds_hash _ _ _ X) as [s ->]. exfalso. apply NH. now exists s.
        -- split; [auto|]. intros [X|[r X]]; [exact X|]. exfalso. apply NH. exists (L "line " ++ r). exact X.
Qed.
