From Coq Require Import List Arith Bool Ascii NArith Lia.
From Verif Require Import M_Path M_Args S_Args.
Import ListNotations.

Lemma eqb_false a b : a <> b -> Ascii.eqb a b = false.
Proof. apply Ascii.eqb_neq. Qed.
Lemma bq : Ascii.eqb bslash quote = false. Proof. reflexivity. Qed.

Lemma fields_ne sep q us : fields sep q us <> [].
Proof. revert q. induction us as [|u us IH]; intros q; [discriminate|]. cbn. destruct u; try (destruct (fields _ _ us); discriminate). destruct (_ && _); [discriminate|]. destruct (fields _ _ us); discriminate. Qed.

Section T.
Context (sep : ascii) (NQ : sep <> quote) (NB : sep <> bslash).

Definition later (fs : list (list unit_)) : list str := filter nonempty (map text fs).

Lemma text1_ne u : text1 u <> []. Proof. destruct u; discriminate. Qed.

Lemma tok_bs a q d r : d <> quote -> tok sep (Some a) q (bslash :: d :: r) = tok sep (Some (bslash :: a)) q (d :: r).
Proof.
  intros Nd. transitivity (if Ascii.eqb d quote then tok sep (Some (d :: bslash :: a)) q r else tok sep (Some (bslash :: a)) q (d :: r)); [reflexivity|].
  now rewrite (eqb_false d quote).
Qed.
Lemma tok_bs_none d r : d <> quote -> tok sep None false (bslash :: d :: r) = tok sep (Some [bslash]) false (d :: r).
Proof.
  intros Nd. transitivity (if Ascii.eqb bslash sep then tok sep None false (d :: r) else if Ascii.eqb d quote then tok sep (Some [d; bslash]) false r else tok sep (Some [bslash]) false (d :: r)); [reflexivity|].
  rewrite (eqb_false d quote) by auto. now rewrite (eqb_false bslash sep) by congruence.
Qed.

Lemma tok_spec : forall n s, List.length s <= n ->
  (forall a q, tok sep (Some a) q s = match fields sep q (lex s) with h :: t => (rev a ++ text h) :: later t | [] => [] end) /\
  tok sep None false s = later (fields sep false (lex s)).
Proof.
  induction n as [|n IH]; intros s HL.
  { destruct s; [|cbn in HL; lia]. split; [intros; cbn; now rewrite app_nil_r|reflexivity]. }
  destruct s as [|c r]; [split; [intros; cbn; now rewrite app_nil_r|reflexivity]|]. cbn [List.length] in HL.
  destruct (IH r ltac:(lia)) as [IS IN].
  assert (P : forall (u : unit_) q q' us a, (match u with Plain x => (Ascii.eqb x sep && negb q) = false | _ => True end) ->
      q' = (match u with QuoteMark => negb q | _ => q end) ->
      match fields sep q (u :: us) with h :: t => (rev a ++ text h) :: later t | [] => [] end =
      match fields sep q' us with h :: t => (rev a ++ text1 u ++ text h) :: later t | [] => [] end).
  { intros u q q' us a HU ->. cbn [fields]. pose proof (fields_ne sep (match u with QuoteMark => negb q | _ => q end) us) as NE.
    destruct u; try (destruct (fields sep _ us); [congruence|reflexivity]). rewrite HU. destruct (fields sep _ us); [congruence|reflexivity]. }
  assert (PN : forall (u : unit_) us, (match u with Plain x => Ascii.eqb x sep = false | _ => True end) ->
      later (fields sep false (u :: us)) =
      match fields sep (match u with QuoteMark => true | _ => false end) us with h :: t => (text1 u ++ text h) :: later t | [] => [] end).
  { intros u us HU. cbn [fields]. pose proof (fields_ne sep (match u with QuoteMark => true | _ => false end) us) as NE.
    assert (X : forall h t, later ((u :: h) :: t) = (text1 u ++ text h) :: later t).
    { intros h t. unfold later. cbn [map filter]. change (text (u :: h)) with (text1 u ++ text h). destruct u; reflexivity. }
    destruct u; cbn [negb] in *; try (destruct (fields sep _ us); [congruence|apply X]). rewrite HU. cbn [andb]. destruct (fields sep _ us); [congruence|apply X]. }
  cbn [lex]. change (ascii_of_nat 34) with quote. change (ascii_of_nat 92) with bslash.
  destruct (Ascii.eqb_spec c quote) as [->|Nq].
  { split.
    - intros a q. cbn [tok]. rewrite Ascii.eqb_refl, IS. rewrite (P QuoteMark q (negb q)) by auto.
      destruct (fields sep (negb q) (lex r)); auto. cbn [rev]. now rewrite <- app_assoc.
    - cbn [tok]. rewrite (eqb_false quote sep) by congruence. rewrite Ascii.eqb_refl. cbn [negb]. rewrite IS, PN by auto. reflexivity. }
  destruct (Ascii.eqb_spec c bslash) as [->|Nb].
  { destruct r as [|d r'].
    - split.
      + intros a q. cbn [tok]. rewrite bq, Ascii.eqb_refl. rewrite (P (Plain bslash) q q) by (auto; rewrite eqb_false by congruence; auto). cbn. reflexivity.
      + cbn [tok]. rewrite (eqb_false bslash sep) by congruence. rewrite bq, Ascii.eqb_refl. rewrite PN by (apply eqb_false; congruence). reflexivity.
    - destruct (IH r' ltac:(cbn [List.length] in HL; lia)) as [IS' IN'].
      cbn [andb]. destruct (Ascii.eqb_spec d quote) as [->|Nd].
      + split.
        * intros a q. cbn [tok]. rewrite bq, !Ascii.eqb_refl, IS'. rewrite (P EscapedQuote q q) by auto.
          destruct (fields sep q (lex r')); auto. cbn [rev]. now rewrite <- !app_assoc.
        * cbn [tok]. rewrite (eqb_false bslash sep) by congruence. rewrite bq, !Ascii.eqb_refl, IS', PN by auto. reflexivity.
      + split.
        * intros a q. rewrite tok_bs by auto. fold (lex (d :: r')).
          rewrite IS. rewrite (P (Plain bslash) q q) by (auto; rewrite eqb_false by congruence; auto).
          destruct (fields sep q (lex (d :: r'))); auto. cbn [rev]. now rewrite <- app_assoc.
        * rewrite tok_bs_none by auto. rewrite IS. rewrite PN by (apply eqb_false; congruence). reflexivity. }
  assert (EL : match r with d :: r' => if false && Ascii.eqb d quote then EscapedQuote :: lex r' else Plain c :: lex r | [] => [Plain c] end = Plain c :: lex r) by (destruct r; reflexivity).
  rewrite EL. split.
  - intros a q. cbn [tok]. rewrite (eqb_false c quote), (eqb_false c bslash) by auto.
    destruct (Ascii.eqb c sep && negb q) eqn:S.
    + apply andb_true_iff in S. destruct S as [S1 S2]. apply negb_true_iff in S2. subst q. rewrite IN. cbn [fields]. rewrite S1. cbn [negb andb]. cbn [text flat_map]. now rewrite app_nil_r.
    + rewrite IS. rewrite (P (Plain c) q q) by auto. destruct (fields sep q (lex r)); auto. cbn [rev]. now rewrite <- app_assoc.
  - cbn [tok]. destruct (Ascii.eqb c sep) eqn:S.
    + rewrite IN. cbn [fields]. rewrite S. cbn [negb andb]. reflexivity.
    + rewrite (eqb_false c quote), (eqb_false c bslash) by auto. rewrite IS, PN by auto. reflexivity.
Qed.
Lemma tokenize_spec s : tokenize sep s = filter nonempty (map text (fields sep false (lex s))).
Proof. apply (tok_spec (List.length s) s). lia. Qed.

Lemma text_lex : forall n s, List.length s <= n -> text (lex s) = s.
Proof.
  induction n as [|n IH]; intros s HL; [destruct s; [auto|cbn in HL; lia]|].
  destruct s as [|c r]; auto. cbn [List.length] in HL. cbn [lex].
  change (ascii_of_nat 34) with quote. change (ascii_of_nat 92) with bslash.
  destruct (Ascii.eqb_spec c quote) as [->|]; [cbn [text flat_map]; fold (text (lex r)); rewrite IH by lia; reflexivity|].
  destruct r as [|d r']; [reflexivity|]. cbn [List.length] in HL.
  destruct (Ascii.eqb_spec c bslash) as [->|]; cbn [andb].
  - destruct (Ascii.eqb_spec d quote) as [->|].
    + cbn [text flat_map]. fold (text (lex r')). rewrite IH by lia. reflexivity.
    + change (text (Plain bslash :: lex (d :: r'))) with (bslash :: text (lex (d :: r'))). rewrite IH by (cbn; lia). reflexivity.
  - change (text (Plain c :: lex (d :: r'))) with (c :: text (lex (d :: r'))). rewrite IH by (cbn; lia). reflexivity.
Qed.

(** round trip of quoting *)
Definition esc (a : str) : str := flat_map (fun c => if Ascii.eqb c quote then [bslash; quote] else [c]) a.

Lemma esc_head_not_quote a rest d r : esc a ++ rest = d :: r -> Ascii.eqb d quote = false \/ a = [].
Proof.
  destruct a as [|c a]; [auto|]. intros E. left.
  change (esc (c :: a)) with ((if Ascii.eqb c quote then [bslash; quote] else [c]) ++ esc a) in E.
  destruct (Ascii.eqb_spec c quote) as [->|N]; cbn [app] in E; [now assert (d = bslash) as -> by congruence|].
  assert (d = c) as -> by congruence. now apply eqb_false.
Qed.

Lemma tok_esc : forall a acc s, no_trailing_bslash a ->
  tok sep (Some acc) true (esc a ++ quote :: s) = tok sep (Some (rev (esc a) ++ acc)) true (quote :: s).
Proof.
  induction a as [|c a IH]; intros acc s NT; [reflexivity|].
  assert (NT' : no_trailing_bslash a) by (intros a' ->; apply (NT (c :: a')); reflexivity).
  change (esc (c :: a)) with ((if Ascii.eqb c quote then [bslash; quote] else [c]) ++ esc a).
  destruct (Ascii.eqb_spec c quote) as [->|Nq].
  - change (([bslash; quote] ++ esc a) ++ quote :: s) with (bslash :: quote :: (esc a ++ quote :: s)).
    cbn [tok]. rewrite bq, !Ascii.eqb_refl. rewrite IH by auto.
    rewrite rev_app_distr, <- app_assoc. reflexivity.
  - change (([c] ++ esc a) ++ quote :: s) with (c :: (esc a ++ quote :: s)).
    rewrite rev_app_distr, <- app_assoc. cbn [rev app].
    transitivity (tok sep (Some (c :: acc)) true (esc a ++ quote :: s)); [|now apply IH].
    cbn [tok]. rewrite (eqb_false c quote) by auto. cbn [negb]. rewrite andb_false_r.
    destruct (Ascii.eqb_spec c bslash) as [->|Nb]; [|reflexivity].
    pose proof (esc_head_not_quote a (quote :: s)) as EH.
    destruct (esc a ++ quote :: s) as [|d r]; [reflexivity|].
    destruct (EH d r eq_refl) as [EH'| ->]; [now rewrite EH'|]. exfalso. now apply (NT []).
Qed.
Lemma tok_quoted a acc s : no_trailing_bslash a -> tok sep (Some acc) false (quote_arg a ++ s) = tok sep (Some (rev (quote_arg a) ++ acc)) false s.
Proof.
  intros NT. unfold quote_arg. fold (esc a). change (ascii_of_nat 34) with quote.
  cbn [app]. rewrite <- app_assoc. cbn [app].
  change (tok sep (Some (quote :: acc)) true (esc a ++ quote :: s) = tok sep (Some (rev (quote :: esc a ++ [quote]) ++ acc)) false s).
  rewrite tok_esc by auto. cbn [rev]. rewrite rev_app_distr. cbn [rev app]. rewrite <- app_assoc.
  cbn [tok]. rewrite Ascii.eqb_refl. reflexivity.
Qed.
Lemma tok_quoted_first a s : no_trailing_bslash a -> tok sep None false (quote_arg a ++ s) = tok sep (Some (rev (quote_arg a))) false s.
Proof.
  intros NT. unfold quote_arg. fold (esc a). change (ascii_of_nat 34) with quote.
  cbn [app]. rewrite <- app_assoc. cbn [app].
  assert (E : tok sep None false (quote :: esc a ++ quote :: s) = tok sep (Some [quote]) true (esc a ++ quote :: s)).
  { cbn [tok]. rewrite (eqb_false quote sep) by congruence. rewrite Ascii.eqb_refl. reflexivity. }
  etransitivity; [exact E|]. rewrite tok_esc by auto. cbn [rev]. rewrite rev_app_distr. cbn [rev app]. cbn [tok]. rewrite Ascii.eqb_refl. reflexivity.
Qed.

Lemma remove_esc a rest : no_trailing_bslash a -> remove_quotes (esc a ++ quote :: rest) = a ++ remove_quotes (quote :: rest).
Proof.
  induction a as [|c a IH]; intros NT; [reflexivity|].
  assert (NT' : no_trailing_bslash a) by (intros a' ->; apply (NT (c :: a')); reflexivity).
  change (esc (c :: a)) with ((if Ascii.eqb c quote then [bslash; quote] else [c]) ++ esc a).
  destruct (Ascii.eqb_spec c quote) as [->|Nq].
  - change (([bslash; quote] ++ esc a) ++ quote :: rest) with (bslash :: quote :: (esc a ++ quote :: rest)).
    cbn [remove_quotes]. rewrite bq, !Ascii.eqb_refl. cbn [app]. f_equal. now apply IH.
  - change (([c] ++ esc a) ++ quote :: rest) with (c :: (esc a ++ quote :: rest)).
    transitivity (c :: remove_quotes (esc a ++ quote :: rest)); [|cbn [app]; f_equal; now apply IH].
    cbn [remove_quotes]. rewrite (eqb_false c quote) by auto. destruct (Ascii.eqb_spec c bslash) as [->|Nb]; [|reflexivity].
    pose proof (esc_head_not_quote a (quote :: rest)) as EH.
    destruct (esc a ++ quote :: rest) as [|d r]; [reflexivity|].
    destruct (EH d r eq_refl) as [EH'| ->]; [now rewrite EH'|]. exfalso. now apply (NT []).
Qed.
Lemma remove_quote_arg a : no_trailing_bslash a -> remove_quotes (quote_arg a) = a.
Proof.
  intros NT. unfold quote_arg. fold (esc a). change (ascii_of_nat 34) with quote.
  change (remove_quotes (quote :: esc a ++ [quote])) with (remove_quotes (esc a ++ [quote])).
  etransitivity; [apply (remove_esc a []); auto|]. cbn. apply app_nil_r.
Qed.

Lemma round_trip args : Forall no_trailing_bslash args ->
  map remove_quotes (tokenize sep (join [sep] (map quote_arg args))) = args.
Proof.
  intros F. unfold tokenize. induction F as [|a args NT F IH]; [reflexivity|].
  destruct args as [|b args].
  - cbn [map join]. rewrite <- (app_nil_r (quote_arg a)). rewrite tok_quoted_first by auto. cbn [tok map]. rewrite rev_involutive, remove_quote_arg by auto. reflexivity.
  - change (join [sep] (map quote_arg (a :: b :: args))) with (quote_arg a ++ [sep] ++ join [sep] (map quote_arg (b :: args))).
    rewrite tok_quoted_first by auto. cbn [app tok]. rewrite (eqb_false sep quote), (eqb_false sep bslash) by auto.
    rewrite Ascii.eqb_refl. cbn [negb andb map]. rewrite rev_involutive, remove_quote_arg by auto. f_equal. exact IH.
Qed.
End T.

(** ** Args *)
(** the pieces between delimiters *)
Fixpoint put_all (s : str) (l : list nat) : str := match l with [] => s | i :: r => put_all (put s i newline) r end.
Lemma fold_put l : forall s, fold_left (fun s i => put s i newline) l s = put_all s l.
Proof. induction l; intros; cbn; auto. Qed.
Lemma put_len s i c : List.length (put s i c) = List.length s.
Proof. revert i. induction s; intros [|i]; cbn; auto. Qed.
Lemma put_mid a x b c : put (a ++ x :: b) (List.length a) c = a ++ c :: b.
Proof. induction a; cbn; congruence. Qed.
Lemma put_app_l a b i c : i < List.length a -> put (a ++ b) i c = put a i c ++ b.
Proof. revert i. induction a as [|x a IH]; intros i H; [cbn in H; lia|]. destruct i; cbn; auto. rewrite IH; auto. cbn in H. lia. Qed.
Lemma put_all_len l : forall s, List.length (put_all s l) = List.length s.
Proof. induction l; intros; cbn; auto. now rewrite IHl, put_len. Qed.
Lemma put_all_app_l l : forall a b, Forall (fun i => i < List.length a) l -> put_all (a ++ b) l = put_all a l ++ b.
Proof.
  induction l as [|i l IH]; intros a b F; auto. inversion F; subst. cbn. rewrite put_app_l by auto. apply IH.
  eapply Forall_impl; [|eassumption]. intros j. now rewrite put_len.
Qed.
Lemma put_all_snoc l : forall s i, put_all s (l ++ [i]) = put (put_all s l) i newline.
Proof. induction l; intros; cbn; auto. Qed.

(** what the builder holds: pieces so far *)
Definition holds (ps : list str) (args : str) (ds : list nat) : Prop :=
  args = join [space] ps /\ put_all args ds = join [newline] ps /\ Forall (fun i => i < List.length args) ds.
Lemma join_snoc sep ps p q : join sep (ps ++ [p]) ++ sep ++ q = join sep (ps ++ [p; q]).
Proof.
  induction ps as [|x ps IH]; [reflexivity|]. cbn [app].
  assert (E1 : join sep (x :: ps ++ [p]) = x ++ sep ++ join sep (ps ++ [p])) by (destruct ps; reflexivity).
  assert (E2 : join sep (x :: ps ++ [p; q]) = x ++ sep ++ join sep (ps ++ [p; q])) by (destruct ps; reflexivity).
  rewrite E1, E2, <- !app_assoc. do 2 f_equal. exact IH.
Qed.
Lemma join_last sep ps p q : join sep (ps ++ [p]) ++ q = join sep (ps ++ [p ++ q]).
Proof.
  induction ps as [|x ps IH]; [reflexivity|]. cbn [app].
  assert (E1 : forall y, join sep (x :: ps ++ [y]) = x ++ sep ++ join sep (ps ++ [y])) by (intros; destruct ps; reflexivity).
  etransitivity; [|symmetry; apply E1]. rewrite E1, <- !app_assoc. do 2 f_equal. exact IH.
Qed.
Lemma join_len (ps : list str) a b : List.length (join [a] ps) = List.length (join [b] ps).
Proof. induction ps as [|x [|y ps] IH]; auto. change (List.length (x ++ [a] ++ join [a] (y :: ps)) = List.length (x ++ [b] ++ join [b] (y :: ps))). rewrite !app_length. cbn [List.length]. rewrite IH. reflexivity. Qed.

Lemma run_args_holds ops : forall done cur args ds, holds (done ++ [cur]) args ds ->
  let '(a, d) := run_args ops args ds in holds (pieces ops done cur) a d.
Proof.
  induction ops as [|[s| |] ops IH]; intros done cur args ds (H1&H2&H3); cbn [run_args pieces].
  - split; auto.
  - apply IH. split; [|split].
    + rewrite H1. apply join_last.
    + rewrite put_all_app_l by auto. rewrite H2. apply join_last.
    + eapply Forall_impl; [|exact H3]. intros i. rewrite app_length. lia.
  - apply IH. split; [|split].
    + rewrite H1, <- app_assoc. cbn [app]. pose proof (join_snoc [space] done cur []) as J. rewrite app_nil_r in J. exact J.
    + rewrite put_all_snoc. rewrite put_all_app_l by auto.
      rewrite <- (put_all_len ds args). rewrite put_mid. rewrite H2, <- app_assoc. cbn [app].
      pose proof (join_snoc [newline] done cur []) as J. rewrite app_nil_r in J. exact J.
    + apply Forall_app. split; [eapply Forall_impl; [|exact H3]; intros i; rewrite app_length; lia|].
      constructor; auto. rewrite app_length. cbn. lia.
  - apply IH. repeat split; auto.
Qed.

Lemma escape_ok cap : forall s n, (n + 2 * N.of_nat (List.length s) <= cap)%N -> escape_slashes cap s n = Some (slashes_doubled s).
Proof.
  induction s as [|c r IH]; intros n H; auto. cbn [List.length escape_slashes slashes_doubled] in *.
  destruct (_ || _).
  - replace (n + 1 <? cap)%N with true by (symmetry; apply N.ltb_lt; lia). rewrite IH by lia. reflexivity.
  - replace (n <? cap)%N with true by (symmetry; apply N.ltb_lt; lia). rewrite IH by lia. reflexivity.
Qed.
Lemma create_ok escape s : create_response escape s = Some (if escape then slashes_doubled s else s).
Proof.
  unfold create_response. destruct escape; auto. apply escape_ok.
  destruct (N.ltb_spec 512 (N.of_nat (List.length s))); lia.
Qed.

(** ** JSON *)
Lemma esc1_decode c rest : nat_of_ascii c < 128 -> json_decode (esc1 c ++ rest) = option_map (cons c) (json_decode rest).
Proof.
  intros H. destruct c as [[] [] [] [] [] [] [] []]; try (vm_compute in H; lia); reflexivity.
Qed.
Lemma json_round s : Forall (fun c => nat_of_ascii c < 128) s -> json_decode (json_escape s) = Some s.
Proof.
  induction 1 as [|c s H F IH]; [reflexivity|]. unfold json_escape. cbn [flat_map]. fold (json_escape s).
  rewrite esc1_decode by auto. now rewrite IH.
Qed.
