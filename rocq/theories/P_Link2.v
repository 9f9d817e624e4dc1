From Coq Require Import String List Arith Bool Ascii Lia.
From Verif Require Import M_Path M_Names M_Args S_Args M_Drv S_Drv P_Drv P_Drv3 P_Drv4 M_Link S_Link P_Link.
Import ListNotations.
Open Scope list_scope.

(** Operations that make whole arguments. *)
Definition makes_args (ops : list arg_op) (outs : list str) : Prop :=
  adds ops /\ said ops = rendered outs /\ forall done r, pieces (ops ++ r) done [] = pieces r (done ++ outs) [].
Lemma ma_nil : makes_args [] []. Proof. split; [constructor|]. split; [reflexivity|]. intros. now rewrite app_nil_r. Qed.
Lemma ma_app a b x y : makes_args a x -> makes_args b y -> makes_args (a ++ b) (x ++ y).
Proof.
  intros (A1&A2&A3) (B1&B2&B3). split; [now apply Forall_app|]. split; [now rewrite said_app, rendered_app, A2, B2|].
  intros. now rewrite <- app_assoc, A3, B3, app_assoc.
Qed.
Lemma said_cons o r : said (o :: r) = txt o ++ said r. Proof. reflexivity. Qed.
Lemma rendered_one x : rendered [x] = x ++ [space]. Proof. unfold rendered. cbn. apply app_nil_r. Qed.
Ltac one_arg := split; [repeat constructor; discriminate|]; split;
  [rewrite rendered_one; cbn [said flat_map txt]; rewrite ?app_nil_r, <- ?app_assoc; reflexivity
  |intros; cbn [app pieces]; rewrite ?app_nil_r, <- ?app_assoc; reflexivity].
Lemma ma_1 a : makes_args [Append a; AddDelimiter] [a]. Proof. one_arg. Qed.
Lemma ma_0 : makes_args [AddDelimiter] [[]]. Proof. one_arg. Qed.
Lemma ma_2 a b : makes_args [Append a; Append b; AddDelimiter] [a ++ b]. Proof. one_arg. Qed.
Lemma ma_3 a b c : makes_args [Append a; Append b; Append c; AddDelimiter] [a ++ b ++ c]. Proof. one_arg. Qed.
Lemma ma_4 a b c d : makes_args [Append a; Append b; Append c; Append d; AddDelimiter] [a ++ b ++ c ++ d]. Proof. one_arg. Qed.
Lemma ma_each a b ns : makes_args (each a b ns) (map (fun n => a ++ n ++ b) ns).
Proof. induction ns as [|n ns IH]; [apply ma_nil|]. change (each a b (n :: ns)) with ([Append a; Append n; Append b; AddDelimiter] ++ each a b ns). apply (ma_app _ _ [a ++ n ++ b]); [apply ma_3|exact IH]. Qed.
Lemma ma_flat {A} (f : A -> list arg_op) (g : A -> str) l : (forall x, makes_args (f x) [g x]) -> makes_args (flat_map f l) (map g l).
Proof. intros H. induction l as [|x l IH]; [apply ma_nil|]. cbn [flat_map map]. apply (ma_app _ _ [g x]); auto. Qed.

(** Trailing backslashes. *)
Lemma drop_spec r : exists k, r = repeat bslash k ++ drop_bslashes r /\ hd nul (drop_bslashes r) <> bslash.
Proof.
  induction r as [|c r IH]; [exists 0; split; [reflexivity|discriminate]|]. cbn [drop_bslashes].
  destruct (Ascii.eqb_spec c bslash) as [->|N]; [|exists 0; split; [reflexivity|exact N]].
  destruct IH as (k&E&H). exists (S k). split; [cbn [repeat app]; now rewrite <- E|exact H].
Qed.
Lemma rev_repeat (c : ascii) k : rev (repeat c k) = repeat c k.
Proof. induction k; [reflexivity|]. cbn [repeat rev]. rewrite IHk. clear. induction k; [reflexivity|]. cbn [repeat app]. now rewrite IHk. Qed.
Lemma last_rev (l : str) : last (rev l) nul = hd nul l.
Proof. destruct l as [|c l]; [reflexivity|]. cbn [rev hd]. apply last_last. Qed.
Lemma trim_spec s : exists k, s = trim_bslashes s ++ repeat bslash k /\ last (trim_bslashes s) nul <> bslash.
Proof.
  destruct (drop_spec (rev s)) as (k&E&H). exists k. unfold trim_bslashes. split; [|now rewrite last_rev].
  rewrite <- (rev_involutive s) at 1. rewrite E at 1. rewrite rev_app_distr, rev_repeat. reflexivity.
Qed.

Lemma cuts_has o t a b : cuts o t a b -> has o t. Proof. intros [E _]. now exists a, b. Qed.
Lemma find_some o t a b : o <> [] -> find o t = Some (a, b) -> cuts o t a b.
Proof. intros N E. pose proof (find_spec o N t) as F. now rewrite E in F. Qed.
Lemma find_none o t : o <> [] -> find o t = None -> ~ has o t.
Proof. intros N E. pose proof (find_spec o N t) as F. now rewrite E in F. Qed.
Lemma has_longer o x t : ~ has o t -> ~ has (o ++ x) t.
Proof. intros N (a&b&E). apply N. exists a, (x ++ b). now rewrite E, <- app_assoc. Qed.

Definition places_of (c : lctx) : list (str * list str) :=
  link_places (msvc c) (inputs (link_objects c) (libs1 c)) (inputs (link_objects c) (libs2 c))
    (inputs (link_objects c) (libs1 c ++ libs2 c)) [name c] (resources (res c)).

Lemma link_token_spec cpr c t : exists outs more, argument_of (msvc c) cpr (places_of c) t outs /\
  Forall (fun x => x = []) more /\ makes_args (link_token cpr c t) (outs ++ more).
Proof.
  unfold link_token. destruct (find (L "%1") t) as [[a b]|] eqn:F1.
  - unfold token_inputs. destruct (find (L "%1[0]") t) as [[a0 b0]|] eqn:F2; [|destruct (find (L "%1[1]") t) as [[a1 b1]|] eqn:F3].
    + eexists _, [[]]. split; [|split; [now repeat constructor|apply ma_app; [apply ma_each|apply ma_0]]].
      eapply (ar_place _ _ _ _ [] _ _ (tl (places_of c))); [reflexivity|constructor|now apply find_some].
    + eexists _, [[]]. split; [|split; [now repeat constructor|apply ma_app; [apply ma_each|apply ma_0]]].
      eapply (ar_place _ _ _ _ (firstn 1 (places_of c)) _ _ (skipn 2 (places_of c))); [reflexivity| |now apply find_some].
      repeat constructor. now apply find_none.
    + rewrite F1. eexists _, [[]]. split; [|split; [now repeat constructor|apply ma_app; [apply ma_each|apply ma_0]]].
      eapply (ar_place _ _ _ _ (firstn 2 (places_of c)) _ _ (skipn 3 (places_of c))); [reflexivity| |now apply find_some].
      repeat constructor; now apply find_none.
  - apply find_none in F1; [|discriminate].
    assert (B : Forall (fun x => ~ has (fst x) t) (firstn 3 (places_of c))).
    { repeat constructor; cbn [fst]; [apply (has_longer (L "%1") (L "[0]"))|apply (has_longer (L "%1") (L "[1]"))|]; exact F1. }
    destruct (find (L "%2") t) as [[a b]|] eqn:F2.
    + exists [a ++ name c ++ b], []. split; [|split; [constructor|apply ma_3]].
      apply (ar_place _ _ _ _ (firstn 3 (places_of c)) (L "%2") [name c] (skipn 4 (places_of c)) a b); [reflexivity|exact B|now apply find_some].
    + apply find_none in F2; [|discriminate].
      assert (B' : Forall (fun x => ~ has (fst x) t) (firstn 4 (places_of c))).
      { inversion_clear B as [|? ? B0 X]. inversion_clear X as [|? ? B1 X']. inversion_clear X' as [|? ? B2 _]. repeat constructor; assumption. }
      unfold places_of, link_places in *. cbn [firstn app] in B'. destruct (msvc c).
      * destruct (find (L "%3") t) as [[a b]|] eqn:F3.
        -- eexists _, []. split; [|split; [constructor|rewrite app_nil_r; apply ma_each]].
           eapply (ar_place _ _ _ _ [_; _; _; _] _ _ []); [reflexivity|exact B'|now apply find_some].
        -- apply find_none in F3; [|discriminate].
           assert (B'' : Forall (fun x => ~ has (fst x) t) ([(L "%1[0]", inputs (link_objects c) (libs1 c)); (L "%1[1]", inputs (link_objects c) (libs2 c));
             (L "%1", inputs (link_objects c) (libs1 c ++ libs2 c)); (L "%2", [name c])] ++ [(L "%3", resources (res c))])).
           { apply Forall_app. split; [exact B'|]. now repeat constructor. }
           destruct (is_lstart t (L "LIBPATH:")) eqn:S.
           ++ apply is_lstart_value in S. destruct S as (d&o&D&E&F). change (1 + List.length (L "LIBPATH:")) with 9 in E.
              destruct (trim_spec (cpr (strip_quotes (skipn 9 t)))) as (k&K1&K2).
              eexists [_], []. split; [|split; [constructor|apply ma_4]]. apply ar_path; [exact B''|reflexivity|].
              exists d, o, (skipn 9 t), (trim_bslashes (cpr (strip_quotes (skipn 9 t)))), k.
              repeat split; auto. rewrite E at 1. cbn [firstn app]. now rewrite <- ?app_assoc.
           ++ exists [t], []. split; [|split; [constructor|apply ma_1]]. apply ar_same; [exact B''|].
              intros _ out (d&o&v&clean&k&D&E&F&_). assert (is_lstart t (L "LIBPATH:") = true); [|congruence].
              apply is_lstart_iff. now exists v, d, o.
      * exists [t], []. split; [|split; [constructor|apply ma_1]]. apply ar_same; [rewrite app_nil_r; exact B'|discriminate].
Qed.

Lemma link_ops_spec cpr c toks : exists outss outs, Forall2 (argument_of (msvc c) cpr (places_of c)) toks outss /\
  makes_args (flat_map (link_token cpr c) toks) outs /\ filter nonempty outs = filter nonempty (List.concat outss) /\
  (Forall single (List.concat outss) -> Forall piece outs).
Proof.
  induction toks as [|t toks IH]; [exists [], []; split; [constructor|]; split; [apply ma_nil|]; split; [reflexivity|constructor]|].
  destruct IH as (outss&outs&H1&H2&H3&H4). destruct (link_token_spec cpr c t) as (os&more&A&M&G).
  assert (Z : filter nonempty more = []) by (clear - M; induction M as [|x l -> _ IH]; [reflexivity|exact IH]).
  exists (os :: outss), ((os ++ more) ++ outs). split; [now constructor|]. split; [cbn [flat_map]; now apply ma_app|]. split.
  - cbn [List.concat]. unfold str in *. now rewrite !filter_app, Z, app_nil_r, H3.
  - cbn [List.concat]. intros S. apply Forall_app in S. destruct S as [S1 S2]. apply Forall_app. split; [apply Forall_app; split|now apply H4].
    + clear - S1. induction S1; constructor; [now right|assumption].
    + clear - M. induction M; constructor; [now left|assumption].
Qed.

Lemma pieces_end ops outs : makes_args ops outs -> pieces ops [] [] = outs ++ [[]].
Proof. intros (_&_&H). rewrite <- (app_nil_r ops) at 1. now rewrite H. Qed.
Lemma filter_end outs : filter nonempty (outs ++ [@nil ascii]) = filter nonempty outs.
Proof. now rewrite filter_app, app_nil_r. Qed.
Lemma args_text ops outs : makes_args ops outs -> Forall piece outs -> tokenize space (fst (run_args ops [] [])) = filter nonempty outs.
Proof.
  intros (A&S&_) P. rewrite (run_said ops A). cbn [app]. rewrite S. rewrite <- (app_nil_r (rendered outs)). rewrite tokenize_rendered by exact P.
  apply app_nil_r.
Qed.

(** ** Librarians *)
Lemma cut_end (a o : str) n : List.length o = n -> firstn (List.length (a ++ o) - n) (a ++ o) = a.
Proof. intros <-. rewrite app_length. replace (List.length a + List.length o - List.length o) with (List.length a) by lia. rewrite firstn_app, Nat.sub_diag, firstn_all. apply app_nil_r. Qed.
Lemma librarian_token_spec lib nm ds t : exists outs more, lib_argument (lists_inputs (negb lib) ds []) nm t outs /\
  Forall (fun x => x = []) more /\ makes_args (librarian_token lib nm ds t) (outs ++ more).
Proof.
  unfold librarian_token. set (ins := lists_inputs (negb lib) ds []).
  destruct (ends_with t (L "%1")) eqn:E1.
  { apply ends_iff in E1. destruct E1 as (a&->). eexists _, [[]]. split; [now apply la_in|]. split; [now repeat constructor|].
    rewrite cut_end by reflexivity. apply ma_app; [apply ma_flat; intros; apply ma_2|apply ma_0]. }
  destruct (ends_with t (quote :: L "%1" ++ [quote])) eqn:E2.
  { apply ends_iff in E2. destruct E2 as (a&->). eexists _, [[]]. split; [now apply la_in_q|]. split; [now repeat constructor|].
    change (a ++ quote :: L "%1" ++ [quote]) with (a ++ [quote] ++ (L "%1" ++ [quote])). rewrite app_assoc, cut_end by reflexivity.
    apply ma_app; [|apply ma_0]. apply (ma_flat (fun i => [Append (a ++ [quote]); Append i; Append [quote]; AddDelimiter])). intros x.
    replace (a ++ [quote] ++ x ++ [quote]) with ((a ++ [quote]) ++ x ++ [quote]) by now rewrite <- app_assoc. apply ma_3. }
  destruct (ends_with t (L "%2")) eqn:E3.
  { apply ends_iff in E3. destruct E3 as (a&->). eexists [_], []. split; [now apply la_out|]. split; [constructor|].
    rewrite cut_end by reflexivity. apply ma_2. }
  destruct (ends_with t (quote :: L "%2" ++ [quote])) eqn:E4.
  { apply ends_iff in E4. destruct E4 as (a&->). eexists [_], []. split; [now apply la_out_q|]. split; [constructor|].
    change (a ++ quote :: L "%2" ++ [quote]) with (a ++ [quote] ++ (L "%2" ++ [quote])). rewrite app_assoc, cut_end by reflexivity.
    replace (a ++ [quote] ++ nm ++ [quote]) with ((a ++ [quote]) ++ nm ++ [quote]) by now rewrite <- app_assoc. apply ma_3. }
  exists [t], []. split; [|split; [constructor|apply ma_1]]. apply la_same. intros a o [->| ->]; split; intros ->.
  - assert (ends_with (a ++ L "%1") (L "%1") = true) by (apply ends_iff; now exists a). congruence.
  - assert (ends_with (a ++ [quote] ++ L "%1" ++ [quote]) (quote :: L "%1" ++ [quote]) = true) by (apply ends_iff; now exists a). congruence.
  - assert (ends_with (a ++ L "%2") (L "%2") = true) by (apply ends_iff; now exists a). congruence.
  - assert (ends_with (a ++ [quote] ++ L "%2" ++ [quote]) (quote :: L "%2" ++ [quote]) = true) by (apply ends_iff; now exists a). congruence.
Qed.
Lemma librarian_ops_spec lib nm ds toks : exists outss outs, Forall2 (lib_argument (lists_inputs (negb lib) ds []) nm) toks outss /\
  makes_args (flat_map (librarian_token lib nm ds) toks) outs /\ filter nonempty outs = filter nonempty (List.concat outss) /\
  (Forall single (List.concat outss) -> Forall piece outs).
Proof.
  induction toks as [|t toks IH]; [exists [], []; split; [constructor|]; split; [apply ma_nil|]; split; [reflexivity|constructor]|].
  destruct IH as (outss&outs&H1&H2&H3&H4). destruct (librarian_token_spec lib nm ds t) as (os&more&A&M&G).
  assert (Z : filter nonempty more = []) by (clear - M; induction M as [|x l -> _ IH]; [reflexivity|exact IH]).
  exists (os :: outss), ((os ++ more) ++ outs). split; [now constructor|]. split; [cbn [flat_map]; now apply ma_app|]. split.
  - cbn [List.concat]. unfold str in *. now rewrite !filter_app, Z, app_nil_r, H3.
  - cbn [List.concat]. intros S. apply Forall_app in S. destruct S as [S1 S2]. apply Forall_app. split; [apply Forall_app; split|now apply H4].
    + clear - S1. induction S1; constructor; [now right|assumption].
    + clear - M. induction M; constructor; [now left|assumption].
Qed.
