(** The scanner of one file against the grammar of S_Light. *)
From Coq Require Import String List Arith NArith Bool Ascii Lia.
From Verif Require Import M_Path.
From Verif Require M_Tok S_Tok P_Tok.
From Verif Require Import M_Light S_Light.
Import ListNotations.
Import M_Tok(seqb, span, blank, LF, CR, TAB, DQ, SQ, id_start, id_char).
Import S_Tok(letter, name_char).
Import P_Tok(span_app, span_split, span_forall, span_stop, span_length, eqb_iff, id_start_iff, id_char_iff, iff_false).
Open Scope char_scope.
Open Scope nat_scope.

Lemma eol_iff c : at_eol c = true <-> newline c.
Proof. unfold at_eol, newline. rewrite orb_true_iff, !eqb_iff. tauto. Qed.
Lemma eol_false c : at_eol c = false <-> ~ newline c. Proof. apply iff_false, eol_iff. Qed.
Lemma blank_iff c : blank c = true <-> c = " " \/ c = TAB.
Proof. unfold blank. rewrite orb_true_iff, !eqb_iff. tauto. Qed.
Lemma blanks_span u : blanks u <-> Forall (fun c => blank c = true) u.
Proof. unfold blanks. split; intro H; (eapply Forall_impl; [|exact H]); intros c; apply blank_iff. Qed.

(** * Skipping *)
Definition no_blank (s : str) : Prop := match s with [] => True | c :: _ => blank c = false end.
Lemma skip_ws_app u s : blanks u -> skip_ws (u ++ s) = skip_ws s.
Proof.
  intro B. induction u as [|c u IH]; [reflexivity|]. inversion B as [|? ? Bc Bu]; subst. unfold skip_ws in *. cbn [app span]. apply blank_iff in Bc. rewrite Bc. cbn [snd]. now apply IH.
Qed.
Lemma skip_ws_stop s : no_blank s -> skip_ws s = s.
Proof. destruct s as [|c s]; [reflexivity|]. cbn. unfold skip_ws. cbn. intros ->. reflexivity. Qed.
Lemma skip_ws_none s : no_blank (skip_ws s). Proof. apply span_stop. Qed.
Lemma skip_ws_length s : List.length (skip_ws s) <= List.length s. Proof. apply span_length. Qed.
Lemma skip_eol_length s : List.length (skip_eol s) <= List.length s. Proof. apply span_length. Qed.
Lemma to_eol_length s : List.length (to_eol s) <= List.length s. Proof. apply span_length. Qed.
Lemma to_close_length s : List.length (to_close s) <= List.length s.
Proof. induction s as [|c s IH]; [cbn; lia|]. cbn [to_close]. destruct (_ && _); [destruct s; cbn; lia|cbn; lia]. Qed.
Lemma tl_length (s : str) : List.length (tl s) <= List.length s. Proof. destruct s; cbn; lia. Qed.
Lemma skip_comment_length s : List.length (skip_comment s) <= List.length s.
Proof. unfold skip_comment. pose proof (to_close_length (tl (tl s))). pose proof (tl_length s). pose proof (tl_length (tl s)). lia. Qed.
Lemma skip_gap_length s : List.length (skip_gap s) <= List.length s.
Proof.
  unfold skip_gap. pose proof (skip_ws_length s). pose proof (skip_comment_length (skip_ws s)). pose proof (skip_ws_length (skip_comment (skip_ws s))). destruct (comment_start _); lia.
Qed.
Lemma to_eol_app b r : one_line b -> to_eol (b ++ r) = to_eol r.
Proof.
  intro B. induction b as [|c b IH]; [reflexivity|]. inversion B as [|? ? Bc Bb]; subst. unfold to_eol in *. cbn [app span]. apply eol_false in Bc. rewrite Bc. cbn [negb snd]. now apply IH.
Qed.
Lemma to_eol_stop s : (s = [] \/ exists c, newline c /\ starts [c] s) -> to_eol s = s.
Proof. intros [->|(c & N & r & ->)]; [reflexivity|]. cbn. unfold to_eol. cbn. apply eol_iff in N. rewrite N. reflexivity. Qed.
Lemma skip_eol_cons c s : newline c -> skip_eol (c :: s) = skip_eol s.
Proof. intro N. apply eol_iff in N. unfold skip_eol. cbn. now rewrite N. Qed.
Lemma comment_start_iff s : comment_start s = true <-> starts (L "/*") s.
Proof.
  unfold comment_start. rewrite andb_true_iff, !eqb_iff. split.
  - destruct s as [|a [|b s]]; cbn; intros (A & B); try discriminate. subst. now exists s.
  - intros (r & ->). now split.
Qed.
Lemma comment_start_false s : comment_start s = false <-> ~ starts (L "/*") s. Proof. apply iff_false, comment_start_iff. Qed.
Lemma inside_cons p c s : inside p s -> inside p (c :: s). Proof. intros (a & b & ->). now exists (c :: a), b. Qed.
Lemma to_close_found b r : ~ inside (L "*/") b -> to_close (b ++ L "*/" ++ r) = r.
Proof.
  induction b as [|c b IH]; intro N; [reflexivity|]. cbn [app to_close].
  assert (Nb : ~ inside (L "*/") b) by (intro I; apply N; now apply inside_cons).
  destruct (Ascii.eqb_spec c "*") as [->|Nc]; [|cbn [andb]; now apply IH]. destruct b as [|d b]; [reflexivity|].
  cbn [app peek]. destruct (Ascii.eqb_spec d "/") as [->|Nd]; [exfalso; apply N; now exists [], b|]. cbn [andb]. now apply IH.
Qed.
Lemma skip_comment_found b r : ~ inside (L "*/") b -> skip_comment (L "/*" ++ b ++ L "*/" ++ r) = r.
Proof. intro N. unfold skip_comment. cbn [L map app]. change (tl (tl (L "/*" ++ b ++ L "*/" ++ r))) with (b ++ L "*/" ++ r). now apply to_close_found. Qed.
Lemma skip_gap_found x s : gap x -> no_blank s -> ~ starts (L "/*") s -> skip_gap (x ++ s) = s.
Proof.
  intros [B|(u & b & v & -> & Bu & Bv & Nb)] Ns Nc; unfold skip_gap.
  - rewrite skip_ws_app, skip_ws_stop by assumption. apply comment_start_false in Nc. now rewrite Nc.
  - rewrite <- !app_assoc. rewrite skip_ws_app by assumption. rewrite (skip_ws_stop (L "/*" ++ _)) by reflexivity.
    assert (C : comment_start (L "/*" ++ b ++ L "*/" ++ v ++ s) = true) by (apply comment_start_iff; now eexists). rewrite C, skip_comment_found by assumption.
    now rewrite skip_ws_app, skip_ws_stop.
Qed.
Lemma to_end_found q n r : one_line n -> ~ In q n -> to_end q (n ++ q :: r) = Some (n, r).
Proof.
  induction n as [|c n IH]; intros O N; cbn [app to_end]; [now rewrite Ascii.eqb_refl|]. inversion O as [|? ? Oc On]; subst.
  destruct (Ascii.eqb_spec c q) as [->|Nc]; [exfalso; apply N; now left|]. apply eol_false in Oc. rewrite Oc. rewrite IH; [reflexivity|exact On|intro; apply N; now right].
Qed.
Lemma to_end_only q s n r : to_end q s = Some (n, r) -> s = n ++ q :: r /\ one_line n /\ ~ In q n.
Proof.
  revert n r. induction s as [|c s IH]; intros n r; cbn [to_end]; [discriminate|]. destruct (Ascii.eqb_spec c q) as [->|Nc].
  - intro E. injection E as <- <-. repeat split; [constructor|intros []].
  - destruct (at_eol c) eqn:Ec; [discriminate|]. destruct (to_end q s) as [[b t]|]; [|discriminate]. intro E. injection E as <- <-. destruct (IH _ _ eq_refl) as (-> & O & N).
    repeat split; [constructor; [now apply eol_false|exact O]|intros [Q|Q]; [congruence|tauto]].
Qed.
Lemma include_string_found h n t r : header h n t -> include_string (h ++ r) = Some (n, t, r).
Proof.
  intros [m O N|m O N].
  - replace ((DQ :: m ++ [DQ]) ++ r) with (DQ :: (m ++ DQ :: r)) by (cbn [app]; now rewrite <- app_assoc). cbn [include_string]. change (Ascii.eqb DQ DQ) with true. cbn iota.
    now rewrite to_end_found.
  - replace (("<" :: m ++ [">"]) ++ r) with ("<" :: (m ++ ">" :: r)) by (cbn [app]; now rewrite <- app_assoc). cbn [include_string].
    change (Ascii.eqb "<" DQ) with false. change (Ascii.eqb "<" "<") with true. cbn iota. now rewrite to_end_found.
Qed.
Lemma include_string_only s n t r : include_string s = Some (n, t, r) -> exists h, header h n t /\ s = h ++ r.
Proof.
  destruct s as [|c s]; [discriminate|]. cbn [include_string]. destruct (Ascii.eqb_spec c DQ) as [->|N1].
  - destruct (to_end DQ s) as [[b u]|] eqn:E; [|discriminate]. intro Q. injection Q as <- <- <-. apply to_end_only in E as (-> & O & N).
    exists (DQ :: b ++ [DQ]). split; [now constructor|]. cbn [app]. now rewrite <- app_assoc.
  - destruct (Ascii.eqb_spec c "<") as [->|N2]; [|discriminate].
    destruct (to_end ">" s) as [[b u]|] eqn:E; [|discriminate]. intro Q. injection Q as <- <- <-. apply to_end_only in E as (-> & O & N).
    exists ("<" :: b ++ [">"]). split; [now constructor|]. cbn [app]. now rewrite <- app_assoc.
Qed.
Lemma macro_name_found m r : identifier m r -> macro_name (m ++ r) = Some (m, r).
Proof.
  intros ((c & x & -> & Lc & Nx) & Nr). unfold macro_name. cbn [app peek]. apply id_start_iff in Lc. rewrite Lc. f_equal.
  apply (span_app id_char (c :: x) r).
  - constructor; [unfold id_start, id_char in *; rewrite Lc; reflexivity|]. eapply Forall_impl; [|exact Nx]. intros a. apply id_char_iff.
  - destruct r as [|d r]; [exact I|]. apply (iff_false _ _ (id_char_iff d)). apply Nr. now exists r.
Qed.
Lemma after_app w s : after w (w ++ s) = Some s.
Proof. induction w as [|c w IH]; [now destruct s|]. cbn. now rewrite Ascii.eqb_refl. Qed.
Lemma after_none w s : ~ starts w s -> after w s = None.
Proof.
  revert s. induction w as [|c w IH]; intros s N; [exfalso; apply N; now exists s|]. destruct s as [|d s]; [reflexivity|]. cbn.
  destruct (Ascii.eqb_spec c d) as [->|]; [|reflexivity]. apply IH. intros (r & ->). apply N. now exists r.
Qed.

(** * The loop *)
Definition step (scan : str -> list event * bool) (s : str) : list event * bool :=
  match skip_ws s with
  | [] => ([], false)
  | c :: r =>
      if at_eol c then scan (skip_eol (c :: r))
      else match (if Ascii.eqb c "#" then directive r else Some ([], c :: r)) with
           | None => ([], true)
           | Some (ev, p) =>
               let p := if comment_start p then skip_comment p else p in
               let x := scan (skip_eol (to_eol p)) in (ev ++ fst x, snd x)
           end
  end.
Lemma directive_length s ev p : directive s = Some (ev, p) -> List.length p <= List.length s.
Proof.
  assert (A : forall w s r, after w s = Some r -> List.length r <= List.length s).
  { induction w as [|c w IH]; intros x r; cbn; [destruct x; intro E; injection E as <-; lia|]. destruct x as [|d x]; [discriminate|]. destruct (Ascii.eqb c d); [|discriminate].
    intro E. apply IH in E. cbn. lia. }
  assert (I : forall s n t r, include_string s = Some (n, t, r) -> List.length r <= List.length s).
  { intros x n t r E. apply include_string_only in E as (h & _ & ->). rewrite app_length. lia. }
  assert (Mn : forall s n r, macro_name s = Some (n, r) -> List.length r <= List.length s).
  { intros x n r. unfold macro_name. destruct (id_start _); [|discriminate]. intro E. injection E as E. apply (f_equal snd) in E. cbn in E. subst r. apply span_length. }
  unfold directive. pose proof (skip_ws_length s) as Ls. destruct (after (L "include") (skip_ws s)) as [r|] eqn:E1.
  - apply A in E1. unfold include_line. pose proof (skip_gap_length r). destruct (_ || _).
    + destruct (include_string (skip_gap r)) as [[[n t] q]|] eqn:E; [|discriminate]. apply I in E. intro Q. injection Q as <- <-. lia.
    + destruct (macro_name (skip_gap r)) as [[n q]|] eqn:E; [|discriminate]. apply Mn in E. intro Q. injection Q as <- <-. lia.
  - destruct (after (L "define") (skip_ws s)) as [r|] eqn:E2.
    + apply A in E2. unfold define_line. pose proof (skip_gap_length r). destruct (macro_name (skip_gap r)) as [[n q]|] eqn:E; [|discriminate]. apply Mn in E.
      pose proof (skip_gap_length q). pose proof (to_eol_length (skip_gap q)). destruct (include_string (skip_gap q)) as [[[n' t] q']|] eqn:E'.
      * apply I in E'. intro Q. injection Q as <- <-. lia.
      * intro Q. injection Q as <- <-. destruct (_ || _); lia.
    + destruct (after (L "import") (skip_ws s)); [discriminate|]. intro Q. injection Q as <- <-. lia.
Qed.
Lemma step_ext f g s : (forall x, List.length x < List.length s -> f x = g x) -> step f s = step g s.
Proof.
  intro H. unfold step. pose proof (skip_ws_length s) as Ls. pose proof (skip_ws_none s) as Nb. destruct (skip_ws s) as [|c r] eqn:E; [reflexivity|]. cbn [List.length] in Ls.
  destruct (at_eol c) eqn:Ec.
  - apply H. unfold skip_eol. cbn [span]. rewrite Ec. cbn [snd]. pose proof (span_length at_eol r). lia.
  - destruct (Ascii.eqb c "#") eqn:Ed.
    + destruct (directive r) as [[ev p]|] eqn:D; [|reflexivity]. apply directive_length in D. cbv zeta.
      pose proof (skip_comment_length p). set (q := if comment_start p then skip_comment p else p). assert (List.length q <= List.length p) by (unfold q; destruct (comment_start p); lia).
      pose proof (skip_eol_length (to_eol q)). pose proof (to_eol_length q). rewrite H; [reflexivity|lia].
    + cbv zeta. destruct (comment_start (c :: r)) eqn:C.
      * assert (List.length (skip_comment (c :: r)) < S (List.length r)).
        { unfold skip_comment. cbn [tl]. pose proof (to_close_length (tl r)). pose proof (tl_length r). lia. }
        pose proof (skip_eol_length (to_eol (skip_comment (c :: r)))). pose proof (to_eol_length (skip_comment (c :: r))). rewrite H; [reflexivity|lia].
      * assert (Q : to_eol (c :: r) = to_eol r). { change (c :: r) with ([c] ++ r). apply to_eol_app. constructor; [now apply eol_false|constructor]. }
        rewrite Q. pose proof (skip_eol_length (to_eol r)). pose proof (to_eol_length r). rewrite H; [reflexivity|lia].
Qed.
Definition scan (s : str) : list event * bool := loop (S (List.length s)) s.
Lemma loop_step f s : loop (S f) s = step (loop f) s.
Proof. cbn [loop]. unfold step. cbv zeta. now destruct (skip_ws s). Qed.
Lemma loop_enough f s : List.length s < f -> loop f s = scan s.
Proof.
  unfold scan. revert s. induction f as [f IH] using lt_wf_ind. intros s Lf. destruct f as [|f]; [lia|]. rewrite !loop_step. apply step_ext. intros x Lx.
  destruct (Nat.eq_dec f (List.length s)) as [->|N]; [reflexivity|]. rewrite (IH f) by lia. rewrite (IH (List.length s)) by lia. reflexivity.
Qed.
Lemma scan_step s : scan s = step scan s.
Proof. unfold scan at 1. rewrite loop_step. apply step_ext. intros x Lx. now apply loop_enough. Qed.

Lemma scan_blanks u s : blanks u -> scan (u ++ s) = scan s.
Proof. intro B. rewrite (scan_step (u ++ s)), (scan_step s). unfold step. now rewrite skip_ws_app. Qed.
Lemma scan_nil : scan [] = ([], false). Proof. reflexivity. Qed.
Lemma scan_newline c s : newline c -> scan (c :: s) = scan (skip_eol s).
Proof.
  intro N. rewrite scan_step. unfold step. rewrite skip_ws_stop by (cbn; destruct N as [->| ->]; reflexivity). pose proof N as N'. apply eol_iff in N'. rewrite N'. now rewrite skip_eol_cons.
Qed.
Lemma scan_eol s : scan (skip_eol s) = scan s.
Proof.
  destruct s as [|c s]; [reflexivity|]. destruct (at_eol c) eqn:E.
  - apply eol_iff in E. rewrite skip_eol_cons by exact E. now rewrite scan_newline.
  - unfold skip_eol. cbn [span]. now rewrite E.
Qed.
Lemma scan_code c r : ~ newline c -> c <> "#" -> blank c = false -> comment_start (c :: r) = false -> scan (c :: r) = scan (to_eol r).
Proof.
  intros N H B C. rewrite scan_step. unfold step. rewrite skip_ws_stop by exact B. apply eol_false in N. rewrite N. rewrite (proj2 (Ascii.eqb_neq c "#")) by exact H. rewrite C.
  change (c :: r) with ([c] ++ r). rewrite to_eol_app by (constructor; [now apply eol_false|constructor]). rewrite scan_eol. cbn [app]. now rewrite <- surjective_pairing.
Qed.

(** * The end of a line *)
Lemma line_split (b : str) : one_line b \/ exists x c y, b = x ++ c :: y /\ one_line x /\ newline c.
Proof.
  induction b as [|c b IH]; [left; constructor|]. destruct (at_eol c) eqn:E.
  - right. exists [], c, b. repeat split; [constructor|now apply eol_iff].
  - apply eol_false in E. destruct IH as [O|(x & d & y & -> & O & N)]; [left; now constructor|]. right. exists (c :: x), d, y. repeat split; [now constructor|exact N].
Qed.
Definition calm_at_start (y : str) : Prop := (forall u z, y = u ++ z -> blanks u -> ~ starts ["#"] z /\ ~ starts ["/"] z) /\ calm y.
Lemma calm_tail x c y : calm (x ++ c :: y) -> newline c -> calm_at_start y.
Proof.
  intros C N. split.
  - intros u z -> B. now apply (C x c u z).
  - intros x' c' u z -> N' B. apply (C (x ++ c :: x') c' u z); [|exact N'|exact B]. now rewrite <- app_assoc.
Qed.
Lemma split_blanks (y : str) : exists u z, y = u ++ z /\ blanks u /\ no_blank z.
Proof. exists (fst (span blank y)), (snd (span blank y)). split; [apply span_split|]. split; [apply blanks_span, span_forall|apply span_stop]. Qed.
Lemma scan_calm n : forall y r, List.length y <= n -> calm_at_start y -> scan (y ++ L "*/" ++ r) = scan (to_eol r).
Proof.
  induction n as [|n IH]; intros y r Ln (Cs & C).
  - destruct y; [|cbn in Ln; lia]. cbn [app]. change (L "*/" ++ r) with ("*" :: "/" :: r). rewrite scan_code; try reflexivity; [unfold newline; intuition discriminate|discriminate].
  - destruct (split_blanks y) as (u & z & -> & B & Nz). rewrite <- app_assoc, scan_blanks by exact B. destruct (Cs u z eq_refl B) as (N1 & N2). destruct z as [|c z].
    + apply (IH [] r); [cbn; lia|]. split; [|intros x c' u' z' Q; destruct x; discriminate].
      intros u' z' Q _. symmetry in Q. apply app_eq_nil in Q as (-> & ->). split; intros (q & Q); discriminate.
    + cbn in Nz. rewrite app_length in Ln. cbn in Ln. destruct (at_eol c) eqn:E.
      * apply eol_iff in E. cbn [app]. rewrite scan_newline by exact E. rewrite scan_eol. apply IH; [lia|]. eapply (calm_tail u c); eassumption.
      * apply eol_false in E. cbn [app]. rewrite scan_code; [|exact E|intros ->; apply N1; now eexists|exact Nz|].
        2:{ apply comment_start_false. intros (q & Q). injection Q as -> _. apply N2. now eexists. }
        destruct (line_split z) as [O|(x & d & y & -> & O & N)].
        -- rewrite to_eol_app by exact O. change (L "*/" ++ r) with (L "*/" ++ r). rewrite to_eol_app; [reflexivity|]. repeat constructor; unfold newline; intuition discriminate.
        -- rewrite <- app_assoc. rewrite to_eol_app by exact O. cbn [app]. rewrite to_eol_stop by (right; exists d; split; [exact N|now eexists]).
           rewrite scan_newline by exact N. rewrite scan_eol. apply IH; [rewrite app_length in Ln; cbn in Ln; lia|].
           apply (calm_tail (u ++ c :: x) d y); [|exact N]. rewrite <- app_assoc. exact C.
Qed.
Lemma scan_rest r s : rest r s -> scan (to_eol r) = scan s.
Proof.
  induction 1 as [|c s N|c r s N _ _ _ _ _ IH|q b r s Q O _ _ IH|q b r s Q O _ _ _ IH|b r s O _ _ IH|b r s Nb C _ IH].
  - reflexivity.
  - rewrite to_eol_stop by (right; exists c; split; [exact N|now eexists]). rewrite scan_newline by exact N. apply scan_eol.
  - change (c :: r) with ([c] ++ r). rewrite to_eol_app by (constructor; [exact N|constructor]). exact IH.
  - replace (q :: b ++ q :: r) with ((q :: b ++ [q]) ++ r) by (cbn [app]; now rewrite <- app_assoc). rewrite to_eol_app; [exact IH|].
    assert (~ newline q) by (destruct Q as [->| ->]; unfold newline; intuition discriminate). constructor; [assumption|]. apply Forall_app. split; [exact O|]. now constructor.
  - change (q :: b ++ r) with ((q :: b) ++ r). rewrite to_eol_app; [exact IH|]. constructor; [destruct Q as [->| ->]; unfold newline; intuition discriminate|exact O].
  - rewrite app_assoc. rewrite to_eol_app; [exact IH|]. constructor; [unfold newline; intuition discriminate|]. constructor; [unfold newline; intuition discriminate|exact O].
  - destruct (line_split b) as [O|(x & c & y & -> & O & N)].
    + rewrite !app_assoc. rewrite to_eol_app; [exact IH|]. apply Forall_app. split; [apply Forall_app; split; [|exact O]|]; repeat constructor; unfold newline; intuition discriminate.
    + rewrite <- app_assoc, app_assoc. rewrite to_eol_app; [|apply Forall_app; split; [|exact O]; repeat constructor; unfold newline; intuition discriminate].
      cbn [app]. rewrite to_eol_stop by (right; exists c; split; [exact N|now eexists]). rewrite scan_newline by exact N. rewrite scan_eol.
      rewrite (scan_calm (List.length y)); [exact IH|lia|]. eapply calm_tail; eassumption.
Qed.
Lemma rest_comment r s : rest r s -> comment_start r = true -> scan (to_eol (skip_comment r)) = scan s.
Proof.
  intros R C. apply comment_start_iff in C as (q & E). destruct R as [|c s N|c r s N _ _ _ H R|q' b r s Q O _ R|q' b r s Q O _ _ R|b r s O _ R|b r s Nb Cm R].
  - discriminate.
  - injection E as -> _. destruct N; discriminate.
  - exfalso. apply H. rewrite E. now eexists.
  - injection E as -> _. destruct Q; discriminate.
  - injection E as -> _. destruct Q; discriminate.
  - discriminate.
  - rewrite skip_comment_found by exact Nb. now apply scan_rest.
Qed.
Lemma scan_done r s : rest r s -> scan (skip_eol (to_eol (if comment_start r then skip_comment r else r))) = scan s.
Proof. intro R. rewrite scan_eol. destruct (comment_start r) eqn:C; [now apply rest_comment|now apply scan_rest]. Qed.

(** * Directives *)
Lemma scan_directive v ev p r s l : directive (v ++ r) = Some (ev, p) -> rest p s -> scan s = (l, false) -> scan ("#" :: v ++ r) = (ev ++ l, false).
Proof.
  intros D R S. rewrite scan_step. unfold step. rewrite skip_ws_stop by reflexivity. change (at_eol "#") with false. change (Ascii.eqb "#" "#") with true. cbn iota. rewrite D.
  cbv zeta. rewrite (scan_done _ _ R), S. reflexivity.
Qed.
Lemma header_no h n t r : header h n t -> no_blank (h ++ r) /\ ~ starts (L "/*") (h ++ r) /\ (Ascii.eqb (peek (h ++ r)) DQ || Ascii.eqb (peek (h ++ r)) "<")%char = true.
Proof. intros [m _ _|m _ _]; (split; [reflexivity|split; [intros (q & Q); discriminate|reflexivity]]). Qed.
Lemma letter_no c : letter c -> blank c = false /\ c <> "/" /\ c <> DQ /\ c <> "<".
Proof.
  intro H. assert (E : id_start c = true) by (now apply id_start_iff). repeat split.
  - destruct (blank c) eqn:B; [|reflexivity]. apply blank_iff in B as [->| ->]; discriminate.
  - intros ->; discriminate.
  - intros ->; discriminate.
  - intros ->; discriminate.
Qed.
Lemma name_no m r : identifier m r -> no_blank (m ++ r) /\ ~ starts (L "/*") (m ++ r) /\ (Ascii.eqb (peek (m ++ r)) DQ || Ascii.eqb (peek (m ++ r)) "<")%char = false.
Proof.
  intros ((c & x & -> & Lc & _) & _). apply letter_no in Lc as (A & B & C & D). repeat split; [exact A|intros (q & Q); injection Q as -> _; congruence|].
  cbn [app peek]. apply orb_false_iff. split; now apply Ascii.eqb_neq.
Qed.
Theorem scan_lines s l : lines s l -> scan s = (l, false).
Proof.
  induction 1 as [u B|u c s l B N _ IH|u c r s l B N H Nb C R _ IH|u b r s l B Nc R _ IH|u v x h n t r s l Bu Bv G H R _ IH|u v x m r s l Bu Bv G Nx Id R _ IH
    |u v x m y h n t r s l Bu Bv G Nx Id Gy H Nn R _ IH|u v x m y r s l Bu Bv G Nx Id Gy Nh N1 N2 N3 R _ IH|u v r s l Bu Bv N1 N2 N3 N4 N5 N6 R _ IH].
  - rewrite <- (app_nil_r u). now rewrite scan_blanks.
  - rewrite scan_blanks by exact B. rewrite scan_newline by exact N. now rewrite scan_eol.
  - rewrite scan_blanks by exact B. rewrite scan_code; [|exact N|exact H| |now apply comment_start_false].
    + rewrite <- IH. rewrite <- (scan_rest _ _ R). change (c :: r) with ([c] ++ r). now rewrite to_eol_app by (constructor; [exact N|constructor]).
    + destruct (blank c) eqn:Bc; [|reflexivity]. exfalso. apply Nb. apply blank_iff in Bc. apply Forall_cons; [exact Bc|apply Forall_nil].
  - rewrite scan_blanks by exact B. rewrite scan_step. unfold step. rewrite skip_ws_stop by reflexivity. cbn [L list_ascii_of_string app]. cbv iota beta.
    change (at_eol "/") with false. change (Ascii.eqb "/" "#") with false. cbn iota. change ("/" :: "*" :: b ++ "*" :: "/" :: r) with (L "/*" ++ b ++ L "*/" ++ r).
    assert (C : comment_start (L "/*" ++ b ++ L "*/" ++ r) = true) by (apply comment_start_iff; now eexists). rewrite C, skip_comment_found by exact Nc. cbv zeta.
    rewrite scan_eol, (scan_rest _ _ R), IH. reflexivity.
  - rewrite scan_blanks by exact Bu. apply (scan_directive v [Include n t] r _ s l); [|exact R|exact IH]. unfold directive. rewrite skip_ws_app by exact Bv.
    rewrite skip_ws_stop by reflexivity. rewrite after_app. unfold include_line. destruct (header_no h n t r H) as (A1 & A2 & A3). rewrite skip_gap_found by assumption. rewrite A3.
    now rewrite (include_string_found h n t).
  - rewrite scan_blanks by exact Bu. apply (scan_directive v [Include m Macro] r _ s l); [|exact R|exact IH]. unfold directive. rewrite skip_ws_app by exact Bv.
    rewrite skip_ws_stop by reflexivity. rewrite after_app. unfold include_line. destruct (name_no m r Id) as (A1 & A2 & A3). rewrite skip_gap_found by assumption. rewrite A3.
    now rewrite macro_name_found.
  - rewrite scan_blanks by exact Bu. apply (scan_directive v [Define m n t] r _ s l); [|exact R|exact IH]. unfold directive. rewrite skip_ws_app by exact Bv.
    rewrite skip_ws_stop by reflexivity. rewrite (after_none (L "include")) by (intros (q & Q); discriminate). rewrite after_app. unfold define_line.
    destruct (name_no m _ Id) as (A1 & A2 & _). rewrite skip_gap_found by assumption. rewrite macro_name_found by exact Id. cbv zeta.
    destruct (header_no h n t r H) as (B1 & B2 & _). rewrite skip_gap_found by assumption. now rewrite (include_string_found h n t).
  - rewrite scan_blanks by exact Bu.
    assert (Nb : no_blank r). { destruct r as [|c r]; [exact I|]. cbn. destruct (blank c) eqn:E; [|reflexivity]. apply blank_iff in E as [->| ->]; [destruct N1|destruct N2]; now eexists. }
    assert (Is : include_string r = None). { destruct (include_string r) as [[[n t] q]|] eqn:E; [|reflexivity]. apply include_string_only in E as (h & H & ->). destruct (Nh h n t H). now eexists. }
    assert (D : directive (v ++ L "define" ++ x ++ m ++ y ++ r) = Some ([Other m], if (Ascii.eqb (peek r) DQ || Ascii.eqb (peek r) "<")%char then to_eol r else r)).
    { unfold directive. rewrite skip_ws_app by exact Bv. rewrite skip_ws_stop by reflexivity. rewrite (after_none (L "include")) by (intros (q & Q); discriminate). rewrite after_app.
      unfold define_line. destruct (name_no m _ Id) as (A1 & A2 & _). rewrite skip_gap_found by assumption. rewrite macro_name_found by exact Id. cbv zeta.
      rewrite skip_gap_found by assumption. now rewrite Is. }
    destruct ((Ascii.eqb (peek r) DQ || Ascii.eqb (peek r) "<")%char) eqn:Q; [|apply (scan_directive v [Other m] r _ s l D R IH)].
    rewrite scan_step. unfold step. rewrite skip_ws_stop by reflexivity. change (at_eol "#") with false. change (Ascii.eqb "#" "#") with true. cbn iota. rewrite D. cbv zeta.
    assert (E : to_eol r = [] \/ exists c, newline c /\ starts [c] (to_eol r)).
    { unfold to_eol. pose proof (span_stop (fun c => negb (at_eol c)) r) as Sp. destruct (snd (span _ r)) as [|c z]; [now left|]. right. exists c. split; [|now eexists].
      apply eol_iff. now apply negb_false_iff in Sp. }
    assert (C : comment_start (to_eol r) = false). { apply comment_start_false. intros (z & Z). destruct E as [E|(c & N & z' & E)]; rewrite E in Z; [discriminate|]. injection Z as -> _. destruct N; discriminate. }
    rewrite C. rewrite (to_eol_stop _ E). rewrite scan_eol, (scan_rest _ _ R), IH. reflexivity.
  - rewrite scan_blanks by exact Bu.
    assert (Nb : no_blank r). { destruct r as [|c r]; [exact I|]. cbn. destruct (blank c) eqn:E; [|reflexivity]. apply blank_iff in E as [->| ->]; [destruct N4|destruct N5]; now eexists. }
    apply (scan_directive v [] r r s l); [|exact R|exact IH]. unfold directive. rewrite skip_ws_app by exact Bv. rewrite skip_ws_stop by exact Nb.
    rewrite !after_none by assumption. reflexivity.
Qed.
Lemma upto_nul_same s : ~ In nul s -> upto_nul s = s.
Proof.
  unfold upto_nul. induction s as [|c s IH]; intro N; [reflexivity|]. cbn [span]. destruct (Ascii.eqb_spec c nul) as [->|]; [exfalso; apply N; now left|]. cbn [negb fst].
  f_equal. apply IH. intro; apply N; now right.
Qed.
Theorem parse_lines s l : ~ In nul s -> lines s l -> parse s = (l, false).
Proof. intros N H. unfold parse. rewrite upto_nul_same by exact N. apply scan_lines in H. exact H. Qed.
