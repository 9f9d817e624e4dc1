(** C41: the message filter for MSBuild. *)
From Coq Require Import List Arith Bool Ascii String NArith Lia.
From Verif Require Import M_Path M_Names M_Msg S_Msg P_Msg.
Import ListNotations.

(** For every message the filter ends, and all it does is to make a space of colons that end a pattern. *)
Theorem C41_only_colons m : exists o, clean m = Some o /\ blanked m m o.
Proof.
  unfold clean. destruct (clean_loop (S (List.length m)) m) as [o|] eqn:E; [|apply loop_total in E; [tauto|lia]].
  exists o. split; auto. apply (loop_blanked _ _ _ m [] E eq_refl).
Qed.
Print Assumptions C41_only_colons.

(** No "error CODE:" is left in a message of the usual shape.  What is missing for the full claim: see the refutations. *)
Theorem C41_errors_hidden_partial m o : usual m -> clean m = Some o -> ~ has_pattern "error" o.
Proof. intros U C (p & q & E & P). exact (loop_hidden _ _ _ "error" C U (or_introl eq_refl) p q E P). Qed.
Print Assumptions C41_errors_hidden_partial.
(** If moreover the word "error" does not occur, no "warning CODE:" is left. *)
Theorem C41_warnings_hidden_partial m o : usual m -> ~ has_word "error" m -> clean m = Some o -> ~ has_pattern "warning" o.
Proof.
  intros U N C (p & q & E & P). assert (F : find_i ERROR m = None).
  { destruct (find_i ERROR m) as [[a b]|] eqn:F; auto. exfalso. apply N. apply find_some in F. destruct F as (-> & B & _).
    apply (begins_word_inv (L "error")) in B; [|reflexivity]. destruct B as (t & r & -> & W). exists a, t, r. split; auto. }
  exact (loop_hidden _ _ _ "warning" C U (or_intror (conj eq_refl F)) p q E P).
Qed.
Print Assumptions C41_warnings_hidden_partial.

(** Findings: the claim fails for these messages. *)
(** A warning before any later mention of "error " keeps its colon. *)
Theorem C41_mixed_refuted : exists m o, clean m = Some o /\ has_pattern "warning" m /\ has_pattern "warning" o /\ o = m.
Proof.
  exists (L "a.c(1): warning C4996: treated as error now"). eexists. split; [vm_compute; reflexivity|].
  assert (P : has_pattern "warning" (L "a.c(1): warning C4996: treated as error now")).
  { exists (L "a.c(1): "), (L "warning C4996: treated as error now"). split; [reflexivity|].
    exists (L "warning"), [], (L "C4996"), [], (L " treated as error now"). repeat split; repeat constructor. }
  split; [exact P|]. split; [exact P|reflexivity].
Qed.
Print Assumptions C41_mixed_refuted.
(** A second colon directly after the first is left, so the result still holds the pattern. *)
Theorem C41_double_colon_refuted : exists m o, clean m = Some o /\ has_pattern "error" o.
Proof.
  exists (L "error C2039: ::f"). eexists. split; [vm_compute; reflexivity|]. exists [], (L "error C2039  ::f"). split; [reflexivity|].
  exists (L "error"), [], (L "C2039"), (L "  "), (L ":f"). repeat split; repeat constructor.
Qed.
Print Assumptions C41_double_colon_refuted.
(** Without a code, the first word of the text becomes the code. *)
Theorem C41_no_code_refuted : exists m o, clean m = Some o /\ has_pattern "error" o.
Proof.
  exists (L "LINK : fatal error : lib: not found"). eexists. split; [vm_compute; reflexivity|]. exists (L "LINK : fatal "), (L "error   lib: not found"). split; [reflexivity|].
  exists (L "error"), (L "  "), (L "lib"), [], (L " not found"). repeat split; repeat constructor.
Qed.
Print Assumptions C41_no_code_refuted.
(** The word "error" where the code is expected hides the pattern that starts there. *)
Theorem C41_repeated_word_refuted : exists m o, clean m = Some o /\ has_pattern "error" o.
Proof.
  exists (L "warning as error error C1: x"). eexists. split; [vm_compute; reflexivity|]. exists (L "warning as error "), (L "error C1: x"). split; [reflexivity|].
  exists (L "error"), [], (L "C1"), [], (L " x"). repeat split; repeat constructor.
Qed.
Print Assumptions C41_repeated_word_refuted.

(** A message with two patterns. *)
Example C41_case : clean (L "a.c(3,1): error C2065: 'x': undeclared  Error  LNK12 : y") = Some (L "a.c(3,1): error C2065  'x': undeclared  Error  LNK12   y").
Proof. vm_compute. reflexivity. Qed.
(** It has the usual shape. *)
Lemma usual_nil : usual [].
Proof. intros p t w1 code z E. destruct p; [|discriminate]. destruct t; discriminate. Qed.
Lemma usual_word c r : usual r -> is_letter c = false -> usual (c :: r).
Proof.
  intros U N p t w1 code z E W A1 A2 Hz. destruct p as [|x p].
  - exfalso. destruct (tokw_cons t W) as (a & t' & -> & La). inversion E; subst. congruence.
  - inversion E; subst. apply (U p t w1 code z eq_refl W A1 A2 Hz).
Qed.
Lemma usual_skip c r : usual r -> begins_i (L "error") (c :: r) = false -> begins_i (L "warning") (c :: r) = false -> usual (c :: r).
Proof.
  intros U N1 N2 p t w1 code z E W A1 A2 Hz. destruct p as [|x p].
  - exfalso. assert (G : forall w y, word w t -> begins_i (L w) (t ++ y) = true).
    { unfold word. clear. intros w y <-. induction t as [|b t IH]; [reflexivity|]. cbn [lower map app begins_i] in *. fold (lower t).
      replace (lower_char (lower_char b)) with (lower_char b) by (destruct b as [[] [] [] [] [] [] [] []]; reflexivity). rewrite Ascii.eqb_refl. exact IH. }
    destruct W as [W|W]; cbn [app] in E; rewrite E in N1, N2; [rewrite (G "error"%string _ W) in N1|rewrite (G "warning"%string _ W) in N2]; discriminate.
  - inversion E; subst. apply (U p t w1 code z eq_refl W A1 A2 Hz).
Qed.
Example C41_usual_case : usual (L "x: error C2: y").
Proof.
  assert (S0 : usual (L " C2: y")) by (repeat (apply usual_skip; [|reflexivity|reflexivity]); apply usual_nil).
  do 3 (apply usual_skip; [|reflexivity|reflexivity]).
  intros p t w1 code z E W A1 A2 Hz. destruct p as [|x p].
  - cbn [app] in E.
    assert (T : t = L "error" /\ w1 ++ code ++ z = L "C2: y").
    { destruct (split_unique is_letter (L "error") t (L " C2: y") (" "%char :: w1 ++ code ++ z) ltac:(repeat constructor) (tokw_letters t W) ltac:(now apply head_not_cons) ltac:(apply head_not_cons; reflexivity) E) as (<- & E2).
      split; auto. inversion E2. reflexivity. }
    destruct T as (-> & T). clear E.
    assert (w1 = []). { destruct w1 as [|v w1]; auto. inversion T; subst. inversion A1; subst. discriminate. } subst w1. cbn [app] in T.
    destruct (split_unique is_alnum code (L "C2") z (L ": y") A2 ltac:(repeat constructor) Hz ltac:(now apply head_not_cons) T) as (-> & ->).
    split.
    + intros c1 c2 Ec. assert (LN : List.length c2 <= 2) by (apply (f_equal (@List.length _)) in Ec; rewrite app_length in Ec; cbn in Ec; lia).
      split; intros Wc; apply word_len in Wc; cbn in Wc; lia.
    + intros w2 z2 Ez Aw. split; [discriminate|]. intros w3 z3 E3 A3. destruct w2 as [|v w2]; [|inversion Ez; subst; inversion Aw; subst; discriminate].
      assert (E4 : L " y" = w3 ++ ":"%char :: z3) by (cbn in Ez; rewrite <- E3; now inversion Ez). destruct w3 as [|a [|b' [|? ?]]]; discriminate E4.
  - revert p E. intros p E. inversion E; subst x. clear E.
    assert (U4 : usual (L "rror C2: y")) by (do 4 (apply usual_skip; [|reflexivity|reflexivity]); exact S0).
    apply (U4 p t w1 code z H1 W A1 A2 Hz).
Qed.
