(** Proofs about the flags found in the options. *)
From Coq Require Import String List Arith Bool Ascii Lia.
From Verif Require Import M_Path M_Args M_Drv S_Drv M_Flags S_Flags T_Path P_Drv P_Drv4.
Import ListNotations.
Open Scope list_scope.

(** *** Loops that set a flag, and loops in which the last word counts *)
Lemma fold_set (g : flags -> bool) (step : flags -> str -> flags) (P : str -> bool) :
  (forall f t, g (step f t) = g f || P t) -> forall toks f, g (fold_left step toks f) = g f || existsb P toks.
Proof.
  intros H. induction toks as [|t toks IH]; intros f; cbn [fold_left existsb]; [now rewrite orb_false_r|]. now rewrite IH, H, orb_assoc.
Qed.
Definition verdict (dec : str -> option bool) (toks : list str) (b : bool) : bool :=
  fold_left (fun b t => match dec t with Some v => v | None => b end) toks b.
Lemma fold_last (g : flags -> bool) (step : flags -> str -> flags) dec :
  (forall f t, g (step f t) = match dec t with Some v => v | None => g f end) -> forall toks f, g (fold_left step toks f) = verdict dec toks (g f).
Proof. intros H. induction toks as [|t toks IH]; intros f; [reflexivity|]. cbn [fold_left]. rewrite IH, H. reflexivity. Qed.
Lemma verdict_app dec a b v : verdict dec (a ++ b) v = verdict dec b (verdict dec a v).
Proof. unfold verdict. apply fold_left_app. Qed.
Lemma verdict_none dec b v : Forall (fun t => dec t = None) b -> verdict dec b v = v.
Proof. induction 1 as [|t b E F IH]; [reflexivity|]. cbn. rewrite E. exact IH. Qed.
Lemma verdict_cases dec toks v :
  (Forall (fun t => dec t = None) toks /\ verdict dec toks v = v) \/
  exists a t b w, toks = a ++ t :: b /\ dec t = Some w /\ Forall (fun t => dec t = None) b /\ verdict dec toks v = w.
Proof.
  induction toks as [|t toks IH] using rev_ind; [left; split; [constructor|reflexivity]|].
  rewrite verdict_app. destruct (dec t) as [w|] eqn:D.
  - right. exists toks, t, [], w. repeat split; auto. cbn. now rewrite D.
  - destruct IH as [[F E]|(a&x&b&w&E1&E2&F&E)].
    + left. split; [apply Forall_app; auto|]. cbn. now rewrite D.
    + right. exists a, x, (b ++ [t]), w. subst toks. rewrite <- app_assoc. repeat split; auto; [apply Forall_app; auto|]. cbn. now rewrite D.
Qed.

(** *** cl.exe *)
Ltac spec := repeat match goal with
  | H : is_arg _ _ = true |- _ => apply is_arg_spec in H
  | H : is_start _ _ = true |- _ => apply is_start_spec in H; destruct H as (?&H)
  end.
Ltac clash := exfalso; spec; match goal with H : dashed ?t _, K : dashed ?t _ |- _ => pose proof (dashed_tail _ _ _ H K); discriminate end.
Ltac chain := unfold cl_step; repeat match goal with |- context[if is_arg ?t ?o || is_arg ?t ?o' then _ else _] => destruct (is_arg t o) eqn:?; destruct (is_arg t o') eqn:?; cbn [orb]
  | |- context[if is_arg ?t ?o then _ else _] => destruct (is_arg t o) eqn:?
  | |- context[if is_start ?t ?o then _ else _] => destruct (is_start t o) eqn:?
  | |- context[if ?b && is_arg ?t ?o then _ else _] => destruct b; destruct (is_arg t o) eqn:?; cbn [andb] end.
Lemma cl_pdb k f t : using_pdb (cl_step k f t) = using_pdb f || negb k && (is_arg t (L "Zi") || is_arg t (L "ZI")).
Proof. chain; try (destruct k); cbn; rewrite ?orb_false_r, ?orb_true_r; try reflexivity. Qed.
Lemma cl_clr k f t : clr (cl_step k f t) = clr f || is_start t (L "clr").
Proof. destruct (is_start t (L "clr")) eqn:E; chain; try (destruct k); cbn; rewrite ?orb_false_r, ?orb_true_r; try reflexivity; try congruence; clash. Qed.
Lemma cl_winrt k f t : winrt_code (cl_step k f t) = winrt_code f || is_arg t (L "ZW").
Proof. destruct (is_arg t (L "ZW")) eqn:E; chain; try (destruct k); cbn; rewrite ?orb_false_r, ?orb_true_r; try reflexivity; try congruence; clash. Qed.
Lemma cl_only k f t : only_preprocess (cl_step k f t) = only_preprocess f || is_arg t (L "P").
Proof. destruct (is_arg t (L "P")) eqn:E; chain; try (destruct k); cbn; rewrite ?orb_false_r, ?orb_true_r; try reflexivity; try congruence; clash. Qed.
Lemma cl_wx k f t : warnings_fail_cl (cl_step k f t) = warnings_fail_cl f || is_arg t (L "WX").
Proof. destruct (is_arg t (L "WX")) eqn:E; chain; try (destruct k); cbn; rewrite ?orb_false_r, ?orb_true_r; try reflexivity; try congruence; clash. Qed.
Lemma cl_deopt k f t : dynamic_deopt (cl_step k f t) = dynamic_deopt f || is_start t (L "dynamicdeopt").
Proof. destruct (is_start t (L "dynamicdeopt")) eqn:E; chain; try (destruct k); cbn; rewrite ?orb_false_r, ?orb_true_r; try reflexivity; try congruence; clash. Qed.
Lemma cl_nostdinc k f t : nostdinc (cl_step k f t) = nostdinc f || k && is_arg t (L "nostdinc").
Proof. destruct (is_arg t (L "nostdinc")) eqn:E; chain; try (destruct k); cbn; rewrite ?orb_false_r, ?orb_true_r; try reflexivity; try congruence; clash. Qed.
Definition an_dec (t : str) : option bool := if is_start t (L "analyze") then Some (negb (is_arg t (L "analyze-"))) else None.
Lemma cl_analysis k f t : analysis (cl_step k f t) = match an_dec t with Some v => v | None => analysis f end.
Proof.
  unfold an_dec. destruct (is_start t (L "analyze")) eqn:E.
  - unfold cl_step. repeat match goal with |- context[is_arg ?t (L ?o)] => match o with "analyze-"%string => fail 1 | _ => let H := fresh in assert (H : is_arg t (L o) = false) by (destruct (is_arg t (L o)) eqn:?; [clash|reflexivity]); rewrite H; clear H end end.
    assert (H : is_start t (L "clr") = false) by (destruct (is_start t (L "clr")) eqn:?; [clash|reflexivity]). rewrite H, E. reflexivity.
  - chain; try (destruct k); cbn; try reflexivity; try congruence.
Qed.
Lemma given_iff o toks : existsb (fun t => is_arg t o) toks = true <-> given o toks.
Proof. rewrite existsb_exists. unfold given. split; intros (t&I&H); exists t; (split; [exact I|now apply is_arg_spec]). Qed.
Lemma given_with_iff o toks : existsb (fun t => is_start t o) toks = true <-> given_with o toks.
Proof.
  rewrite existsb_exists. unfold given_with. split.
  - intros (t&I&H). apply is_start_spec in H. destruct H as (x&H). now exists t, x.
  - intros (t&x&I&H). exists t. split; [exact I|]. apply is_start_spec. now exists x.
Qed.
Lemma an_none t : an_dec t = None <-> ~ exists x, dashed t (L "analyze" ++ x).
Proof.
  unfold an_dec. destruct (is_start t (L "analyze")) eqn:E.
  - split; [discriminate|intros N; destruct N; now apply is_start_spec].
  - split; [intros _ H; apply is_start_spec in H; congruence|reflexivity].
Qed.
Lemma analyzing_iff toks : verdict an_dec toks false = true <-> analyzing toks.
Proof.
  unfold analyzing, last_such. destruct (verdict_cases an_dec toks false) as [[F E]|(a&t&b&w&E1&E2&F&E)]; rewrite E.
  - split; [discriminate|]. intros (t&(a&b&->&P&_)&_). apply Forall_app in F. destruct F as [_ F]. inversion F as [|? ? F1 _]; subst. apply an_none in F1. now destruct F1.
  - assert (P : exists x, dashed t (L "analyze" ++ x)).
    { unfold an_dec in E2. destruct (is_start t (L "analyze")) eqn:S; [now apply is_start_spec in S|discriminate]. }
    assert (W : w = true <-> ~ dashed t (L "analyze-")).
    { assert (W0 : w = negb (is_arg t (L "analyze-"))) by (unfold an_dec in E2; destruct (is_start t (L "analyze")); congruence). rewrite W0. destruct (is_arg t (L "analyze-")) eqn:A; cbn [negb].
      - split; [discriminate|]. intros N. destruct N. now apply is_arg_spec.
      - split; [intros _ N; apply is_arg_spec in N; congruence|reflexivity]. }
    rewrite W. split.
    + intros N. exists t. split; [|exact N]. exists a, b. repeat split; auto. eapply Forall_impl; [|exact F]. intros x Hx. now apply an_none.
    + intros (t'&(a'&b'&E1'&P'&F')&N). assert (Q : t' = t); [|subst; exact N].
      assert (FB : Forall (fun x => ~ exists y, dashed x (L "analyze" ++ y)) b) by (eapply Forall_impl; [|exact F]; intros x Hx; now apply an_none).
      rewrite E1 in E1'. clear - E1' P P' F' FB. revert a' E1'. induction a as [|y a IH]; intros [|y' a'] E; cbn in E; injection E as E0 E.
      * congruence.
      * subst. rewrite Forall_forall in FB. destruct (FB t'); [apply in_or_app; right; now left|exact P'].
      * subst. rewrite Forall_forall in F'. destruct (F' t); [apply in_or_app; right; now left|exact P].
      * eapply IH; eauto.
Qed.

(** *** GCC and Clang *)
Lemma last_unique (P : str -> Prop) toks t t' : last_such P toks t -> last_such P toks t' -> t = t'.
Proof.
  intros (a&b&E1&P1&FB) (a'&b'&E1'&P'&F'). rewrite E1 in E1'. clear E1. revert a' E1'. induction a as [|y a IH]; intros [|y' a'] E; cbn in E; injection E as E0 E.
  - congruence.
  - subst. rewrite Forall_forall in FB. destruct (FB t'); [apply in_or_app; right; now left|exact P'].
  - subst. rewrite Forall_forall in F'. destruct (F' t); [apply in_or_app; right; now left|exact P1].
  - eapply IH; eauto.
Qed.
Lemma verdict_spec dec (P : str -> Prop) toks v :
  (forall t, dec t = None <-> ~ P t) -> (forall t w, dec t = Some w -> P t) ->
  (verdict dec toks v = true <-> (exists t, last_such P toks t /\ dec t = Some true) \/ v = true /\ Forall (fun t => ~ P t) toks).
Proof.
  intros N S. destruct (verdict_cases dec toks v) as [[F E]|(a&t&b&w&E1&E2&F&E)]; rewrite E.
  - assert (F' : Forall (fun t => ~ P t) toks) by (eapply Forall_impl; [|exact F]; intros t; apply N). split; [intros ->; right; auto|].
    intros [(t&(a&b&->&Pt&_)&_)|[-> _]]; [|reflexivity]. apply Forall_app in F'. destruct F' as [_ F']. inversion F'; subst. contradiction.
  - assert (LS : last_such P toks t) by (exists a, b; repeat split; eauto; eapply Forall_impl; [|exact F]; intros x; apply N). split.
    + intros ->. left. now exists t.
    + intros [(t'&LS'&D)|[_ F']]; [rewrite (last_unique _ _ _ _ LS' LS) in D; congruence|]. rewrite E1 in F'. apply Forall_app in F'. destruct F' as [_ F']. inversion F'; subst. destruct H1. eauto.
Qed.
Lemma gcc_set (g : flags -> bool) (P : str -> bool) : (forall f t nx, g (gcc_step f t nx) = g f || P t) ->
  forall toks f, g (gcc_steps f toks) = g f || existsb P toks.
Proof. intros H. induction toks as [|t toks IH]; intros f; cbn [gcc_steps existsb]; [now rewrite orb_false_r|]. now rewrite IH, H, orb_assoc. Qed.
Lemma gcc_last (g : flags -> bool) dec : (forall f t nx, g (gcc_step f t nx) = match dec t with Some v => v | None => g f end) ->
  forall toks f, g (gcc_steps f toks) = verdict dec toks (g f).
Proof. intros H. induction toks as [|t toks IH]; intros f; [reflexivity|]. cbn [gcc_steps]. rewrite IH, H. reflexivity. Qed.

Ltac eqs := repeat match goal with
  | H : teq _ _ = true |- _ => apply teq_eq in H
  | H : starts_with _ _ = true |- _ => apply starts_with_iff in H; destruct H as (?&H)
  end; subst; try discriminate.
Ltac chain2 := unfold gcc_step; repeat match goal with
  | |- context[if ?a || ?b then _ else _] => destruct a eqn:?; cbn [orb]; [|destruct b eqn:?]
  | |- context[if ?a then _ else _] => destruct a eqn:? end.
Lemma gcc_gcov f t nx : gcov (gcc_step f t nx) = match (if teq t (L "-ftest-coverage") then Some true else if teq t (L "-fno-test-coverage") then Some false else None) with Some v => v | None => gcov f end.
Proof.
  destruct (teq t (L "-ftest-coverage")) eqn:E1; [apply teq_eq in E1; subst; reflexivity|]. destruct (teq t (L "-fno-test-coverage")) eqn:E2; [apply teq_eq in E2; subst; reflexivity|].
  unfold gcc_step. rewrite E1, E2. chain2; reflexivity.
Qed.
Lemma gcc_coverage f t nx : coverage (gcc_step f t nx) = coverage f || teq t (L "--coverage").
Proof.
  destruct (teq t (L "--coverage")) eqn:E1; [apply teq_eq in E1; subst; cbn; now rewrite orb_true_r|]. rewrite orb_false_r. unfold gcc_step. rewrite E1. chain2; reflexivity.
Qed.
Definition col_dec (t : str) : option bool :=
  if teq t (L "-fdiagnostics-color=auto") then Some true else if starts_with (L "-fdiagnostics-color") t || teq t (L "-fno-diagnostics-color") then Some false else None.
Lemma gcc_colour f t nx : colour_auto (gcc_step f t nx) = match col_dec t with Some v => v | None => colour_auto f end.
Proof. unfold col_dec, gcc_step. chain2; reflexivity. Qed.
Lemma gcc_werror f t nx : warnings_fail (gcc_step f t nx) = warnings_fail f || starts_with (L "-Werror") t.
Proof.
  destruct (starts_with (L "-Werror") t) eqn:E1.
  - rewrite orb_true_r. assert (S := E1). apply starts_with_iff in E1. destruct E1 as (x&E1).
    assert (N : forall o, (forall y, o <> L "-Werror" ++ y) -> teq t o = false) by (intros o H; apply teq_ne; rewrite E1; intros H'; now apply (H x)).
    assert (NS : starts_with (L "-fdiagnostics-color") t = false) by (destruct (starts_with (L "-fdiagnostics-color") t) eqn:Q; [|reflexivity]; apply starts_with_iff in Q; destruct Q as (y&Q); rewrite E1 in Q; discriminate).
    unfold gcc_step. rewrite NS, S, !N by discriminate. reflexivity.
  - rewrite orb_false_r. unfold gcc_step. rewrite E1. chain2; reflexivity.
Qed.
Lemma gcc_objc f t nx : objective_c (gcc_step f t nx) = objective_c f || (teq t (L "-fobjc-arc") || teq t (L "-x") && teq nx (L "objective-c")).
Proof.
  destruct (teq t (L "-fobjc-arc")) eqn:E1; [apply teq_eq in E1; subst; cbn; now rewrite orb_true_r|]. cbn [orb].
  destruct (teq t (L "-x")) eqn:E2; [apply teq_eq in E2; subst|].
  - cbn [andb]. unfold gcc_step. destruct (teq nx (L "objective-c")); cbn; now rewrite ?orb_true_r, ?orb_false_r.
  - cbn [andb]. rewrite orb_false_r. unfold gcc_step. rewrite E1, E2. chain2; reflexivity.
Qed.
Lemma gcc_nostdinc f t nx : nostdinc (gcc_step f t nx) = nostdinc f || (teq t (L "-nostdinc") || teq t (L "--no-standard-includes")).
Proof.
  destruct (teq t (L "-nostdinc")) eqn:E1; [apply teq_eq in E1; subst; cbn; now rewrite orb_true_r|]. destruct (teq t (L "--no-standard-includes")) eqn:E2; [apply teq_eq in E2; subst; cbn; now rewrite orb_true_r|].
  cbn [orb]. rewrite orb_false_r. unfold gcc_step. rewrite E1, E2. cbn [orb]. chain2; reflexivity.
Qed.
Lemma gcc_nostdincpp f t nx : nostdincpp (gcc_step f t nx) = nostdincpp f || teq t (L "-nostdinc++").
Proof.
  destruct (teq t (L "-nostdinc++")) eqn:E1; [apply teq_eq in E1; subst; cbn; now rewrite orb_true_r|]. rewrite orb_false_r. unfold gcc_step. rewrite E1. chain2; reflexivity.
Qed.
Lemma objc_steps toks : forall f, objective_c (gcc_steps f toks) = true <-> objective_c f = true \/ objective toks.
Proof.
  unfold objective. induction toks as [|t toks IH]; intros f; cbn [gcc_steps].
  - split; [auto|]. intros [H|[[]|(a&b&E)]]; [exact H|]. destruct a; discriminate.
  - rewrite IH, gcc_objc, !orb_true_iff, andb_true_iff, !teq_eq. cbn [In]. split.
    + intros [[H|[->|[-> H]]]|[H|(a&b&->)]]; auto.
      * destruct toks as [|n toks]; [discriminate|]. cbn [hd] in H. subst n. right. right. exists [], toks. reflexivity.
      * right. right. exists (t :: a), b. reflexivity.
    + intros [H|[[->|H]|(a&b&E)]]; auto. destruct a as [|y a]; cbn in E; injection E as -> ->; [left; right; right; auto|]. right. right. now exists a, b.
Qed.
