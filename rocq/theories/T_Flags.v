(** C71: what the options say about a compilation, and whether it may be distributed or cached. *)
From Coq Require Import String List Arith Bool Ascii Lia.
From Verif Require Import M_Path M_Args M_Drv S_Drv M_Flags S_Flags T_Path P_Drv P_Drv4 P_Flags.
Import ListNotations.
Open Scope list_scope.

Definition read_cl (k : bool) (options : str) : flags := fold_left (cl_step k) (tokenize space options) no_flags.
Lemma cl_facts k options : let f := read_cl k options in let toks := tokenize space options in
  (using_pdb f = true <-> k = false /\ (given (L "Zi") toks \/ given (L "ZI") toks)) /\ (clr f = true <-> given_with (L "clr") toks) /\
  (winrt_code f = true <-> given (L "ZW") toks) /\ (only_preprocess f = true <-> given (L "P") toks) /\ (warnings_fail_cl f = true <-> given (L "WX") toks) /\
  (analysis f = true <-> analyzing toks) /\ (dynamic_deopt f = true <-> given_with (L "dynamicdeopt") toks) /\ (nostdinc f = true <-> k = true /\ given (L "nostdinc") toks).
Proof.
  intros f toks. unfold f, read_cl. fold toks. refine (conj _ (conj _ (conj _ (conj _ (conj _ (conj _ (conj _ _))))))).
  - rewrite (fold_set _ _ _ (cl_pdb k)). cbn [using_pdb no_flags orb]. rewrite existsb_exists. split.
    + intros (t&I&H). apply andb_prop in H. destruct H as [K H]. destruct k; [discriminate|]. split; [reflexivity|]. apply orb_prop in H.
      destruct H as [H|H]; [left|right]; exists t; (split; [exact I|now apply is_arg_spec]).
    + intros [-> [(t&I&H)|(t&I&H)]]; exists t; (split; [exact I|]); apply is_arg_spec in H; rewrite H; cbn; now rewrite ?orb_true_r.
  - rewrite (fold_set _ _ _ (cl_clr k)). apply given_with_iff.
  - rewrite (fold_set _ _ _ (cl_winrt k)). apply given_iff.
  - rewrite (fold_set _ _ _ (cl_only k)). apply given_iff.
  - rewrite (fold_set _ _ _ (cl_wx k)). apply given_iff.
  - rewrite (fold_last _ _ _ (cl_analysis k)). apply analyzing_iff.
  - rewrite (fold_set _ _ _ (cl_deopt k)). apply given_with_iff.
  - rewrite (fold_set _ _ _ (cl_nostdinc k)). cbn [nostdinc no_flags orb]. rewrite existsb_exists. split.
    + intros (t&I&H). apply andb_prop in H. destruct H as [-> H]. split; [reflexivity|]. exists t. split; [exact I|now apply is_arg_spec].
    + intros [-> (t&I&H)]. exists t. split; [exact I|]. now apply is_arg_spec.
Qed.

(** cl.exe and clang-cl. *)
Theorem C71_cl : forall clang_cl dist cache mapped creating options,
  let f := determine (Cl clang_cl) dist cache mapped creating options in let toks := tokenize space options in
  (can_distribute f = true <-> dist = true /\ mapped = false /\ creating = false /\
     ~ given_with (L "clr") toks /\ ~ given (L "P") toks /\ ~ given (L "ZW") toks /\ ~ analyzing toks) /\
  (can_cache f = true <-> cache = true /\ ~ given_with (L "clr") toks /\ ~ given (L "P") toks /\
     ~ (clang_cl = false /\ (given (L "Zi") toks \/ given (L "ZI") toks))).
Proof.
  intros k dist cache mapped creating options f toks. unfold f, determine. fold (read_cl k options). fold toks.
  destruct (cl_facts k options) as (A1&A2&A3&A4&_&A6&_). fold toks in A1, A2, A3, A4, A6.
  assert (N1 : can_distribute (read_cl k options) = false /\ can_cache (read_cl k options) = false).
  { assert (G : forall l g, can_distribute g = false /\ can_cache g = false -> can_distribute (fold_left (cl_step k) l g) = false /\ can_cache (fold_left (cl_step k) l g) = false).
    { induction l as [|t l IH]; intros g H; [exact H|]. cbn [fold_left]. apply IH. unfold cl_step. repeat match goal with |- context[if ?b then _ else _] => destruct b end; exact H. }
    apply G. split; reflexivity. }
  destruct (clr (read_cl k options)) eqn:E2; [|destruct (only_preprocess (read_cl k options)) eqn:E4]; cbn [negb andb].
  - destruct N1 as [-> ->]. assert (H : given_with (L "clr") toks) by (now apply A2). split; (split; [discriminate|tauto]).
  - destruct N1 as [-> ->]. assert (H : given (L "P") toks) by (now apply A4). split; (split; [discriminate|tauto]).
  - assert (H2 : ~ given_with (L "clr") toks) by (intros H; apply A2 in H; discriminate). assert (H4 : ~ given (L "P") toks) by (intros H; apply A4 in H; discriminate).
    unfold put_able. cbn [can_distribute can_cache]. split.
    + rewrite !andb_true_iff, !negb_true_iff. rewrite <- A3, <- A6. destruct (winrt_code _), (analysis _), dist, mapped, creating; intuition congruence.
    + rewrite !andb_true_iff, !negb_true_iff. rewrite <- A1. destruct (using_pdb _), cache; intuition congruence.
Qed.
Print Assumptions C71_cl.

(** GCC and Clang. *)
Definition read_gcc (clang : bool) (options : str) : flags :=
  let f := gcc_steps (put_colour clang no_flags) (tokenize space options) in if coverage f then put_gcov true f else f.
Lemma gcc_facts clang options : let f := read_gcc clang options in let toks := tokenize space options in
  (gcov f = true <-> covering toks) /\ (objective_c f = true <-> objective toks) /\ (colour_auto f = true <-> colour_by_terminal clang toks) /\
  (warnings_fail f = true <-> exists x, In (L "-Werror" ++ x) toks) /\
  (nostdinc f = true <-> In (L "-nostdinc") toks \/ In (L "--no-standard-includes") toks) /\ (nostdincpp f = true <-> In (L "-nostdinc++") toks).
Proof.
  intros f toks. unfold f, read_gcc. fold toks. set (g := gcc_steps (put_colour clang no_flags) toks).
  assert (CV : coverage g = true <-> In (L "--coverage") toks).
  { unfold g. rewrite (gcc_set _ _ gcc_coverage). cbn [coverage put_colour no_flags orb]. rewrite existsb_exists. split; [intros (t&I&H); apply teq_eq in H; now subst|intros I; exists (L "--coverage"); split; [exact I|now apply teq_eq]]. }
  assert (F : forall h, (forall x, h (put_gcov true x) = h x) -> h (if coverage g then put_gcov true g else g) = h g :> bool) by (intros h H; destruct (coverage g); auto).
  refine (conj _ (conj _ (conj _ (conj _ (conj _ _))))).
  - unfold covering. destruct (coverage g) eqn:C; [split; [intros _; left; now apply CV|reflexivity]|].
    assert (NC : ~ In (L "--coverage") toks) by (intros H; apply CV in H; discriminate).
    unfold g. rewrite (gcc_last _ _ gcc_gcov). rewrite (verdict_spec _ (fun t => t = L "-ftest-coverage" \/ t = L "-fno-test-coverage")).
    + cbn [gcov put_colour no_flags]. split.
      * intros [(t&LS&D)|[H _]]; [|discriminate]. right. destruct (teq t (L "-ftest-coverage")) eqn:E; [apply teq_eq in E; now subst|]. destruct (teq t (L "-fno-test-coverage")); discriminate.
      * intros [H|H]; [contradiction|]. left. exists (L "-ftest-coverage"). split; [exact H|reflexivity].
    + intros t. destruct (teq t (L "-ftest-coverage")) eqn:E1; [apply teq_eq in E1; subst; split; [discriminate|tauto]|]. destruct (teq t (L "-fno-test-coverage")) eqn:E2; [apply teq_eq in E2; subst; split; [discriminate|tauto]|].
      apply teq_ne in E1. apply teq_ne in E2. tauto.
    + intros t w. destruct (teq t (L "-ftest-coverage")) eqn:E1; [apply teq_eq in E1; auto|]. destruct (teq t (L "-fno-test-coverage")) eqn:E2; [apply teq_eq in E2; auto|discriminate].
  - rewrite (F objective_c) by reflexivity. unfold g. rewrite objc_steps. cbn [objective_c put_colour no_flags]. split; [intros [H|H]; [discriminate|exact H]|auto].
  - rewrite (F colour_auto) by reflexivity. unfold g. rewrite (gcc_last _ _ gcc_colour). unfold colour_by_terminal.
    assert (CN : forall t, starts_with (L "-fdiagnostics-color") t || teq t (L "-fno-diagnostics-color") = true <-> colour_option t) by (intros t; rewrite orb_true_iff, starts_with_iff, teq_eq; reflexivity).
    rewrite (verdict_spec _ colour_option).
    + cbn [colour_auto put_colour no_flags]. split.
      * intros [(t&LS&D)|H]; [left|right; exact H]. unfold col_dec in D. destruct (teq t (L "-fdiagnostics-color=auto")) eqn:E; [apply teq_eq in E; now subst|]. destruct (_ || _); discriminate.
      * intros [H|H]; [left|right; exact H]. exists (L "-fdiagnostics-color=auto"). split; [exact H|reflexivity].
    + intros t. unfold col_dec. destruct (teq t (L "-fdiagnostics-color=auto")) eqn:E; [apply teq_eq in E; subst; split; [discriminate|]; intros N; destruct N; left; now exists (L "=auto")|].
      destruct (_ || _) eqn:Q; [split; [discriminate|]; intros N; destruct N; now apply CN|]. split; [intros _ N; apply CN in N; congruence|reflexivity].
    + intros t w. unfold col_dec. destruct (teq t (L "-fdiagnostics-color=auto")) eqn:E; [apply teq_eq in E; subst; intros _; left; now exists (L "=auto")|]. destruct (_ || _) eqn:Q; [intros _; now apply CN|discriminate].
  - rewrite (F warnings_fail) by reflexivity. unfold g. rewrite (gcc_set _ _ gcc_werror). cbn [warnings_fail put_colour no_flags orb]. rewrite existsb_exists. split.
    + intros (t&I&H). apply starts_with_iff in H. destruct H as (x&->). now exists x.
    + intros (x&I). exists (L "-Werror" ++ x). split; [exact I|]. apply starts_with_iff. now exists x.
  - rewrite (F nostdinc) by reflexivity. unfold g. rewrite (gcc_set _ _ gcc_nostdinc). cbn [nostdinc put_colour no_flags orb]. rewrite existsb_exists. split.
    + intros (t&I&H). apply orb_prop in H. destruct H as [H|H]; apply teq_eq in H; subst; auto.
    + intros [I|I]; eexists; (split; [exact I|reflexivity]).
  - rewrite (F nostdincpp) by reflexivity. unfold g. rewrite (gcc_set _ _ gcc_nostdincpp). cbn [nostdincpp put_colour no_flags orb]. rewrite existsb_exists. split.
    + intros (t&I&H). apply teq_eq in H. now subst.
    + intros I. eexists. split; [exact I|reflexivity].
Qed.
Theorem C71_gcc : forall clang dist cache mapped creating options,
  let f := determine (Gcc clang) dist cache mapped creating options in let toks := tokenize space options in
  (can_distribute f = true <-> dist = true /\ mapped = false /\ creating = false /\ ~ objective toks /\ ~ covering toks) /\
  (can_cache f = true <-> cache = true) /\ (gcov f = true <-> covering toks) /\ (colour_auto f = true <-> colour_by_terminal clang toks).
Proof.
  intros clang dist cache mapped creating options f toks. destruct (gcc_facts clang options) as (A1&A2&A3&_). fold toks in A1, A2, A3.
  assert (E : f = put_able (negb creating && negb (objective_c (read_gcc clang options)) && negb mapped && negb (gcov (read_gcc clang options)) && dist) cache (read_gcc clang options)) by reflexivity.
  rewrite E. unfold put_able. cbn [can_distribute can_cache gcov colour_auto]. refine (conj _ (conj _ (conj A1 A3))); [|reflexivity].
  rewrite !andb_true_iff, !negb_true_iff, <- A1, <- A2. destruct (objective_c _), (gcov _), dist, mapped, creating; intuition congruence.
Qed.
Print Assumptions C71_gcc.

(** The other compilers. *)
Theorem C71_other : forall fm dist cache mapped creating options,
  (forall b, fm <> Cl b) -> (forall b, fm <> Gcc b) ->
  let f := determine fm dist cache mapped creating options in
  (can_distribute f = true <-> dist = true /\ (fm = Orbis \/ (fm = Snc \/ fm = Wii \/ fm = WiiU) /\ mapped = false /\ creating = false)) /\
  (can_cache f = true <-> cache = true /\ (fm = Snc \/ fm = Wii \/ fm = WiiU \/ fm = Cuda \/ fm = Orbis)).
Proof.
  intros fm dist cache mapped creating options N1 N2 f. unfold f. destruct fm as [b|b| | | | | | | | ]; try (now destruct (N1 b)); try (now destruct (N2 b)); cbn; rewrite ?andb_true_iff, ?negb_true_iff; intuition congruence.
Qed.
Print Assumptions C71_other.

(** What is then used: the cache for an object if it may be cached, the lists and the command line allow it, and the file is not a
    modified one taken out of its unity file; distribution if all three agree. *)
Theorem C71_use : forall f allowed read write isolated no_unity pch,
  (should_use_cache f allowed read write isolated no_unity pch = true <->
     can_cache f = true /\ allowed = true /\ (read = true \/ write = true) /\ (isolated = true -> no_unity = true) /\ pch <> Some 0) /\
  (forall option, distribution_allowed f allowed option = true <-> can_distribute f = true /\ allowed = true /\ option = true).
Proof.
  intros f allowed read write isolated no_unity pch. split.
  - unfold should_use_cache. destruct pch as [[|n]|]; destruct isolated, no_unity; cbn [negb andb]; rewrite ?andb_true_iff, ?orb_true_iff; intuition congruence.
  - intros option. unfold distribution_allowed. rewrite !andb_true_iff. tauto.
Qed.
Print Assumptions C71_use.

Example C71_case :
  can_distribute (determine (Gcc true) true true false false (L "-c -ftest-coverage -x c++ -fno-test-coverage %1")) = true /\
  can_distribute (determine (Gcc true) true true false false (L "-c --coverage -fno-test-coverage %1")) = false /\
  can_distribute (determine (Cl false) true true false false (L "/c /analyze /Zi /analyze- %1")) = true /\
  can_cache (determine (Cl false) true true false false (L "/c /analyze /Zi /analyze- %1")) = false /\
  can_cache (determine (Cl true) true true false false (L "/c /Zi %1")) = true /\
  analyzing (tokenize space (L "/c /analyze- /analyze:quiet %1")) /\ ~ analyzing (tokenize space (L "/analyze /analyze-")).
Proof.
  repeat (apply conj; [vm_compute; reflexivity|]). split.
  - apply analyzing_iff. vm_compute. reflexivity.
  - intros H. apply analyzing_iff in H. vm_compute in H. discriminate.
Qed.

(** Objective C++, and a language attached to its option, are not noticed, although the code says that they cannot be distributed. *)
Theorem C71_objective_refuted :
  can_distribute (determine (Gcc true) true true false false (L "-x objective-c %1")) = false /\
  can_distribute (determine (Gcc true) true true false false (L "-x objective-c++ %1")) = true /\
  can_distribute (determine (Gcc true) true true false false (L "-xobjective-c %1")) = true.
Proof. repeat split; vm_compute; reflexivity. Qed.
Print Assumptions C71_objective_refuted.
(** The options for deoptimized compilation are not looked at: with /Zi only there, objects that need a PDB file are cached.
    [determine] is given the normal options (ObjectListNode.cpp 208). *)
Theorem C71_deoptimized_options_refuted : exists normal deoptimized,
  can_cache (determine (Cl false) true true false false normal) = true /\ using_pdb (determine (Cl false) true true false false deoptimized) = true /\
  can_cache (determine (Cl false) true true false false deoptimized) = false.
Proof. exists (L "/c /O2 %1"), (L "/c /Od /Zi %1"). repeat split; vm_compute; reflexivity. Qed.
Print Assumptions C71_deoptimized_options_refuted.
