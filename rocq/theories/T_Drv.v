(** C66, C67, C68, C69, C70: how compiler command lines are made. *)
From Coq Require Import String List Arith Bool Ascii NArith Lia.
From Verif Require Import M_Path M_Args S_Args P_Args M_Drv S_Drv T_Path P_Drv P_Drv2 P_Drv3 P_Drv4 P_Drv5 P_Drv6.
Import ListNotations.
Open Scope list_scope.

(** * C66: the compiler gets the user's arguments, in order, with the listed edits and nothing else *)
(** For every compiler family, every kind of compilation and every option text: the arguments are those of the
    specification [edited], followed by those of [added].  The text is read the way FASTBuild itself splits command
    lines.  The hypothesis on the first line is about work sent to cl.exe on a worker only. *)
Theorem C66_arguments : forall c p show options,
  ((exists clang_cl, family c = Cl clang_cl) -> p = CompilePreprocessed -> local c = false -> Forall attached (tokenize space options)) ->
  exists args outs, build_args c p show options = Some args /\ edited c p (tokenize space options) outs /\
    (Forall (fun o => o = [] \/ single o) outs -> Forall single (added c p show) ->
     tokenize space args = filter (fun o => match o with [] => false | _ => true end) outs ++ added c p show).
Proof.
  intros c p show options AT.
  assert (FI : Forall (fine c p) (tokenize space options)).
  { apply Forall_forall. intros t I FC P LO. pose proof (AT FC P LO) as A. rewrite Forall_forall in A. now apply A. }
  destruct (build_spec c p show options FI) as (outs&ED&B). exists (rendered outs ++ extra_text c p show), outs. split; [exact B|]. split; [exact ED|].
  intros PO SA. rewrite tokenize_rendered by exact PO. destruct (extra_added c p show SA) as (P1&P2&E). rewrite extra_cut, tokenize_tail by assumption. now rewrite E.
Qed.
Print Assumptions C66_arguments.

Definition here : ctx :=
  mkC (Gcc true) true posix (L "/w/src/a.cpp") (L "/w/tmp/a.o") [] [] true [] (L "/w") [] true true false [] [] None.
Definition tmp_file (c : ctx) : ctx := set_names c (L "/tmp/a.ii") [].
Definition user : str := L "-c -x c++ -I inc -DN=1 -include pre.h -MD -MF a.d ""-o"" ""%2"" %1".
(** A Clang compilation: the preprocessor's and the compiler's arguments. *)
Example C66_case :
  tokenize space user = [L "-c"; L "-x"; L "c++"; L "-I"; L "inc"; L "-DN=1"; L "-include"; L "pre.h"; L "-MD"; L "-MF"; L "a.d"; L """-o"""; L """%2"""; L "%1"] /\
  option_map (tokenize space) (build_args here Preprocess false user) =
    Some [L "-x"; L "c++"; L "-I"; L "inc"; L "-DN=1"; L "-include"; L "pre.h"; L "-MD"; L "-MF"; L "a.d"; L "/w/src/a.cpp";
          L "-E"; L "-frewrite-includes"; L "-fdiagnostics-color=always"] /\
  option_map (tokenize space) (build_args (tmp_file here) CompilePreprocessed false user) =
    Some [L "-c"; L "-x"; L "c++-cpp-output"; L "-DN=1"; L """-o"""; L """/w/tmp/a.o"""; L "/tmp/a.ii"; L "-fdiagnostics-color=always"].
Proof. repeat split; vm_compute; reflexivity. Qed.

Definition worker : ctx :=
  mkC (Cl false) false win (L "C:\w\a.cpp") (L "C:\t\a.obj") (L "C:\t\a.i") [] false [] [] (L "C:\t\root") false false false [] [] (Some (L "a.pdb")).
Example C66_case_cl :
  option_map (tokenize space) (build_args worker CompilePreprocessed false (L "/nologo /c ""%1"" /Fo""%2"" /Iinc /IC:\sdk /Yupre.h /FI pre.h /Fd""a.pdb"" /MP4")) =
    Some [L "/nologo"; L "/c"; L """C:\t\a.i"""; L "/Fo""C:\t\a.obj"""; L "/IC:\t\root\inc"; L "/IC:\sdk"; L "/Fd""a.pdb"""].
Proof. vm_compute; reflexivity. Qed.

(** The hypothesis is needed: with a space between /I and the directory, a worker's cl.exe gets the root of the job in
    place of that directory, which is lost; and a lone /I followed by a quote is undefined behaviour. *)
Theorem C66_separate_include_refuted :
  option_map (tokenize space) (build_args worker CompilePreprocessed false (L "/c /I inc %1")) = Some [L "/c"; L "/IC:\t\root\"; L "C:\t\a.i"; L "/Fd""a.pdb"""].
Proof. vm_compute; reflexivity. Qed.
Print Assumptions C66_separate_include_refuted.
Theorem C66_lone_quote_refuted : build_args worker CompilePreprocessed false (L "/c %1 /I""") = None.
Proof. vm_compute; reflexivity. Qed.
Print Assumptions C66_lone_quote_refuted.
(** Some options are recognised inside quotes and some are not: "-o" is left out of the preprocessor's command line,
    "-c" stays, so that nothing is preprocessed. *)
Theorem C66_quoted_option_refuted :
  option_map (tokenize space) (build_args here Preprocess false (L """-c"" ""-o"" ""%2"" %1")) =
    Some [L """-c"""; L "/w/src/a.cpp"; L "-E"; L "-frewrite-includes"; L "-fdiagnostics-color=always"].
Proof. vm_compute; reflexivity. Qed.
Print Assumptions C66_quoted_option_refuted.
(** The rule for a backslash before the closing quote of an include directory has no effect unless the argument is the last:
    elsewhere the quote does not close for FASTBuild, and two arguments are taken for one. *)
Theorem C66_trailing_backslash_refuted :
  option_map (tokenize space) (build_args worker Compile false (L "/c %1 /I""inc\""")) = Some [L "/c"; L "C:\t\a.i"; L "/I""inc"""; L "/Fd""a.pdb"""] /\
  tokenize space (L "/c /I""inc\"" %1 /Fo%2") = [L "/c"; L "/I""inc\"" %1 /Fo%2"] /\
  option_map (tokenize space) (build_args worker Compile false (L "/c /I""inc\"" %1 /Fo%2")) = Some [L "/c"; L "/I""inc\"" C:\t\a.i /Fo%2  /Fd""a.pdb"""].
Proof. repeat split; vm_compute; reflexivity. Qed.
Print Assumptions C66_trailing_backslash_refuted.

(** * C67: a worker runs the compiler with the arguments that would be used here *)
(** GCC and Clang: the options as they are sent, made into a command line by the worker, give exactly the text that the
    same compilation of preprocessed text uses here. *)
Theorem C67_same_arguments : forall c clang options,
  family c = Gcc clang -> local c = true -> mapping c = [] ->
  Forall single (tokenize space options) -> neighbours (argument_follows c) (tokenize space options) ->
  exists sent line, save_remote c options = Some sent /\ remote_args (away c) sent = Some line /\
    build_args c CompilePreprocessed false options = Some line.
Proof. exact remote_same. Qed.
Print Assumptions C67_same_arguments.

Definition sent_user : str := L "-c -x c++ -I inc -DN=1 -include pre.h -MD -MF a.d -o %2 %1".
Example C67_case :
  Forall single (tokenize space sent_user) /\
  save_remote (tmp_file here) sent_user = Some (L "-c -x c++-cpp-output -I inc -DN=1 -include pre.h -o %2 %1 ") /\
  remote_args (away (tmp_file here)) (L "-c -x c++-cpp-output -I inc -DN=1 -include pre.h -o %2 %1 ") =
    Some (L "-c -x c++-cpp-output -DN=1 -o /w/tmp/a.o /tmp/a.ii  -fdiagnostics-color=always") /\
  build_args (tmp_file here) CompilePreprocessed false sent_user =
    Some (L "-c -x c++-cpp-output -DN=1 -o /w/tmp/a.o /tmp/a.ii  -fdiagnostics-color=always").
Proof.
  split; [|repeat split; vm_compute; reflexivity].
  assert (T : tokenize space sent_user = [L "-c"; L "-x"; L "c++"; L "-I"; L "inc"; L "-DN=1"; L "-include"; L "pre.h"; L "-MD"; L "-MF"; L "a.d"; L "-o"; L "%2"; L "%1"]) by (vm_compute; reflexivity).
  rewrite T. repeat (apply Forall_cons; [split; [discriminate|split; reflexivity]|]). apply Forall_nil.
Qed.
(** The neighbour condition holds of it: what follows -I, -include, -MF and -x are arguments. *)
Example C67_case_neighbours : neighbours (argument_follows (tmp_file here)) [L "-x"; L "c++"; L "-I"; L "inc"; L "%1"].
Proof.
  assert (Q : forall t u, unquoted t u -> forall x t', t = x :: t' -> Ascii.eqb x quote = false -> u = t).
  { intros t u U x t' E NQ. inversion U as [|v w N U' E']; subst; [reflexivity|]. injection E' as <- _. discriminate. }
  assert (NL : forall t, In t [L "c++"; L "inc"; L "%1"] -> ~ listed (tmp_file here) t).
  { intros t I [(r&IR&C)|E]; [|subst; destruct I as [E|[E|[E|[]]]]; discriminate].
    assert (T : exists x t', t = x :: t' /\ Ascii.eqb x quote = false /\ Ascii.eqb x "-" = false) by (destruct I as [<-|[<-|[<-|[]]]]; do 2 eexists; repeat split; reflexivity).
    destruct T as (x&t'&->&NQ&ND).
    cbn in IR. repeat (destruct IR as [<-|IR]; [cbn [covers] in C; try (destruct C as (y&C)); try (apply Q with (x := x) (t' := t') in C; [|reflexivity|exact NQ]); cbn in C; injection C; intros; subst x; discriminate|]). destruct IR. }
  assert (NT : forall t, In t [L "c++"; L "inc"; L "-x"] -> ~ exists r, In r (removed (tmp_file here) CompilePreprocessed) /\ takes r t).
  { intros t I (r&IR&C).
    assert (T : exists x t', t = x :: t' /\ Ascii.eqb x quote = false) by (destruct I as [<-|[<-|[<-|[]]]]; do 2 eexists; repeat split; reflexivity).
    destruct T as (x&t'&->&NQ).
    cbn in IR. repeat (destruct IR as [<-|IR]; [cbn [takes] in C; first [contradiction | apply Q with (x := x) (t' := t') in C; [rewrite <- C in I; destruct I as [E|[E|[E|[]]]]; discriminate|reflexivity|exact NQ]]|]). destruct IR. }
  assert (NH : forall o t, find o t = None -> o <> [] -> ~ has o t) by (intros o t E NE; pose proof (find_spec o NE t) as S; now rewrite E in S).
  intros pre a b post E.
  assert (K : (a, b) = (L "-x", L "c++") \/ (a, b) = (L "c++", L "-I") \/ (a, b) = (L "-I", L "inc") \/ (a, b) = (L "inc", L "%1")).
  { do 4 (destruct pre as [|? pre]; [cbn in E; injection E; intros; subst; auto|cbn in E; injection E as _ E]). destruct pre as [|? [|? pre]]; discriminate. }
  destruct K as [K|[K|[K|K]]]; injection K as -> ->; split; intros H; try (exfalso; revert H; apply NT; cbn; auto; fail); try discriminate; try (apply NL; cbn; auto; fail).
  split; [apply NL; cbn; auto|]. split; apply NH; try discriminate; reflexivity.
Qed.
(** Without the neighbour condition the two can differ. *)
Theorem C67_option_as_argument_refuted :
  save_remote here (L "-c -I -MD %1") = Some (L "-c -I %1 ") /\
  remote_args (away here) (L "-c -I %1 ") <> build_args here CompilePreprocessed false (L "-c -I -MD %1").
Proof. split; [vm_compute; reflexivity|]. vm_compute. discriminate. Qed.
Print Assumptions C67_option_as_argument_refuted.

(** * C68: a name put in the place of a placeholder stays in one argument *)
Theorem C68_one_argument : forall o a b n,
  In o [L "%1"; L "%2"; L "%3"; L "%4"] -> single (a ++ o ++ b) ->
  n <> [] -> ~ In quote n -> last n nul <> bslash -> (~ In space n \/ Nat.even (quotes (lex a)) = false) ->
  single (a ++ n ++ b).
Proof.
  intros o a b n I S NN NQ NB SP. eapply put_single; eauto; destruct I as [<-|[<-|[<-|[<-|[]]]]]; try discriminate; intros H; repeat (destruct H as [H|H]; [discriminate|]); exact H.
Qed.
Print Assumptions C68_one_argument.
Example C68_case : single (L "-o""%2""") /\ Nat.even (quotes (lex (L "-o"""))) = false /\ single (L "-o""/my dir/a.o""").
Proof. repeat split; try reflexivity; discriminate. Qed.
(** Otherwise it does not: an unquoted placeholder and a name with a space; and when two placeholders are in one argument, only one is
    replaced. *)
Theorem C68_unquoted_refuted : exists c,
  source c = L "/my dir/a.cpp" /\
  option_map (tokenize space) (build_args c Compile false (L "-c %1")) = Some [L "-c"; L "/my"; L "dir/a.cpp"].
Proof. exists (mkC (Gcc true) true posix (L "/my dir/a.cpp") (L "/w/a.o") [] [] false [] [] [] false false false [] [] None). split; vm_compute; reflexivity. Qed.
Print Assumptions C68_unquoted_refuted.
Theorem C68_second_placeholder_refuted :
  option_map (tokenize space) (build_args (recolour here false) Compile false (L "-DNAMES=%1:%2")) = Some [L "-DNAMES=/w/src/a.cpp:%2"].
Proof. vm_compute; reflexivity. Qed.
Print Assumptions C68_second_placeholder_refuted.

(** * C69: what the command line part of a cache key depends on *)
(** With paths relative to the working directory, it does not depend on that directory: two machines that build the same tree in
    different places get the same key. *)
Theorem C69_directory_free : forall c d1 d2 src obj options,
  plt c = posix -> ~ In nul d1 -> last d1 nul = "/"%char -> ~ In nul d2 -> last d2 nul = "/"%char ->
  key_text (at_dir c d1 src obj) options = key_text (at_dir c d2 src obj) options.
Proof.
  intros c d1 d2 src obj options PL N1 L1 N2 L2.
  assert (SN : forall d x, ~ In nul d -> last d nul = "/"%char -> shown_name (set_names (at_dir c d src obj) [] []) (d ++ x) = x).
  { intros d x N LA. unfold shown_name, at_dir, set_names. cbn [base plt]. assert (T : teq d [] = false) by (apply teq_ne; intros ->; discriminate). rewrite T, PL. cbn [negb]. now apply relative_below. }
  assert (SU : forall t, substitute (set_names (at_dir c d1 src obj) [] []) t = substitute (set_names (at_dir c d2 src obj) [] []) t).
  { intros t. unfold substitute.
    change (source (set_names (at_dir c d1 src obj) [] [])) with (d1 ++ src). change (source (set_names (at_dir c d2 src obj) [] [])) with (d2 ++ src).
    change (object (set_names (at_dir c d1 src obj) [] [])) with (d1 ++ obj). change (object (set_names (at_dir c d2 src obj) [] [])) with (d2 ++ obj).
    change (over (set_names (at_dir c d1 src obj) [] [])) with (@nil ascii). change (over (set_names (at_dir c d2 src obj) [] [])) with (@nil ascii).
    change (teq [] []) with true. cbv iota. rewrite !SN by assumption. reflexivity. }
  assert (ON : forall t nx, one_token (set_names (at_dir c d1 src obj) [] []) CompilePreprocessed t nx = one_token (set_names (at_dir c d2 src obj) [] []) CompilePreprocessed t nx).
  { intros t nx. rewrite !step, SU. reflexivity. }
  assert (EA : forall n toks, List.length toks <= n -> each_token (one_token (set_names (at_dir c d1 src obj) [] []) CompilePreprocessed) toks = each_token (one_token (set_names (at_dir c d2 src obj) [] []) CompilePreprocessed) toks).
  { induction n as [|n IH]; intros [|t r] H; try reflexivity; [cbn in H; lia|]. cbn [each_token]. cbn in H. rewrite ON. destruct (one_token _ _ t (hd [] r)) as [|o s|]; [apply IH; lia| |reflexivity].
    f_equal. destruct s; [destruct r as [|b r]; [reflexivity|apply IH; cbn in H; lia]|apply IH; lia]. }
  unfold key_text, build_args, build_ops. rewrite (EA _ _ (le_n _)).
  assert (XC : extra_common (set_names (at_dir c d1 src obj) [] []) = extra_common (set_names (at_dir c d2 src obj) [] [])) by (unfold extra_common; cbn [family set_names at_dir]; destruct (family c) as [[]|[]| | | | | | | | ]; reflexivity).
  rewrite XC. reflexivity.
Qed.
Print Assumptions C69_directory_free.
Example C69_case :
  key_text (at_dir here (L "/home/a/w/") (L "src/a.cpp") (L "tmp/a.o")) (L "-c -o %2 %1") = Some (L "-c -o tmp/a.o src/a.cpp  -fdiagnostics-color=always ") /\
  key_text (at_dir here (L "/b/") (L "src/a.cpp") (L "tmp/a.o")) (L "-c -o %2 %1") = Some (L "-c -o tmp/a.o src/a.cpp  -fdiagnostics-color=always ").
Proof. split; vm_compute; reflexivity. Qed.
(** Nor on the temporary file that holds the preprocessed text. *)
Theorem C69_temporary_free : forall c o options, key_text (set_names c o (mapping c)) options = key_text c options.
Proof. reflexivity. Qed.
Print Assumptions C69_temporary_free.
(** It does depend on the source mapping, which changes what the object says about its sources: equal keys, equal mappings. *)
Theorem C69_mapping : forall c m1 m2 options k,
  local c = true ->
  key_text (set_names c (over c) m1) options = Some k -> key_text (set_names c (over c) m2) options = Some k -> m1 = m2.
Proof.
  intros c m1 m2 options k LO. unfold key_text.
  change (set_names (set_names c (over c) m1) [] []) with (set_names c [] []).
  change (set_names (set_names c (over c) m2) [] []) with (set_names c [] []).
  change (local (set_names c (over c) m1)) with (local c). change (local (set_names c (over c) m2)) with (local c).
  change (mapping (set_names c (over c) m1)) with m1. change (mapping (set_names c (over c) m2)) with m2. rewrite LO.
  destruct (build_args _ _ _ _) as [a|]; [|discriminate]. cbn [option_map].
  intros E1 E2. rewrite <- E2 in E1. injection E1 as E1. apply app_inv_head in E1. injection E1 as E1. exact E1.
Qed.
Print Assumptions C69_mapping.
Example C69_mapping_case : key_text (set_names here [] (L "/s")) (L "-c %1") <> key_text (set_names here [] (L "/t")) (L "-c %1") /\ local here = true.
Proof. split; [vm_compute; discriminate|reflexivity]. Qed.
(** A file that is compiled with the deoptimized options has the key of the optimized ones: it can be given an optimized object from the cache,
    and it stores its deoptimized object where everyone else looks for the optimized one. *)
Theorem C69_deoptimized_refuted : exists c normal deoptimized,
  deoptimize false true false false (Some (L "// FASTBUILD_DEOPTIMIZE_OBJECT")) = true /\
  build_args c CompilePreprocessed false (options_used true normal deoptimized) <> build_args c CompilePreprocessed false (options_used false normal deoptimized) /\
  key_text c (options_in_key true normal deoptimized) = key_text c (options_in_key false normal deoptimized).
Proof. exists here, (L "-c -O2 %1"), (L "-c -O0 %1"). split; [vm_compute; reflexivity|]. split; [vm_compute; discriminate|reflexivity]. Qed.
Print Assumptions C69_deoptimized_refuted.
(** The key depends on whether the output of FASTBuild goes to a terminal ([recolour]). *)
Theorem C69_terminal_refuted : key_text (recolour here true) (L "-c %1") <> key_text (recolour here false) (L "-c %1").
Proof. vm_compute. discriminate. Qed.
Print Assumptions C69_terminal_refuted.

(** * C70: which files are compiled with the deoptimized options *)
Definition early (s : str) : Prop := exists a b, s = a ++ marker ++ b /\ List.length a + List.length marker <= N.to_nat 1024 /\ ~ In nul a.
Theorem C70_deoptimized : forall unity with_token always read_only content,
  deoptimize unity with_token always read_only content = true <->
  unity = false /\ read_only = false /\ (always = true \/ with_token = true /\ exists s, content = Some s /\ early s).
Proof.
  assert (CT : forall s, match find marker (c_text s) with Some _ => true | None => false end = true <-> exists a b, s = a ++ marker ++ b /\ ~ In nul a).
  { assert (MK : ~ In nul marker) by (intros H; cbn in H; repeat (destruct H as [H|H]; [discriminate|]); exact H).
    assert (P : forall s, exists r, s = c_text s ++ r /\ ~ In nul (c_text s) /\ (r = [] \/ exists r', r = nul :: r')).
    { induction s as [|x s IH]; [exists []; repeat split; auto|]. cbn [c_text]. destruct (Ascii.eqb x nul) eqn:E.
      - apply Ascii.eqb_eq in E. subst x. exists (nul :: s). repeat split; eauto.
      - apply Ascii.eqb_neq in E. destruct IH as (r&E1&N&R). exists r. cbn [app]. rewrite <- E1. repeat split; auto. intros [H|H]; [congruence|auto]. }
    intros s. pose proof (find_spec marker ltac:(discriminate) (c_text s)) as S. destruct (P s) as (r&E&N&R). destruct (find marker (c_text s)) as [[a b]|].
    - split; [intros _|reflexivity]. destruct S as [S _]. exists a, (b ++ r). rewrite E, S, <- !app_assoc. split; [reflexivity|]. intros H. apply N. rewrite S. apply in_or_app. now left.
    - split; [discriminate|]. intros (a&b&E'&NA). exfalso. apply S.
      assert (A : forall n x y z w, x ++ y = z ++ w -> ~ In nul z -> (y = [] \/ exists y', y = nul :: y') -> List.length z <= n -> exists v, x = z ++ v).
      { induction n as [|n IH]; intros x y [|z1 z] w Q NZ RY LE; try (exists x; reflexivity); [cbn in LE; lia|].
        destruct x as [|x1 x].
        - cbn in Q. destruct RY as [->|(y'&->)]; [discriminate|]. injection Q as <- _. destruct NZ. now left.
        - injection Q as <- Q. destruct (IH x y z w Q) as (v&->); [intros I; apply NZ; now right|exact RY|cbn in LE; lia|]. now exists v. }
      destruct (A (List.length (a ++ marker)) (c_text s) r (a ++ marker) b) as (v&Ev); [rewrite <- E, E', <- app_assoc; reflexivity| |exact R|apply le_n|exists a, v; now rewrite Ev, <- app_assoc].
      intros I. apply in_app_or in I. destruct I; auto. }
  assert (EA : forall s, early s <-> exists a b, firstn (N.to_nat 1024) s = a ++ marker ++ b /\ ~ In nul a).
  { intros s. unfold early. generalize (N.to_nat 1024). intros k. split.
    - intros (a&b&->&LE&NA). exists a, (firstn (k - List.length a - List.length marker) b). split; [|exact NA].
      rewrite app_assoc, firstn_app, app_length. rewrite firstn_all2 by (rewrite app_length; lia). rewrite <- app_assoc. do 2 f_equal. f_equal. lia.
    - intros (a&b&E&NA). exists a, (b ++ skipn k s). rewrite <- (firstn_skipn k s) at 1. rewrite E, <- !app_assoc. repeat split; [|exact NA].
      pose proof (firstn_le_length k s) as LE. rewrite E, !app_length in LE. lia. }
  intros unity with_token always read_only content. unfold deoptimize.
  destruct unity; [split; [discriminate|intros (H&_); discriminate]|]. destruct always; cbn [negb andb].
  - rewrite andb_false_r. destruct read_only; [split; [discriminate|intros (_&H&_); discriminate]|]. split; [intros _; repeat split; auto|reflexivity].
  - destruct with_token; cbn [negb andb]; [|split; [discriminate|intros (_&_&[H|[H _]]); discriminate]].
    destruct read_only; [split; [discriminate|intros (_&H&_); discriminate]|].
    destruct content as [s|]; [|split; [discriminate|intros (_&_&[H|(_&s&H&_)]); discriminate]].
    rewrite CT, <- EA. split; [intros H; repeat split; auto; right; split; [reflexivity|now exists s]|intros (_&_&[H|(_&s'&H&K)]); [discriminate|congruence]].
Qed.
Print Assumptions C70_deoptimized.
Example C70_case : early (L "// FASTBUILD_DEOPTIMIZE_OBJECT") /\ deoptimize false true false false (Some (L "// FASTBUILD_DEOPTIMIZE_OBJECT")) = true.
Proof.
  split; [|vm_compute; reflexivity]. exists (L "// "), []. repeat split; [vm_compute; repeat constructor|]. intros H. cbn in H. repeat (destruct H as [H|H]; [discriminate|]). exact H.
Qed.
