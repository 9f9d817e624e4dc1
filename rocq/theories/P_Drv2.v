(** Proofs about compiler command lines: one token, and the whole line. *)
From Coq Require Import String List Arith Bool Ascii Lia.
From Verif Require Import M_Path M_Args S_Args P_Args M_Drv S_Drv T_Path P_Drv.
Import ListNotations.
Open Scope list_scope.

Definition winrt (t : str) : act := if strip_token_cl (L "ZW") t false then Did [Append (L "/D__cplusplus_winrt ")] false else Pass_.
Definition slash_fix (t : str) : act :=
  if is_start t (L "I" ++ [quote]) && ends_with t [bslash; quote]
  then Did [Append (firstn (List.length t - 2) t); Append [quote]; AddDelimiter] false else Pass_.
Definition own (c : ctx) (p : pass) (t : str) : act :=
  match family c with
  | Cl _ => orelse (match p with Preprocess => winrt t | CompilePreprocessed => include_dir c t | _ => Pass_ end) (slash_fix t)
  | _ => Pass_
  end.
Definition lang (c : ctx) (p : pass) (t next : str) : act :=
  match family c, p with Gcc _, CompilePreprocessed => if local c then x_language c t next else Pass_ | _, _ => Pass_ end.
Definition rows (c : ctx) (p : pass) (t : str) : act := first_of (map (row_act t) (removed c p)).

Lemma source_dep t : source_dependencies t = row_act t (TakingCl (L "sourceDependencies")).
Proof.
  unfold source_dependencies, row_act, strip_with_arg_cl. cbn [first_of gone_arg].
  destruct (is_arg t (L "sourceDependencies")) eqn:A.
  - assert (S : is_start t (L "sourceDependencies") = true) by (apply is_start_spec; exists []; rewrite app_nil_r; now apply is_arg_spec). rewrite S. reflexivity.
  - destruct (is_start t (L "sourceDependencies")); reflexivity.
Qed.
Lemma swap a b : a = Pass_ \/ b = Pass_ -> orelse a b = orelse b a.
Proof. intros [->| ->]; cbn [orelse]; now rewrite orelse_pass. Qed.
Lemma swap3 a b c : a = Pass_ \/ b = Pass_ -> orelse a (orelse b c) = orelse b (orelse a c).
Proof. intros H. rewrite <- !orelse_assoc. now rewrite (swap a b H). Qed.

Lemma lang_only c t next : x_language c t next = Pass_ \/ t = L "-x".
Proof.
  unfold x_language. destruct (teq t (L "-x")) eqn:E; [right; now apply teq_eq|left]. now rewrite andb_false_r.
Qed.
Lemma include_only c t : include_dir c t = Pass_ \/ exists d r, t = d :: "I"%char :: r /\ (d = "/"%char \/ d = "-"%char).
Proof.
  unfold include_dir. destruct (negb (local c)); [|left; reflexivity]. cbn [andb]. destruct (is_start t (L "I")) eqn:E; [right|left; reflexivity].
  apply is_start_spec in E. destruct E as (x&[->| ->]); cbn; eauto.
Qed.
Lemma winrt_only t : winrt t = Pass_ \/ t = L "/ZW" \/ t = L "-ZW".
Proof.
  unfold winrt, strip_token_cl. destruct (is_arg t (L "ZW")) eqn:E; [right|left; reflexivity]. apply is_arg_spec in E. exact E.
Qed.
Lemma not_start d r o : (match o with c :: _ => Ascii.eqb c "I" | [] => true end = false)%char -> is_start (d :: "I"%char :: r) o = false.
Proof. intros H. unfold is_start. cbn [tl]. destruct o as [|c o]; [discriminate|]. rewrite starts_cons, H. cbn [andb]. now rewrite andb_false_r. Qed.
Lemma start_of_arg t o : is_arg t o = true -> is_start t o = true.
Proof. intros H. apply is_start_spec. exists []. rewrite app_nil_r. now apply is_arg_spec. Qed.
Lemma not_arg t o : is_start t o = false -> is_arg t o = false.
Proof. intros H. destruct (is_arg t o) eqn:E; [apply start_of_arg in E; congruence|reflexivity]. Qed.

Lemma step c p t next : one_token c p t next =
  orelse (rows c p t) (orelse (lang c p t next) (orelse (own c p t) (orelse (substitute c t) (Did [Append t; AddDelimiter] false)))).
Proof.
  unfold one_token, rows, removed, lang, own. rewrite map_app, first_app. cbn [first_of]. rewrite !orelse_pass.
  assert (CO : common_arg c t = orelse (first_of (map (row_act t) (removed_always (family c) (colour c)))) (match family c with Cl _ => slash_fix t | _ => Pass_ end)).
  { unfold common_arg, removed_always. destruct (family c); try reflexivity; [|destruct (colour c); [|reflexivity]]; cbn [map first_of row_act]; rewrite ?orelse_pass, ?orelse_assoc; reflexivity. }
  rewrite CO. clear CO. rewrite !orelse_assoc.
  destruct p; cbn [map first_of orelse].
  - destruct (family c); cbn [orelse]; now rewrite ?orelse_pass.
  - unfold preprocessor_only. destruct (family c) as [clang_cl|clang| | | | | | | |] eqn:F; cbn [removed_pre removed_always map first_of orelse]; try reflexivity;
      try (cbn [row_act]; rewrite ?orelse_pass, ?orelse_assoc; reflexivity).
    + change (if strip_token_cl (L "ZW") t false then Did [Append (L "/D__cplusplus_winrt ")] false else Pass_) with (winrt t).
      change (gone_arg (strip_with_arg_cl (L "Yc") t)) with (row_act t (TakingCl (L "Yc"))).
      assert (AN : (if clang_cl then analyzer t else Pass_) = first_of (map (row_act t) (if clang_cl then analyzer_rows else []))) by (destruct clang_cl; reflexivity).
      rewrite AN, orelse_pass. cbn [app map first_of]. rewrite !orelse_assoc. cbn [orelse].
      destruct (winrt_only t) as [E|E]; [rewrite E; reflexivity|]. destruct clang_cl; destruct E as [-> | ->]; reflexivity.
    + assert (AN : (if clang then analyzer t else Pass_) = first_of (map (row_act t) (if clang then analyzer_rows else []))) by (destruct clang; reflexivity).
      rewrite AN. rewrite !map_app, !first_app. cbn [map first_of]. rewrite !orelse_pass, !orelse_assoc. reflexivity.
  - unfold compile_preprocessed. destruct (family c) as [clang_cl|clang| | | | | | | |] eqn:F; cbn [removed_post removed_always map first_of orelse]; try reflexivity;
      try (cbn [row_act]; rewrite ?orelse_pass, ?orelse_assoc; reflexivity).
    + change (gone_arg (strip_with_arg_cl (L "Yu") t)) with (row_act t (TakingCl (L "Yu"))).
      change (gone_arg (strip_with_arg_cl (L "Fp") t)) with (row_act t (TakingCl (L "Fp"))).
      change (gone_arg (strip_with_arg_cl (L "FI") t)) with (row_act t (TakingCl (L "FI"))).
      rewrite source_dep. cbn [app map first_of]. rewrite !map_app, !first_app. cbn [map first_of]. rewrite !orelse_pass, !orelse_assoc.
      assert (FD : (if local c then Pass_ else gone_arg (strip_with_arg_cl (L "Fd") t)) = first_of (map (row_act t) (if local c then [] else [TakingCl (L "Fd")])))
        by (destruct (local c); [reflexivity|cbn [map first_of]; now rewrite orelse_pass]).
      rewrite FD. do 3 f_equal. destruct (include_only c t) as [E|(d&r&E&_)]; [rewrite E; reflexivity|]. subst t.
      assert (P1 : row_act (d :: "I"%char :: r) (TakingCl (L "FI")) = Pass_) by (cbn [row_act]; unfold strip_with_arg_cl; now rewrite not_start).
      assert (P2 : row_act (d :: "I"%char :: r) (TakingCl (L "sourceDependencies")) = Pass_) by (cbn [row_act]; unfold strip_with_arg_cl; now rewrite not_start).
      assert (P3 : row_act (d :: "I"%char :: r) (StartingCl (L "MP")) = Pass_) by (cbn [row_act]; unfold strip_token_cl; now rewrite not_start).
      assert (P4 : row_act (d :: "I"%char :: r) (OnlyCl (L "Gm")) = Pass_) by (cbn [row_act]; unfold strip_token_cl; rewrite not_arg; [reflexivity|now apply not_start]).
      rewrite P1, P2, P3, P4. reflexivity.
    + assert (A1 : (if clang then gone_arg (strip_with_arg (L "-I") t) else Pass_) = first_of (map (row_act t) (if clang then [Taking (L "-I")] else [])))
        by (destruct clang; [cbn [map first_of]; now rewrite orelse_pass|reflexivity]).
      assert (A2 : (if local c then dependency_option t else Pass_) = first_of (map (row_act t) (if local c then [Only (L "-MD"); Taking (L "-MF")] else []))) by (destruct (local c); reflexivity).
      rewrite A1, A2. rewrite !map_app, !first_app. cbn [map first_of]. rewrite !orelse_pass, !orelse_assoc.
      destruct (local c); [|reflexivity].
      destruct (lang_only c t next) as [E|E]; [rewrite E; reflexivity|]. subst t. destruct clang; destruct (colour c); reflexivity.
  - destruct (family c); cbn [orelse]; now rewrite ?orelse_pass.
Qed.
Print Assumptions step.
