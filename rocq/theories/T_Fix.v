(** C72: the fix-up of the preprocessed text of unity files. *)
From Coq Require Import String List Arith Bool Ascii Lia.
From Verif Require Import M_Path M_Args M_Drv S_Drv M_Fix S_Fix T_Path P_Drv P_Drv3 P_Fix.
Import ListNotations.
Open Scope list_scope.

Lemma escaped_spelled p n : escaped p n = spelled p n.
Proof.
  unfold escaped. induction n as [|c n IH]; [now destruct (windows p)|]. cbn [flat_map spelled]. destruct (windows p); cbn [andb]; [|now rewrite <- IH].
  rewrite <- IH. change (ascii_of_nat 92) with bslash. destruct (Ascii.eqb c bslash) eqn:E; [|reflexivity]. apply Ascii.eqb_eq in E. now subst.
Qed.
Lemma spelled_nonempty p n : n <> [] -> spelled p n <> [].
Proof. destruct n as [|c n]; [congruence|]. intros _. cbn [spelled]. destruct (windows p && Ascii.eqb c (ascii_of_nat 92))%bool; discriminate. Qed.

(** Whatever the text is, it keeps its length, and every character is kept but for digits 1 and 2 that become spaces. *)
Theorem C72_only_blanks : forall p full rel data, full <> [] -> rel <> [] -> Forall2 blanked data (fixup p full rel data).
Proof.
  intros p full rel data NF NR. unfold fixup. rewrite !escaped_spelled.
  pose proof (find_spec (spelled p full) (spelled_nonempty p full NF) data) as S. destruct (find (spelled p full) data) as [[a b]|].
  { destruct S as [E _]. rewrite E at 1. apply Forall2_app; [apply blanked_refl|]. apply loop_blanks. }
  clear S. pose proof (find_spec (spelled p rel) (spelled_nonempty p rel NR) data) as S. destruct (find (spelled p rel) data) as [[a b]|]; [|apply blanked_refl].
  destruct S as [E _]. rewrite E at 1. apply Forall2_app; [apply blanked_refl|]. apply loop_blanks.
Qed.
Print Assumptions C72_only_blanks.

(** In the text of a unity file that goes by its full name, or else by its relative one, the two flags of every file that the
    unity file itself includes are blanked, and nothing else is changed: not the markers inside these files, not the
    markers of other names, no code. *)
Theorem C72_fixup : forall p full rel name pre x ps, full <> [] -> rel <> [] ->
  let data := pre ++ name ++ x ++ page name "1" "2" ps in
  name = spelled p full \/ name = spelled p rel /\ ~ has (spelled p full) data ->
  clear_of name pre -> clear_of begins (name ++ x) -> Forall (part_ok name) ps ->
  fixup p full rel data = pre ++ name ++ x ++ page name " " " " ps.
Proof.
  intros p full rel name pre x ps NF NR data HN CP CX F. unfold fixup. rewrite !escaped_spelled.
  assert (Q : name <> [] -> find name data = Some (pre, x ++ page name "1" "2" ps)) by (intros NE; unfold data; now apply find_at).
  assert (R : fix_loop (S (List.length data)) (pop_text name) (name ++ x ++ page name "1" "2" ps) = name ++ x ++ page name " " " " ps).
  { rewrite !app_assoc. apply loop_page; [exact F|exact CX|]. unfold data. rewrite !app_length. lia. }
  destruct HN as [->|[-> NH]].
  - rewrite Q by (now apply spelled_nonempty). now rewrite R.
  - rewrite (find_none (spelled p full)) by (try apply spelled_nonempty; assumption). rewrite Q by (now apply spelled_nonempty). now rewrite R.
Qed.
Print Assumptions C72_fixup.

(** A unity file on Windows with two source files, the first of which includes a header. *)
Definition nl (s : string) : str := newline :: L s.
Definition q (s : string) : str := [quote] ++ L s ++ [quote].
Definition c72_parts : list part :=
  [Builtin (L "built-in>" ++ [quote] ++ L " 1");
   Marker (L "c:\\u.cpp") (nl "");
   File (L "a.cpp") (nl "# 1 " ++ q "a.h" ++ L " 1" ++ nl "int h;" ++ nl "# 2 " ++ q "a.cpp" ++ L " 2" ++ nl "int a;" ++ nl "# 2") (nl "int u;");
   File (L "b.cpp") (L " 3" ++ nl "int b;" ++ nl "# 3") (L " 3" ++ nl "")].
Lemma clear_dec o x : o <> [] -> find o (x ++ o) = Some (x, []) -> clear_of o x.
Proof.
  intros NO E a b H. pose proof (find_spec o NO (x ++ o)) as S. rewrite E in S. destruct S as [_ M].
  assert (LE : List.length x <= List.length a) by (eapply M; exact H). apply (f_equal (@List.length ascii)) in H. rewrite !app_length in H. destruct b; [reflexivity|]. cbn in H. lia.
Qed.
Example C72_case :
  let name := spelled win (L "c:\u.cpp") in let data := L "# 1 """ ++ name ++ q "" ++ page name "1" "2" c72_parts in
  name = L "c:\\u.cpp" /\ clear_of name (L "# 1 """) /\ clear_of begins (name ++ q "") /\ Forall (part_ok name) c72_parts
  /\ fixup win (L "c:\u.cpp") (L "u.cpp") data = L "# 1 """ ++ name ++ q "" ++ page name " " " " c72_parts.
Proof.
  intros name data.
  assert (A : clear_of name (L "# 1 """)) by (apply clear_dec; [discriminate|reflexivity]).
  assert (B : clear_of begins (name ++ q "")) by (apply clear_dec; [discriminate|reflexivity]).
  assert (C : Forall (part_ok name) c72_parts).
  { repeat apply Forall_cons; [| | | |apply Forall_nil]; cbn [part_ok]; repeat apply conj;
      try (apply clear_dec; [discriminate|reflexivity]); try (intros I; cbn in I; repeat (destruct I as [I|I]; [discriminate|]); exact I); try discriminate. }
  repeat apply conj; try assumption; [reflexivity|]. apply C72_fixup; try discriminate; try assumption. now left.
Qed.

(** A return is looked for in all the rest of the text, so when the marker of the return has other flags first, or is not
    there, the files that follow keep their flags: what is expected of the text is needed. *)
Example C72_no_return :
  let data := L "# 1 ""u""" ++ nl "# 1 ""a"" 1" ++ nl "# 2 ""u"" 3 2" ++ nl "# 1 ""b"" 1" ++ nl "# 3 ""u""" in
  fixup posix (L "/u") (L "u") data = L "# 1 ""u""" ++ nl "# 1 ""a""  " ++ nl "# 2 ""u"" 3 2" ++ nl "# 1 ""b"" 1" ++ nl "# 3 ""u""".
Proof. reflexivity. Qed.
