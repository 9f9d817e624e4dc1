(** C20: wildcard matching. *)
From Coq Require Import List Arith Bool Ascii String Lia.
From Verif Require Import M_Path M_Names M_Glob S_Glob P_Glob.
Import ListNotations.

(** Matching terminates without reading past either string, and accepts exactly the texts of the pattern. *)
Theorem C20_match_exact : forall pat s, exists b, Match_ pat s = Some b /\ (b = true <-> glob eq pat s).
Proof. intros pat s. apply (match_from_spec (fun c => c)). lia. Qed.
Print Assumptions C20_match_exact.

(** The case-insensitive version: characters are compared after lower-casing ASCII letters. *)
Theorem C20_matchi_exact : forall pat s, exists b, MatchI_ pat s = Some b /\
  (b = true <-> glob (fun a b => lower_char a = lower_char b) pat s).
Proof. intros pat s. apply (match_from_spec lower_char). lia. Qed.
Print Assumptions C20_matchi_exact.

(** Consequences: "*" matches everything, and any literal text without wildcards only itself. *)
Theorem C20_star_matches_all : forall s, Match_ (L "*") s = Some true.
Proof.
  intros s. destruct (C20_match_exact (L "*") s) as (b&E&H). rewrite E. f_equal. apply H.
  rewrite <- (app_nil_r s). constructor. constructor.
Qed.
Print Assumptions C20_star_matches_all.
Theorem C20_literal : forall t s, ~ In "*"%char t -> ~ In "?"%char t -> Match_ t s = Some true <-> t = s.
Proof.
  intros t s N1 N2. destruct (C20_match_exact t s) as (b&E&H). rewrite E.
  assert (Q : b = true <-> t = s).
  { rewrite H. clear - N1 N2. revert s. induction t as [|c t IH]; intros s.
    - split; [intros G; now inversion G|intros <-; constructor].
    - assert (N1' : ~ In "*"%char t) by (intros Q; apply N1; now right).
      assert (N2' : ~ In "?"%char t) by (intros Q; apply N2; now right).
      split.
      + intros G. inversion G; subst; try (exfalso; apply N1; now left); try (exfalso; apply N2; now left). f_equal. now apply IH.
      + intros <-. constructor; auto; [intros ->; apply N1; now left|]. now apply IH. }
  rewrite <- Q. split; [intros X; injection X; auto|intros ->; auto].
Qed.
Print Assumptions C20_literal.

Example C20_case :
  Match_ (L "*a?b*.cpp") (L "xaaab.foo.cpp") = Some true /\ Match_ (L "*a?b*.cpp") (L "xa.b.cpp") = Some false /\
  MatchI_ (L "SRC/*.CPP") (L "src/x/Y.cpp") = Some true /\ Match_ (L "a*") (L "") = Some false.
Proof. repeat split; vm_compute; reflexivity. Qed.
