(** C89: include directories, forced includes, definitions and language options
    are read from compiler options as the compiler reads them. *)

From Coq Require Import String List Bool Arith Ascii Lia.
From Verif Require Import M_Path M_Args M_Opts S_Opts P_Opts.
From Verif Require M_Tok M_Light T_Light.
Import ListNotations.
Local Open Scope list_scope.

Lemma ordered_1 : forall p, ordered [p].
Proof.
  intros p a q b r x E I. destruct a as [|? [|? ?]]; [|discriminate|discriminate]. injection E as <- <-. destruct I.
Qed.
Lemma ordered_2 : forall p q, (forall x, q <> p ++ x) -> ordered [p; q].
Proof.
  intros p q H a r b s x E I. destruct a as [|? [|? [|? ?]]]; try discriminate; injection E.
  - intros <- <-. destruct I as [<-|[]]. apply H.
  - intros <- <- <-. destruct I.
Qed.
Ltac differ := let x := fresh in let E := fresh in intros x E; vm_compute in E; discriminate E.

Lemma include_ordered : Forall ordered include_options.
Proof. repeat constructor; first [apply ordered_1|apply ordered_2; differ]. Qed.

(** Include directories: those of each group of options, in the order of the
    groups and in the order of the command line within a group. *)
Theorem C89_includes : forall opts args esc ls, spells opts args ->
  (forall group, In group include_options -> Forall (tidy group) args) ->
  Forall2 (fun group l => found group args l) include_options ls ->
  exists out, include_paths esc opts = Some out /\ Forall2 (handed esc) (concat ls) out.
Proof.
  intros opts args esc ls S T F. apply (join_found esc opts args include_options ls); auto. exact include_ordered.
Qed.
Print Assumptions C89_includes.

(** Forced includes and definitions. *)
Theorem C89_forced : forall opts args esc l, spells opts args -> Forall (tidy force_options) args ->
  found force_options args l ->
  exists out, forced_includes esc opts = Some out /\ Forall2 (handed esc) l out.
Proof.
  intros opts args esc l S T F. apply (extract_found force_options esc opts args); auto. apply ordered_2. differ.
Qed.
Print Assumptions C89_forced.

Theorem C89_defines : forall opts args esc l, spells opts args -> Forall (tidy define_options) args ->
  found define_options args l ->
  exists out, defines esc opts = Some out /\ Forall2 (handed esc) l out.
Proof.
  intros opts args esc l S T F. apply (extract_found define_options esc opts args); auto. apply ordered_2. differ.
Qed.
Print Assumptions C89_defines.

(** Every command line has values for a group. *)
Theorem C89_total : forall group args, exists raw, values group args raw.
Proof. exact values_total. Qed.
Print Assumptions C89_total.

(** Language options that are arguments by themselves are all kept, whole and in order. *)
Theorem C89_language : forall opts ts, spells opts (map One ts) -> Forall (fun t => ~ In t language_options) ts ->
  exists l, additional_options opts = Some l /\ picks (begins_with_one_of language_options) ts l.
Proof.
  intros opts ts S F. unfold additional_options, extract. rewrite scan_scan'. unfold spells in S.
  replace (line (map One ts)) with ts in S by (clear; induction ts as [|t r IH]; [reflexivity|cbn; f_equal; exact IH]).
  rewrite S. apply keep_picks; [|exact F].
  intros p I. repeat (destruct I as [<-|I]; [eexists; eexists; split; [reflexivity|discriminate]|]). destruct I.
Qed.
Print Assumptions C89_language.

(** ** Readings that do not hold *)

(** A value that looks like an option is read a second time. *)
Theorem C89_twice_refuted : exists opts dir, spells opts [Two (L "-I") dir] /\ dir = L "/Include" /\
  include_paths false opts = Some [dir; L "nclude"].
Proof. exists (L "-I /Include"), (L "/Include"). repeat split; vm_compute; reflexivity. Qed.
Print Assumptions C89_twice_refuted.

(** The value of one option is read as another option. *)
Theorem C89_stolen_refuted : exists opts, spells opts [Two (L "-isystem") (L "/Dev/x")] /\
  defines false opts = Some [L "ev/x"].
Proof. exists (L "-isystem /Dev/x"). split; vm_compute; reflexivity. Qed.
Print Assumptions C89_stolen_refuted.

(** An argument that is a prefix and a quote is undefined behaviour. *)
Theorem C89_quote_refuted : exists opts, spells opts [One (L "-D" ++ [quote])] /\ defines false opts = None.
Proof. exists (L "-D" ++ [bslash; quote]). split; vm_compute; reflexivity. Qed.
Print Assumptions C89_quote_refuted.

(** A language option with its value in the next argument loses its name. *)
Theorem C89_language_refuted : exists opts, spells opts [Two (L "-std") (L "c++17")] /\
  additional_options opts = Some [L "c++17"].
Proof. exists (L "-std c++17"). split; vm_compute; reflexivity. Qed.
Print Assumptions C89_language_refuted.

(** The forced include of GCC and Clang is not seen, so the light cache has the same
    key whatever is in that header: *)
Theorem C89_gcc_forced_refuted : exists opts header root, spells opts [One (L "-c"); Two (L "-include") header; One (L "%1")] /\
  forall forced, forced_includes false opts = Some forced ->
  exists k l, forall x,
    M_Light.light_hash 9 (T_Light.project [(root, L "int i;"); (header, x)]) T_Light.cold false [] forced root
    = M_Tok.Done (M_Light.Key k l).
Proof.
  exists (L "-c -include /p/f.h %1"), (L "/p/f.h"), (L "/p/a.c").
  split; [vm_compute; reflexivity|]. intros forced F. vm_compute in F. injection F as <-.
  do 2 eexists. intros x. vm_compute. reflexivity.
Qed.
Print Assumptions C89_gcc_forced_refuted.

(** ** A case *)
Definition sample : str := L "-c -I" ++ quote :: L "a b" ++ quote :: L " -I" ++ bslash :: quote :: L "c" ++ bslash :: quote :: L " -isystem sys -iquote q -I lib -DX=" ++ bslash :: quote :: L "1" ++ bslash :: quote :: L " /D Y -std=c++17 -wd4005".
Definition sample_args : list arg :=
  [One (L "-c"); One (L "-Ia b"); One (L "-I" ++ quote :: L "c" ++ [quote]); Two (L "-isystem") (L "sys"); Two (L "-iquote") (L "q");
   Two (L "-I") (L "lib"); One (L "-DX=" ++ quote :: L "1" ++ [quote]); Two (L "/D") (L "Y"); One (L "-std=c++17"); One (L "-wd4005")].

Ltac neq := let E := fresh in intros E; vm_compute in E; discriminate E.
Ltac noin := let I := fresh in intros I; cbn [In] in I; repeat (destruct I as [I|I]; [vm_compute in I; discriminate I|]); exact I.
Ltac nostart := let p := fresh in let x := fresh in let I := fresh in
  intros p x I; cbn [In] in I; repeat (destruct I as [<-|I]; [neq|]); destruct I.
Ltac tidy_all := repeat (apply Forall_cons; [cbn [tidy]; first [solve [noin]|solve [split; [nostart|first [left; cbn [In]; tauto|right; nostart]]]]|]); apply Forall_nil.
Ltac noquote := let w := fresh in let E := fresh in intros w E; vm_compute in E; discriminate E.
Ltac vals := repeat first
  [ apply vs_nil
  | apply vs_other; [cbn [foreign]; first [solve [nostart]|solve [noin]]|]
  | apply vs_gives; [apply g_next; cbn [In]; tauto|]
  | match goal with |- values (?p :: _) (One ?t :: _) (?v :: _) => change (One t) with (One (p ++ v)); apply vs_gives; [eapply (g_rest _ [] p _ v); [reflexivity|intros ? []]|] end
  | match goal with |- values (?q :: ?p :: _) (One ?t :: _) (?v :: _) =>
      change (One t) with (One (p ++ v)); apply vs_gives; [eapply (g_rest _ [q] p _ v); [reflexivity|intros ? [<-|[]]; let x := fresh in intros x; neq]|] end ].
Ltac uw := repeat first [apply Forall2_nil
  | apply Forall2_cons; [first [solve [apply uw_as; [neq|noquote]]|apply (uw_in (L "c"))]|]].

Example C89_case : spells sample sample_args /\
  (forall group, In group include_options -> Forall (tidy group) sample_args) /\
  Forall2 (fun group l => found group sample_args l) include_options [[L "a b"; L "c"; L "lib"]; [L "sys"]; []; []; [L "q"]; []] /\
  Forall (tidy define_options) sample_args /\
  found define_options sample_args [L "X=" ++ quote :: L "1" ++ [quote]; L "Y"] /\
  include_paths false sample = Some [L "a b"; L "c"; L "lib"; L "sys"; L "q"] /\
  defines true sample = Some [L "X=" ++ bslash :: quote :: L "1" ++ [bslash; quote]; L "Y"] /\
  additional_options sample = Some [L "-std=c++17"; L "-wd4005"].
Proof.
  split; [vm_compute; reflexivity|]. split.
  { intros g I. cbn [In include_options] in I. unfold include_options in I. unfold sample_args.
    repeat (destruct I as [<-|I]; [tidy_all|]). destruct I. }
  split.
  { unfold include_options, sample_args.
    repeat apply Forall2_cons; [| | | | | |apply Forall2_nil].
    - exists [L "a b"; quote :: L "c" ++ [quote]; L "lib"], [L "a b"; L "c"; L "lib"]. split; [vals|split; [uw|reflexivity]].
    - exists [L "sys"], [L "sys"]. split; [vals|split; [uw|reflexivity]].
    - exists [], []. split; [vals|split; [uw|reflexivity]].
    - exists [], []. split; [vals|split; [uw|reflexivity]].
    - exists [L "q"], [L "q"]. split; [vals|split; [uw|reflexivity]].
    - exists [], []. split; [vals|split; [uw|reflexivity]]. }
  split; [unfold sample_args, define_options; tidy_all|]. split.
  { exists [L "X=" ++ quote :: L "1" ++ [quote]; L "Y"], [L "X=" ++ quote :: L "1" ++ [quote]; L "Y"].
    split; [unfold sample_args, define_options; vals|split; [uw|reflexivity]]. }
  repeat split; vm_compute; reflexivity.
Qed.
