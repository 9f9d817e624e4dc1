From Coq Require Import String List Arith Bool Ascii Lia.
From Verif Require Import M_Path M_Names M_Args S_Args M_Drv S_Drv P_Drv P_Drv3 M_Link S_Link P_Link.
Import ListNotations.
Open Scope list_scope.

Lemma resource_spec ns : forall acc, Forall no_copies ns -> exists ess, Forall2 embeds ns ess /\
  fold_left (fun acc n => resource_inputs n acc) ns acc = acc ++ listed_files acc (List.concat ess).
Proof.
  induction ns as [|n r IH]; intros acc W; cbn [fold_left].
  - exists []. split; [constructor|]. cbn. now rewrite app_nil_r.
  - inversion_clear W. assert (X : exists es, embeds n es /\ resource_inputs n acc = acc ++ listed_files acc es).
    { destruct n as [nm o|ds|nm ds|nm i k|s|nm]; cbn [resource_inputs]; try (eexists; split; [constructor|reflexivity]).
      - destruct (lists_inputs_spec false ds acc H) as (es&M&E). exists es. split; [now constructor|exact E].
      - destruct (lists_inputs_spec false ds acc H) as (es&M&E). exists es. split; [now constructor|exact E].
      - destruct H. }
    destruct X as (es&M&E). rewrite E. destruct (IH (acc ++ listed_files acc es) H0) as (ess&M'&E'). exists (es :: ess). split; [now constructor|].
    cbn [List.concat]. now rewrite E', listed_app, app_assoc.
Qed.

(** ** Kinds of linkers *)
Lemma ends_i_iff s o : ends_with_i s o = true <-> exists a x, s = a ++ x /\ lower x = lower o.
Proof.
  unfold ends_with_i. rewrite ends_iff. split.
  - intros (y&E). apply lower_cut in E. destruct E as (a&x&->&_&E). now exists a, x.
  - intros (a&x&->&E). exists (lower a). now rewrite lower_app, E.
Qed.
Lemma ends_exe_iff exe o : lower o = o -> ends_exe exe o = true <-> exe_named exe o.
Proof.
  intros LO. unfold ends_exe, exe_named. rewrite orb_true_iff, !ends_i_iff. rewrite lower_app, LO. change (lower (L ".exe")) with (L ".exe"). split.
  - intros [(a&x&->&E)|(a&x&->&E)]; exists a, x; auto.
  - intros (a&x&->&[E|E]); [right|left]; now exists a, x.
Qed.
Lemma fit_step {A} (fits : str -> Prop) o (k : A) l none x : ~ fits o -> first_fit fits l none x -> first_fit fits ((o, k) :: l) none x.
Proof.
  intros N [(l1&o'&l2&->&F&B)|[B ->]].
  - left. exists ((o, k) :: l1), o', l2. split; [reflexivity|]. split; [exact F|]. now constructor.
  - right. split; [now constructor|reflexivity].
Qed.
Lemma fit_here {A} (fits : str -> Prop) o (k : A) l none : fits o -> first_fit fits ((o, k) :: l) none k.
Proof. intros F. left. exists [], o, l. auto. Qed.
Lemma fit_none {A} (fits : str -> Prop) (none : A) : first_fit fits [] none none. Proof. right. auto. Qed.
Lemma linker_by_name exe type : type = [] \/ type = L "auto" -> first_fit (exe_named exe) by_name LUnknown (linker_of type exe).
Proof.
  intros H. unfold linker_of. replace (teq type [] || teq type (L "auto")) with true by (symmetry; apply orb_true_iff; rewrite !teq_eq; exact H).
  unfold by_name.
  repeat match goal with |- first_fit _ ((?o, _) :: _) _ (if ends_exe exe ?o then _ else _) =>
    let E := fresh "E" in destruct (ends_exe exe o) eqn:E;
      [apply ends_exe_iff in E; [now apply fit_here|reflexivity]
      |apply fit_step; [intros X; apply ends_exe_iff in X; [congruence|reflexivity]|]] end.
  apply fit_none.
Qed.
Lemma linker_by_type exe type : type <> [] -> type <> L "auto" -> first_fit (eq type) by_type LUnknown (linker_of type exe).
Proof.
  intros H1 H2. unfold linker_of. apply teq_ne in H1, H2. rewrite H1, H2. cbn [orb]. unfold by_type.
  repeat match goal with |- first_fit _ ((?o, _) :: _) _ (if teq type ?o then _ else _) =>
    let E := fresh "E" in destruct (teq type o) eqn:E; [apply teq_eq in E; now apply fit_here|apply fit_step; [now apply teq_ne|]] end.
  apply fit_none.
Qed.

(** ** Flags *)
Lemma larg_low t o : is_larg t o = true -> lower (tl t) = lower o.
Proof. intros H. apply is_larg_iff in H. destruct H as (d&x&_&->&E). exact E. Qed.
Lemma lstart_low t o : is_lstart t o = true -> exists v, lower (tl t) = lower o ++ v.
Proof. intros H. apply is_lstart_iff in H. destruct H as (v&d&x&_&->&E). exists (lower v). cbn [tl]. now rewrite lower_app, E. Qed.
(** Later tests fail when an earlier one has answered. *)
Ltac clash := repeat match goal with
  | H : is_larg _ _ = true |- _ => apply larg_low in H
  | H : is_lstart _ _ = true |- _ => apply lstart_low in H; destruct H as (?v&H)
  end; match goal with H : lower (tl ?t) = _, H' : lower (tl ?t) = _ |- _ => rewrite H in H'; cbn in H'; discriminate H' end.
Ltac cases := unfold flag_token; repeat match goal with |- context [if ?b then _ else _] => destruct b eqn:? end; cbn [f_dll f_debug f_inc f_incno f_wx f_opt f_order];
  try (now rewrite ?orb_false_r, ?orb_true_r).
Ltac settle t o := let E := fresh in destruct (is_larg t o) eqn:E; [exfalso; clash|now rewrite ?orb_false_r].
Ltac settle' t o := let E := fresh in destruct (is_lstart t o) eqn:E; [exfalso; clash|cbn [andb]; now rewrite ?orb_false_r].
Definition opt_any (t : str) : bool := opt_on t (L "REF") || opt_on t (L "ICF") || opt_on t (L "LBR").
Lemma tok_dll t f : f_dll (flag_token t f) = f_dll f || is_larg t (L "DLL"). Proof. cases. Qed.
Lemma tok_debug t f : f_debug (flag_token t f) = f_debug f || is_larg t (L "DEBUG"). Proof. cases. all: settle t (L "DEBUG"). Qed.
Lemma tok_inc t f : f_inc (flag_token t f) = f_inc f || is_larg t (L "INCREMENTAL"). Proof. cases. all: settle t (L "INCREMENTAL"). Qed.
Lemma tok_incno t f : f_incno (flag_token t f) = f_incno f || is_larg t (L "INCREMENTAL:NO"). Proof. cases. all: settle t (L "INCREMENTAL:NO"). Qed.
Lemma tok_wx t f : f_wx (flag_token t f) = f_wx f || is_larg t (L "WX"). Proof. cases. all: settle t (L "WX"). Qed.
Lemma tok_opt t f : f_opt (flag_token t f) = f_opt f || is_lstart t (L "OPT") && opt_any t.
Proof. cases. all: try settle' t (L "OPT"). unfold opt_any. cbn [andb]. now rewrite !orb_assoc. Qed.
Lemma tok_order t f : f_order (flag_token t f) = f_order f || is_lstart t (L "ORDER"). Proof. cases. all: settle' t (L "ORDER"). Qed.
Lemma fold_flag (g : lflags -> bool) (b : str -> bool) : (forall t f, g (flag_token t f) = g f || b t) ->
  forall toks f, g (fold_left (fun f t => flag_token t f) toks f) = g f || existsb b toks.
Proof. intros H toks. induction toks as [|t r IH]; intros f; cbn [fold_left existsb]; [now rewrite orb_false_r|]. now rewrite IH, H, orb_assoc. Qed.
Lemma opt_on_iff t o : o <> [] -> opt_on t o = true <-> has_any_case o t /\ ~ has_any_case (L "NO" ++ o) t.
Proof.
  intros N. unfold opt_on. rewrite andb_true_iff, negb_true_iff, has_i_iff by exact N.
  rewrite <- (has_i_iff (L "NO" ++ o)) by discriminate. destruct (has_i (L "NO" ++ o) t); intuition congruence.
Qed.
Lemma opt_any_iff t : opt_any t = true <-> keeps t.
Proof.
  unfold opt_any, keeps. rewrite !orb_true_iff, !opt_on_iff by discriminate. cbn [In]. split.
  - intros [[H|H]|H]; eexists; (split; [|exact H]); auto.
  - intros (o&[<-|[<-|[<-|[]]]]&H); auto.
Qed.
Lemma ex_iff {A} (b : A -> bool) (Q : A -> Prop) l : (forall x, b x = true <-> Q x) -> existsb b l = true <-> exists x, In x l /\ Q x.
Proof. intros H. rewrite existsb_exists. split; intros (x&I&E); exists x; (split; [exact I|now apply H]). Qed.

Lemma flags_msvc options d i w : linker_flags LMsvc options = (d, i, w) ->
  let toks := tokenize space options in
  (d = true <-> exists t, In t toks /\ option_ t (L "DLL")) /\
  (i = true <-> (exists t, In t toks /\ (option_ t (L "DEBUG") \/ option_ t (L "INCREMENTAL"))) /\ ~ exists t, In t toks /\ from_scratch t) /\
  (w = true <-> exists t, In t toks /\ option_ t (L "WX")).
Proof.
  intros H toks. unfold linker_flags in H. fold toks in H. injection H as <- <- <-.
  rewrite (fold_flag _ _ tok_dll), (fold_flag _ _ tok_debug), (fold_flag _ _ tok_inc), (fold_flag _ _ tok_incno), (fold_flag _ _ tok_wx),
    (fold_flag _ _ tok_opt), (fold_flag _ _ tok_order). cbn [no_flags f_dll f_debug f_inc f_incno f_wx f_opt f_order orb].
  split; [|split].
  - apply ex_iff. intros. apply is_larg_iff.
  - rewrite andb_true_iff, negb_true_iff.
    assert (X : existsb (fun t => is_larg t (L "DEBUG")) toks || existsb (fun t => is_larg t (L "INCREMENTAL")) toks = true <->
                exists t, In t toks /\ (option_ t (L "DEBUG") \/ option_ t (L "INCREMENTAL"))).
    { rewrite orb_true_iff, !(ex_iff _ _ _ (fun x => is_larg_iff x _)). split; [intros [(t&I&E)|(t&I&E)]; eauto|intros (t&I&[E|E]); eauto]. }
    assert (Y : existsb (fun t => is_larg t (L "INCREMENTAL:NO")) toks || existsb (fun t => is_lstart t (L "OPT") && opt_any t) toks ||
                existsb (fun t => is_lstart t (L "ORDER")) toks = true <-> exists t, In t toks /\ from_scratch t).
    { rewrite !orb_true_iff, (ex_iff _ _ _ (fun x => is_larg_iff x _)), (ex_iff _ _ _ (fun x => is_lstart_iff x (L "ORDER"))).
      rewrite (ex_iff _ (fun t => (exists v, option_with t (L "OPT") v) /\ keeps t)) by (intros; now rewrite andb_true_iff, is_lstart_iff, opt_any_iff).
      unfold from_scratch. split; [intros [[(t&I&E)|(t&I&E)]|(t&I&E)]; eauto|intros (t&I&[E|[E|E]]); eauto]. }
    rewrite X, <- Y. destruct (_ || _ || _); intuition congruence.
  - apply ex_iff. intros. apply is_larg_iff.
Qed.

Lemma implib_spec : forall n toks cur, List.length toks <= n -> implib_of toks cur (implib toks cur).
Proof.
  induction n as [|n IH]; intros toks cur LN; (destruct toks as [|t r]; [constructor|]); cbn [List.length] in LN; [lia|].
  cbn [implib]. destruct (is_lstart t (L "IMPLIB:")) eqn:S.
  - apply is_lstart_value in S. change (1 + List.length (L "IMPLIB:")) with 8 in S. destruct (skipn 8 t) as [|c v].
    + apply option_with_nil in S. destruct r as [|v r]; [now constructor|]. apply il_next; [exact S|]. apply IH. cbn [List.length] in LN. lia.
    + apply il_here with (v := c :: v); [exact S|discriminate|]. apply IH. lia.
  - apply il_other; [|apply IH; lia]. intros v O. assert (is_lstart t (L "IMPLIB:") = true) by (apply is_lstart_iff; eauto). congruence.
Qed.
