(** The arguments of Exec(), for C95. *)
From Coq Require Import String Ascii List Arith Bool ZArith Lia.
From Verif Require Import M_Path M_Args M_Proc S_Proc S_Args P_Args S_Drv P_Drv P_Drv4 P_Link.
Import ListNotations.
Local Open Scope list_scope.
Local Notation "'length'" := List.length.

Definition more (pre post : str) (l : list str) : str := flat_map (fun x => [space] ++ pre ++ x ++ post) l.
Lemma add_names_spec pre post l : forall f s, add_names pre post l f s =
  match l with [] => (f, s) | x :: r => (false, sep f s ++ pre ++ x ++ post ++ more pre post r) end.
Proof.
  induction l as [|x l IH]; intros f s; [reflexivity|]. cbn [add_names]. rewrite IH. destruct l as [|y l]; [cbn [more flat_map]; now rewrite !app_nil_r|].
  cbn [sep]. f_equal. unfold more. cbn [flat_map app]. rewrite <- !app_assoc. reflexivity.
Qed.
Lemma input_files_spec pre post ins : forall f s, input_files pre post ins f s =
  match names ins with [] => s | x :: r => sep f s ++ pre ++ x ++ post ++ more pre post r end.
Proof.
  induction ins as [|[x|xs] ins IH]; intros f s; [reflexivity| |]; cbn [input_files names flat_map].
  - rewrite IH. fold (names ins). cbn [app]. destruct (names ins) as [|y r]; [cbn [more flat_map]; now rewrite !app_nil_r|]. cbn [sep]. unfold more. cbn [flat_map app]. rewrite <- !app_assoc. reflexivity.
  - rewrite add_names_spec. fold (names ins). destruct xs as [|x xs]; [apply IH|]. rewrite IH. cbn [app]. destruct (names ins) as [|y r]; [now rewrite app_nil_r|]. cbn [sep]. unfold more.
    rewrite flat_map_app. cbn [flat_map app]. rewrite <- !app_assoc. reflexivity.
Qed.
Lemma join_more pre post x r : join [space] (map (fun x => pre ++ x ++ post) (x :: r)) = pre ++ x ++ post ++ more pre post r.
Proof.
  revert x. induction r as [|y r IH]; intros x; [cbn; now rewrite !app_nil_r|]. change (join [space] (map (fun x => pre ++ x ++ post) (x :: y :: r))) with ((pre ++ x ++ post) ++ [space] ++ join [space] (map (fun x => pre ++ x ++ post) (y :: r))). rewrite IH. unfold more. cbn [flat_map app]. rewrite <- !app_assoc. reflexivity.
Qed.
Lemma input_text pre post ins s : input_files pre post ins true s = s ++ join [space] (map (fun x => pre ++ x ++ post) (names ins)).
Proof. rewrite input_files_spec. destruct (names ins) as [|x r]; [cbn; now rewrite app_nil_r|]. now rewrite join_more. Qed.

Lemma drop_app (a e : str) n : length e = n -> drop_end n (a ++ e) = a.
Proof. intros <-. unfold drop_end. rewrite app_length, Nat.add_sub. rewrite firstn_app, firstn_all, Nat.sub_diag. cbn. apply app_nil_r. Qed.
Lemma drop_one (a e : str) x n : length e = n -> drop_end n (a ++ x :: e) = a ++ [x].
Proof. intros L. replace (a ++ x :: e) with ((a ++ [x]) ++ e) by (rewrite <- app_assoc; reflexivity). now apply drop_app. Qed.

Lemma token_spec nm ins t : exists outs, stands_for nm ins t outs /\ forall s, exec_token nm ins t s = s ++ join [space] outs ++ [space].
Proof.
  unfold exec_token. destruct (ends_with t pct1) eqn:E1; [|destruct (ends_with t q1) eqn:E2; [|destruct (ends_with t pct2) eqn:E3; [|destruct (ends_with t q2) eqn:E4]]].
  - apply ends_iff in E1 as (pre&->). eexists. split; [apply for_inputs|]. intros s. rewrite drop_app by reflexivity. rewrite input_text, <- app_assoc. f_equal. f_equal. f_equal. apply map_ext. intros x. now rewrite app_nil_r.
  - apply ends_iff in E2 as (pre&->). eexists. split; [apply (for_quoted_inputs nm ins pre)|]. intros s. unfold q1. rewrite drop_one by reflexivity. rewrite input_text, <- app_assoc. f_equal. f_equal. f_equal. apply map_ext. intros x. rewrite <- app_assoc. reflexivity.
  - apply ends_iff in E3 as (pre&->). eexists. split; [apply for_output|]. intros s. rewrite drop_app by reflexivity. cbn [join]. rewrite <- !app_assoc. reflexivity.
  - apply ends_iff in E4 as (pre&->). eexists. split; [apply (for_quoted_output nm ins pre)|]. intros s. unfold q2. rewrite drop_one by reflexivity. cbn [join]. rewrite <- !app_assoc. reflexivity.
  - exists [t]. split; [|intros s; cbn [join]; now rewrite <- app_assoc]. apply for_itself. intros pre e -> I.
    assert (X : forall suf, ends_with (pre ++ suf) suf = true) by (intros suf; apply ends_iff; now exists pre).
    destruct I as [<-|[<-|[<-|[<-|[]]]]]; [rewrite X in E1|rewrite X in E3|rewrite X in E2|rewrite X in E4]; discriminate.
Qed.
Lemma args_spec nm ins toks : exists outss, Forall2 (stands_for nm ins) toks outss /\
  forall s, fold_left (fun s t => exec_token nm ins t s) toks s = s ++ flat_map (fun outs => join [space] outs ++ [space]) outss.
Proof.
  induction toks as [|t toks (outss&F&E)]; [exists []; split; [constructor|intros s; cbn; now rewrite app_nil_r]|]. destruct (token_spec nm ins t) as (outs&S1&S2).
  exists (outs :: outss). split; [now constructor|]. intros s. cbn [fold_left flat_map]. rewrite S2, E, <- !app_assoc. reflexivity.
Qed.
Lemma tokenize_join outs r : Forall single outs -> tokenize space (join [space] outs ++ [space] ++ r) = outs ++ tokenize space r.
Proof.
  intros F. induction F as [|o outs S F IH]; [cbn [join app]; apply (tokenize_piece [] r); now left|]. destruct outs as [|o2 outs].
  - cbn [join app]. rewrite tokenize_piece by now right. destruct o; [now destruct S|reflexivity].
  - change (join [space] (o :: o2 :: outs)) with (o ++ [space] ++ join [space] (o2 :: outs)). rewrite <- !app_assoc. cbn [app]. cbn [app] in IH. rewrite tokenize_piece by now right. rewrite IH. destruct o; [now destruct S|reflexivity].
Qed.
Lemma exec_argv nm ins options : exists outss, Forall2 (stands_for nm ins) (tokenize space options) outss /\
  (Forall single (concat outss) -> tokenize space (exec_args nm ins options) = concat outss).
Proof.
  destruct (args_spec nm ins (tokenize space options)) as (outss&F&E). exists outss. split; [exact F|]. intros S. unfold exec_args. rewrite E. cbn [app]. clear - S.
  induction outss as [|o outss IH]; [reflexivity|]. cbn [concat] in S. apply Forall_app in S as [S1 S2]. cbn [flat_map concat]. rewrite <- app_assoc. rewrite tokenize_join by assumption. now rewrite IH.
Qed.

Lemma remove_plain x r : ~ In quote x -> last x nul <> bslash -> remove_quotes (x ++ quote :: r) = x ++ remove_quotes r.
Proof.
  induction x as [|c x IH]; intros N B; [reflexivity|]. cbn [app remove_quotes]. assert (C : Ascii.eqb c quote = false) by (apply eqb_false; intros ->; apply N; now left). rewrite C.
  assert (N' : ~ In quote x) by (intros I; apply N; now right).
  destruct x as [|d x].
  - destruct (Ascii.eqb_spec c bslash); [now cbn in B|reflexivity].
  - assert (D : Ascii.eqb d quote = false) by (apply eqb_false; intros ->; apply N'; now left). specialize (IH N' B). cbn [app] in IH |- *. destruct (Ascii.eqb c bslash); [rewrite D|]; now rewrite IH.
Qed.
