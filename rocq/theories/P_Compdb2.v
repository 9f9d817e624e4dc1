(** The text of the database. *)

From Coq Require Import String List Bool Arith Ascii Lia.
From Verif Require Import M_Path M_Args S_Args P_Args M_Drv S_Drv P_Drv3 P_Link M_Compdb S_Compdb P_Compdb.
From Verif Require M_Objs.
Import ListNotations.
Local Open Scope list_scope.

(** ** Placeholders and escapes *)
Lemma percent_free : forall c, c <> "%"%char -> ~ In "%"%char (esc1 c).
Proof.
  intros c N I.
  assert (X : forallb (fun x => negb (Ascii.eqb x "%"%char)) (esc1 c) = true).
  { clear I. destruct c as [[] [] [] [] [] [] [] []]; try reflexivity. now elim N. }
  rewrite forallb_forall in X. specialize (X _ I). discriminate.
Qed.

Lemma find_skip : forall d u t, ~ In "%"%char u ->
  find ("%"%char :: d) (u ++ t) = option_map (fun p => (u ++ fst p, snd p)) (find ("%"%char :: d) t).
Proof.
  intros d. induction u as [|c u IH]; intros t N; cbn [app].
  - destruct (find ("%"%char :: d) t) as [[a b]|]; reflexivity.
  - assert (S : starts_with ("%"%char :: d) (c :: u ++ t) = false).
    { destruct (starts_with ("%"%char :: d) (c :: u ++ t)) eqn:S; [|reflexivity]. apply starts_iff in S as (y & Y). injection Y as -> _. elim N. now left. }
    cbn [find]. rewrite S, IH by (intros I; apply N; now right). destruct (find ("%"%char :: d) t) as [[a b]|]; reflexivity.
Qed.

Lemma find_escape : forall d, d = "1"%char \/ d = "2"%char -> forall a,
  find ["%"%char; d] (json_escape a) = option_map (fun p => (json_escape (fst p), json_escape (snd p))) (find ["%"%char; d] a).
Proof.
  intros d D a. induction a as [|c a IH]; [destruct D as [-> | ->]; reflexivity|].
  unfold json_escape; cbn [flat_map]; fold (json_escape a).
  destruct (Ascii.eqb_spec c "%") as [->|N].
  - change (esc1 "%") with ["%"%char]. cbn [app find].
    assert (S : starts_with ["%"%char; d] ("%"%char :: json_escape a) = starts_with ["%"%char; d] ("%"%char :: a)).
    { destruct a as [|e a]; [destruct D as [-> | ->]; reflexivity|]. clear IH. unfold json_escape; cbn [flat_map]; fold (json_escape a).
      destruct D as [-> | ->]; destruct e as [[] [] [] [] [] [] [] []]; reflexivity. }
    rewrite S. destruct (starts_with ["%"%char; d] ("%"%char :: a)) eqn:S2.
    + apply starts_iff in S2 as (y & Y). injection Y as ->. cbn [option_map fst snd List.length skipn].
      unfold json_escape; cbn [flat_map]; fold (json_escape y). destruct D as [-> | ->]; reflexivity.
    + rewrite IH. destruct (find ["%"%char; d] a) as [[x y]|]; reflexivity.
  - rewrite find_skip by (now apply percent_free). rewrite IH. cbn [find].
    assert (S : starts_with ["%"%char; d] (c :: a) = false).
    { destruct (starts_with ["%"%char; d] (c :: a)) eqn:S; [|reflexivity]. apply starts_iff in S as (y & Y). injection Y as -> _. now elim N. }
    rewrite S. destruct (find ["%"%char; d] a) as [[x y]|]; reflexivity.
Qed.

Definition fill (fin fout a : str) : str :=
  match find (L "%1") a with
  | Some (x, y) => x ++ fin ++ y
  | None => match find (L "%2") a with Some (x, y) => x ++ fout ++ y | None => a end
  end.

Lemma fill_filled : forall fin fout a, filled fin fout a (fill fin fout a).
Proof.
  intros fin fout a. unfold fill.
  pose proof (find_spec (L "%1") ltac:(discriminate) a) as F1. pose proof (find_spec (L "%2") ltac:(discriminate) a) as F2.
  destruct (find (L "%1") a) as [[x y]|]; [now constructor|].
  destruct (find (L "%2") a) as [[x y]|]; [now constructor 2|]. now constructor 3.
Qed.

Lemma escape_app : forall a b, json_escape (a ++ b) = json_escape a ++ json_escape b.
Proof. intros a b. unfold json_escape. apply flat_map_app. Qed.

Lemma arg_fill : forall fin fout a, arg_text (json_escape fin) (json_escape fout) (json_escape a) = L ", " ++ q ++ json_escape (fill fin fout a) ++ q.
Proof.
  intros fin fout a. unfold arg_text, fill.
  pose proof (find_escape "1"%char (or_introl eq_refl) a) as E1. pose proof (find_escape "2"%char (or_intror eq_refl) a) as E2.
  change (L "%1") with ["%"%char; "1"%char]. change (L "%2") with ["%"%char; "2"%char]. rewrite E1, E2.
  destruct (find ["%"%char; "1"%char] a) as [[x y]|]; cbn [option_map fst snd]; [now rewrite !escape_app|].
  destruct (find ["%"%char; "2"%char] a) as [[x y]|]; cbn [option_map fst snd]; [now rewrite !escape_app|]. reflexivity.
Qed.

(** ** Arguments that are kept *)
Lemma analyze_start : forall a, is_start a (L "analyze") = true <-> analyze a.
Proof.
  intros a. unfold is_start, analyze. split.
  - intros H. apply andb_true_iff in H as [H S]. apply andb_true_iff in H as [D _].
    destruct a as [|c r]; [discriminate|]. cbn [tl] in S. apply starts_iff in S as (x & ->). exists c, x. split; [|reflexivity].
    cbn [dash] in D. apply orb_true_iff in D as [D|D]; apply Ascii.eqb_eq in D; auto.
  - intros (c & x & D & ->). cbn [tl].
    assert (S : starts_with (L "analyze") (L "analyze" ++ x) = true) by (apply starts_iff; eauto). rewrite S.
    destruct D as [-> | ->]; cbn [dash]; cbn; reflexivity.
Qed.

Lemma filter_kept : forall ms l, kept ms l (filter (fun a => negb (ms && is_start a (L "analyze"))) l).
Proof.
  intros ms. induction l as [|a l IH]; [constructor|]. cbn [filter].
  destruct (ms && is_start a (L "analyze")) eqn:E; cbn [negb].
  - apply andb_true_iff in E as [-> E]. constructor 2; auto. now apply analyze_start.
  - constructor 3; [|assumption]. intros -> A. apply analyze_start in A. rewrite A in E. discriminate.
Qed.

(** ** Entries *)
Section Platform.
Context (p : plat).

Definition args_of (o : olist) : list str :=
  filter (fun a => negb (msvc o && is_start a (L "analyze"))) (map remove_quotes (tokenize space (options o))).
Definition entry_of (dir : str) (o : olist) (s : str * str) : entry :=
  let out := M_Objs.obj_name p (cfg o) (fst s) (snd s) in
  {| e_directory := dir; e_file := fst s; e_output := out; e_arguments := compiler o :: map (fill (fst s) out) (args_of o) |}.

Lemma entry_of_for : forall dir o s, entry_for p dir o s (entry_of dir o s).
Proof.
  intros dir o s. unfold entry_for, entry_of; cbn. repeat split. exists (args_of o), (map (fill (fst s) (M_Objs.obj_name p (cfg o) (fst s) (snd s))) (args_of o)).
  split; [apply filter_kept|]. split; [|reflexivity]. induction (args_of o) as [|a l IH]; cbn; constructor; auto. apply fill_filled.
Qed.

(** The text of an entry without its comma. *)
Definition quoted (s : str) : str := q ++ json_escape s ++ q.
Definition body (e : entry) : str :=
  L "{" ++ nl ++ L "    " ++ q ++ L "directory" ++ q ++ L ": " ++ quoted (e_directory e) ++
  L "," ++ nl ++ L "    " ++ q ++ L "file" ++ q ++ L ": " ++ quoted (e_file e) ++
  L "," ++ nl ++ L "    " ++ q ++ L "output" ++ q ++ L ": " ++ quoted (e_output e) ++
  L "," ++ nl ++ L "    " ++ q ++ L "arguments" ++ q ++ L ": [" ++
  quoted (hd [] (e_arguments e)) ++ flat_map (fun a => L ", " ++ quoted a) (tl (e_arguments e)) ++ L "]" ++ nl ++ L "  }".

Lemma entry_body : forall dir o f base, entry_text p dir o f base = L "  " ++ body (entry_of dir o (f, base)) ++ L "," ++ nl.
Proof.
  intros dir o f base. unfold entry_text, body, entry_of, quoted. cbn [e_directory e_file e_output e_arguments fst snd hd tl].
  assert (A : flat_map (arg_text (json_escape f) (json_escape (M_Objs.obj_name p (cfg o) f base))) (escaped_args o) =
              flat_map (fun a => L ", " ++ q ++ json_escape a ++ q) (map (fill f (M_Objs.obj_name p (cfg o) f base)) (args_of o))).
  { unfold escaped_args. fold (args_of o). induction (args_of o) as [|a l IH]; [reflexivity|]. cbn [map flat_map]. rewrite IH, arg_fill. reflexivity. }
  cbn zeta. rewrite A. clear A. change (L "  {") with (L "  " ++ L "{"). change (L "  },") with (L "  }" ++ L ",").
  rewrite <- !app_assoc. reflexivity.
Qed.

Lemma value_quoted : forall s, ascii_text s -> value (JString s) (quoted s).
Proof. intros s A. unfold quoted, q. constructor. now apply json_round. Qed.

Lemma blank_spaces : forall n, blank (repeat " "%char n).
Proof. intros n. apply Forall_forall. intros c I. apply repeat_spec in I. now left. Qed.
Lemma blank_nl : forall n, blank (nl ++ repeat " "%char n).
Proof. intros n. constructor; [right; right; now left|apply blank_spaces]. Qed.

Lemma elements_args : forall a l, Forall ascii_text (a :: l) ->
  elements (map JString (a :: l)) (quoted a ++ flat_map (fun a => L ", " ++ quoted a) l).
Proof.
  intros a l. cut (forall w, blank w -> Forall ascii_text (a :: l) -> elements (map JString (a :: l)) (w ++ quoted a ++ flat_map (fun a => L ", " ++ quoted a) l)).
  { intros H. apply (H []). constructor. }
  revert a. induction l as [|b l IH]; intros a w W F; inversion_clear F as [|? ? F1 F2]; cbn [map flat_map].
  - constructor; [assumption|now apply value_quoted|constructor].
  - change (L ", ") with (L "," ++ L " "). rewrite <- !app_assoc.
    apply (e_more (JString a) w (quoted a) []); [assumption|now apply value_quoted|constructor|].
    apply (IH b (L " ")); [apply (blank_spaces 1)|assumption].
Qed.

Lemma value_body : forall e, e_arguments e <> [] -> ascii_entry e -> value (json_of e) (body e).
Proof.
  intros e N (A1 & A2 & A3 & A4). unfold json_of, body. destruct (e_arguments e) as [|a l]; [congruence|]. cbn [hd tl].
  set (i := nl ++ repeat " "%char 4).
  assert (I : blank i) by apply blank_nl.
  assert (I1 : blank (repeat " "%char 1)) by apply blank_spaces.
  assert (I2 : blank (nl ++ repeat " "%char 2)) by apply blank_nl.
  pose proof (v_object [(L "directory", JString (e_directory e)); (L "file", JString (e_file e)); (L "output", JString (e_output e));
           (L "arguments", JArray (map JString (a :: l)))]
    (i ++ [quote] ++ L "directory" ++ [quote] ++ [] ++ L ":" ++ repeat " "%char 1 ++ quoted (e_directory e) ++ [] ++ L "," ++
     i ++ [quote] ++ L "file" ++ [quote] ++ [] ++ L ":" ++ repeat " "%char 1 ++ quoted (e_file e) ++ [] ++ L "," ++
     i ++ [quote] ++ L "output" ++ [quote] ++ [] ++ L ":" ++ repeat " "%char 1 ++ quoted (e_output e) ++ [] ++ L "," ++
     i ++ [quote] ++ L "arguments" ++ [quote] ++ [] ++ L ":" ++ repeat " "%char 1 ++
       (L "[" ++ (quoted a ++ flat_map (fun a => L ", " ++ quoted a) l) ++ L "]") ++ (nl ++ repeat " "%char 2))) as V.
  match type of V with _ -> value _ ?t => match goal with |- value _ ?t' => replace t' with t end end.
  - apply V. apply m_more; [exact I|reflexivity|constructor|exact I1|now apply value_quoted|constructor|].
    apply m_more; [exact I|reflexivity|constructor|exact I1|now apply value_quoted|constructor|].
    apply m_more; [exact I|reflexivity|constructor|exact I1|now apply value_quoted|constructor|].
    apply m_last; [exact I|reflexivity|constructor|exact I1| |exact I2].
    constructor. now apply elements_args.
  - clear. unfold i. change (repeat " "%char 4) with (L "    "). change (repeat " "%char 2) with (L "  "). change (repeat " "%char 1) with (L " "). change (L ": [") with (L ":" ++ L " " ++ L "["). change (L ": ") with (L ":" ++ L " ").
    change (L "  }") with (L "  " ++ L "}"). unfold nl, q. rewrite <- !app_assoc. reflexivity.
Qed.

(** ** The document *)
Definition full (e : entry) : str := L "  " ++ body e ++ L "," ++ nl.

Lemma drop_last_comma : forall es, es <> [] -> exists t,
  L "[" ++ nl ++ flat_map full es = t ++ L "," ++ nl /\
  match drop_comma (rev (L "[" ++ nl ++ flat_map full es)) with Some b => rev b | None => L "[" ++ nl ++ flat_map full es end = t ++ nl.
Proof.
  intros es N. destruct (exists_last N) as (es' & e & ->).
  exists (L "[" ++ nl ++ flat_map full es' ++ L "  " ++ body e).
  assert (E : L "[" ++ nl ++ flat_map full (es' ++ [e]) = (L "[" ++ nl ++ flat_map full es' ++ L "  " ++ body e) ++ L "," ++ nl).
  { rewrite flat_map_app. cbn [flat_map]. rewrite app_nil_r. unfold full at 2. rewrite <- !app_assoc. reflexivity. }
  split; [exact E|]. rewrite E. set (t := L "[" ++ nl ++ flat_map full es' ++ L "  " ++ body e).
  assert (T : exists c r, rev t = c :: r).
  { destruct (rev t) as [|c r] eqn:R; [|eauto]. apply (f_equal (@rev ascii)) in R. rewrite rev_involutive in R. discriminate. }
  destruct T as (c & r & T). rewrite rev_app_distr. change (rev (L "," ++ nl)) with [newline; ","%char]. cbn [app]. rewrite T.
  change (drop_comma (newline :: ","%char :: c :: r)) with (Some (newline :: c :: r)). rewrite <- T. cbn [rev]. rewrite rev_involutive. reflexivity.
Qed.

Lemma elements_full : forall e es w, blank w -> Forall (fun e => e_arguments e <> [] /\ ascii_entry e) (e :: es) ->
  exists t, flat_map full (e :: es) = t ++ L "," ++ nl /\ elements (map json_of (e :: es)) (w ++ t ++ nl).
Proof.
  intros e es. revert e. induction es as [|e' es IH]; intros e w W F; inversion_clear F as [|? ? [F0 F1] F2].
  - exists (L "  " ++ body e). split; [cbn [flat_map]; rewrite app_nil_r; unfold full; rewrite <- !app_assoc; reflexivity|].
    pose proof (e_last (json_of e) (w ++ repeat " "%char 2) (body e) nl) as X. rewrite <- !app_assoc in *. apply X.
    + apply Forall_app. split; [assumption|apply (blank_spaces 2)].
    + now apply value_body.
    + apply (blank_nl 0).
  - destruct (IH e' nl (blank_nl 0) F2) as (t & Et & Ee).
    exists (L "  " ++ body e ++ L "," ++ nl ++ t). split.
    + change (flat_map full (e :: e' :: es)) with (full e ++ flat_map full (e' :: es)). rewrite Et. unfold full. rewrite <- !app_assoc. reflexivity.
    + pose proof (e_more (json_of e) (w ++ repeat " "%char 2) (body e) [] (map json_of (e' :: es)) (nl ++ t ++ nl)) as X.
      rewrite <- !app_assoc in *. apply X; auto.
      * apply Forall_app. split; [assumption|apply (blank_spaces 2)].
      * now apply value_body.
      * constructor.
Qed.

Lemma document_of : forall es, Forall (fun e => e_arguments e <> [] /\ ascii_entry e) es ->
  document (JArray (map json_of es))
    (match drop_comma (rev (L "[" ++ nl ++ flat_map full es)) with Some b => rev b | None => L "[" ++ nl ++ flat_map full es end ++ L "]" ++ nl).
Proof.
  intros [|e es] F.
  - exists [], (L "[" ++ nl ++ L "]"), nl. split; [constructor|]. split; [apply v_empty, (blank_nl 0)|]. split; [apply (blank_nl 0)|reflexivity].
  - destruct (drop_last_comma (e :: es)) as (t & Et & Ed); [discriminate|]. rewrite Ed.
    destruct (elements_full e es nl (blank_nl 0) F) as (t' & Et' & Ee).
    assert (X : t = L "[" ++ nl ++ t').
    { rewrite Et' in Et. apply (app_inv_tail (L "," ++ nl)). rewrite <- Et, <- !app_assoc. reflexivity. }
    subst t. exists [], (L "[" ++ (nl ++ t' ++ nl) ++ L "]"), nl. split; [constructor|]. split; [now apply v_array|]. split; [apply (blank_nl 0)|].
    rewrite <- !app_assoc. reflexivity.
Qed.
End Platform.
