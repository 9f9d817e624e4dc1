(** Proofs about compiler command lines: what the compiler sees. *)
From Coq Require Import String List Arith Bool Ascii Lia.
From Verif Require Import M_Path M_Args S_Args P_Args M_Drv S_Drv T_Path P_Drv P_Drv2 P_Drv3.
Import ListNotations.
Open Scope list_scope.

Lemma sp_ne : space <> quote /\ space <> bslash. Proof. split; discriminate. Qed.
Lemma lex_app_space : forall n a r, List.length a <= n -> lex (a ++ space :: r) = lex a ++ Plain space :: lex r.
Proof.
  assert (S : forall r, lex (space :: r) = Plain space :: lex r) by (intros [|d r]; reflexivity).
  induction n as [|n IH]; intros a r H; (destruct a as [|c a]; [apply S|cbn in H; try lia]).
  cbn [app lex]. destruct (Ascii.eqb c (ascii_of_nat 34)) eqn:Q; [cbn [app]; now rewrite IH by lia|].
  destruct a as [|d a]; cbn [app].
  - destruct (Ascii.eqb c (ascii_of_nat 92) && Ascii.eqb space (ascii_of_nat 34)) eqn:B; [rewrite andb_comm in B; discriminate|]. now rewrite S.
  - destruct (Ascii.eqb c (ascii_of_nat 92) && Ascii.eqb d (ascii_of_nat 34)); cbn [app].
    + rewrite IH; [reflexivity|cbn in H; lia].
    + change (d :: a ++ space :: r) with ((d :: a) ++ space :: r). rewrite IH; [reflexivity|cbn in *; lia].
Qed.
Definition flips (q : bool) (us : list unit_) : bool := if Nat.even (quotes us) then q else negb q.
Lemma flips_cons q u us : flips q (u :: us) = flips (match u with QuoteMark => negb q | _ => q end) us.
Proof.
  unfold flips, quotes. destruct u; cbn [filter List.length]; try reflexivity. rewrite Nat.even_succ, <- Nat.negb_even.
  destruct (Nat.even _); cbn [negb]; [reflexivity|now rewrite negb_involutive].
Qed.
Lemma fields_whole us : forall q vs, fields space q us = [us] -> flips q us = false ->
  fields space q (us ++ Plain space :: vs) = us :: fields space false vs.
Proof.
  induction us as [|u us IH]; intros q vs E F.
  - cbn [app fields]. unfold flips in F. cbn in F. subst q. now rewrite Ascii.eqb_refl.
  - rewrite flips_cons in F. cbn [app fields] in *.
    assert (K : forall q', (match fields space q' us with h :: t => (u :: h) :: t | [] => [[u]] end) = [u :: us] -> flips q' us = false ->
       match fields space q' (us ++ Plain space :: vs) with h :: t => (u :: h) :: t | [] => [[u]] end = (u :: us) :: fields space false vs).
    { intros q' E' F'. pose proof (fields_ne space q' us) as NE. destruct (fields space q' us) as [|h t] eqn:EF; [now destruct NE|].
      injection E' as -> ->. now rewrite IH. }
    destruct u as [| |c]; [now apply K|now apply K|]. destruct (Ascii.eqb c space && negb q); [discriminate|now apply K].
Qed.
Lemma text_lex_eq t : S_Args.text (lex t) = t. Proof. now apply (text_lex (List.length t)). Qed.

Definition piece (o : str) : Prop := o = [] \/ single o.
Lemma piece_fields o : piece o -> fields space false (lex o) = [lex o] /\ flips false (lex o) = false.
Proof.
  intros [->|(N&F&E)]; [split; reflexivity|]. split; [exact F|]. unfold flips. now rewrite E.
Qed.
Lemma tokenize_piece o r : piece o -> tokenize space (o ++ space :: r) = filter nonempty [o] ++ tokenize space r.
Proof.
  intros P. destruct (piece_fields o P) as [F E]. destruct sp_ne as [N1 N2]. rewrite !tokenize_spec by assumption.
  rewrite (lex_app_space (List.length o)) by lia. rewrite fields_whole by assumption. cbn [map filter]. rewrite text_lex_eq. destruct (nonempty o); reflexivity.
Qed.
Lemma tokenize_last o : piece o -> tokenize space o = filter nonempty [o].
Proof.
  intros P. destruct (piece_fields o P) as [F E]. destruct sp_ne as [N1 N2]. rewrite tokenize_spec by assumption. rewrite F. cbn [map]. now rewrite text_lex_eq.
Qed.
Lemma tokenize_rendered outs r : Forall piece outs -> tokenize space (rendered outs ++ r) = filter nonempty outs ++ tokenize space r.
Proof.
  induction 1 as [|o outs P F IH]; [reflexivity|]. change (rendered (o :: outs)) with ((o ++ [space]) ++ rendered outs).
  rewrite <- !app_assoc. cbn [app]. rewrite tokenize_piece by assumption. rewrite IH, app_assoc. f_equal. cbn [filter app]. destruct (nonempty o); reflexivity.
Qed.
Lemma tokenize_tail l : forall a, piece a -> Forall piece l -> tokenize space (a ++ flat_map (cons space) l) = filter nonempty (a :: l).
Proof.
  induction l as [|b l IH]; intros a P F; cbn [flat_map].
  - rewrite app_nil_r. now apply tokenize_last.
  - inversion F as [|? ? F1 F2]; subst. cbn [app]. rewrite tokenize_piece by assumption. rewrite IH by assumption. cbn [filter app]. destruct (nonempty a); reflexivity.
Qed.

(** The text behind the user's arguments, cut into pieces. *)
Definition extra_text (c : ctx) (p : pass) (show : bool) : str :=
  match p with Preprocess => extra_preprocessor c | _ => [] end ++ extra_common c ++ (if show then L " /showIncludes" else []).
Definition extra_first (c : ctx) (p : pass) : str :=
  match p with Preprocess => match family c with Cl _ => L "/E" | QtRcc | Generic => [] | _ => L "-E" end | _ => [] end.
Definition extra_more (c : ctx) (p : pass) (show : bool) : list str :=
  match p with
  | Preprocess => match family c with
                  | Gcc clang => (if creating_pch c then [L "-dD"] else []) ++ (if clang && rewrite c then [L "-frewrite-includes"] else [])
                  | Cl _ => if creating_pch c then [L "/d1PP"] else []
                  | QtRcc => [L "--list"]
                  | _ => [] end
  | _ => [] end ++
  match family c with
  | Gcc _ => (if colour c then [L "-fdiagnostics-color=always"] else []) ++
             (match mapping c with [] => [] | _ => if local c then [mapped c] else [] end)
  | Cl clang_cl =>
      (match pdb c with Some n => if local c then [] else [L "/Fd" ++ [quote] ++ n ++ [quote]] | None => [] end) ++
      (match mapping c with [] => [] | _ => if clang_cl && local c then [L "-Xclang"; []; mapped c] else [] end)
  | _ => []
  end ++ (if show then [L "/showIncludes"] else []).
Lemma extra_cut c p show : extra_text c p show = extra_first c p ++ flat_map (cons space) (extra_more c p show).
Proof.
  unfold extra_text, extra_more. rewrite !flat_map_app, !app_assoc. f_equal; [|destruct show; reflexivity]. f_equal.
  - unfold extra_first, extra_preprocessor. destruct p; try reflexivity. destruct (family c) as [|clang| | | | | | | | ]; try reflexivity.
    + destruct (creating_pch c); reflexivity.
    + rewrite flat_map_app. f_equal. f_equal; [destruct (creating_pch c); reflexivity|]. destruct (clang && rewrite c); reflexivity.
  - unfold extra_common. destruct (family c) as [clang_cl|clang| | | | | | | | ]; try reflexivity; rewrite flat_map_app; f_equal.
    + destruct (pdb c); [|reflexivity]. destruct (local c); [reflexivity|]. cbn. now rewrite app_nil_r.
    + destruct (mapping c) as [|m0 m] eqn:M.
      * cbn [teq]. destruct clang_cl, (local c); reflexivity.
      * rewrite <- M. assert (T : teq (mapping c) [] = false) by (apply teq_ne; rewrite M; discriminate). rewrite T. cbn [negb andb]. rewrite andb_true_r.
        destruct (clang_cl && local c); [|reflexivity]. cbn [flat_map]. rewrite app_nil_r. reflexivity.
    + destruct (colour c); reflexivity.
    + destruct (mapping c) as [|m0 m] eqn:M.
      * destruct (local c); reflexivity.
      * rewrite <- M. assert (T : teq (mapping c) [] = false) by (apply teq_ne; rewrite M; discriminate). rewrite T. cbn [negb andb].
        destruct (local c); [|reflexivity]. cbn [flat_map]. rewrite app_nil_r. reflexivity.
Qed.
Lemma filter_single l : Forall single l -> filter nonempty l = l.
Proof. induction 1 as [|o l (N&_) F IH]; [reflexivity|]. cbn [filter]. destruct o; [now destruct N|]. cbn [nonempty]. now rewrite IH. Qed.
Lemma extra_added c p show : Forall single (added c p show) ->
  piece (extra_first c p) /\ Forall piece (extra_more c p show) /\ filter nonempty (extra_first c p :: extra_more c p show) = added c p show.
Proof.
  intros F.
  assert (E : filter nonempty (extra_first c p :: extra_more c p show) = added c p show).
  { rewrite <- (filter_single _ F). unfold extra_more, added. clear F.
    change (extra_first c p :: ?l) with ([extra_first c p] ++ l). rewrite !filter_app, !app_assoc. do 2 f_equal.
    - unfold extra_first. destruct p; try reflexivity. destruct (family c) as [|clang| | | | | | | | ]; try reflexivity; rewrite !filter_app; now rewrite ?app_assoc.
    - destruct (family c) as [clang_cl|clang| | | | | | | | ]; try reflexivity. rewrite !filter_app. f_equal. destruct (mapping c); [reflexivity|]. destruct (clang_cl && local c); reflexivity. }
  assert (A : forall o, In o (extra_first c p :: extra_more c p show) -> piece o).
  { intros o I. destruct o as [|x o]; [left; reflexivity|right]. rewrite Forall_forall in F. apply F. rewrite <- E. apply filter_In. split; [exact I|reflexivity]. }
  split; [apply A; left; reflexivity|]. split; [|exact E]. apply Forall_forall. intros o I. apply A. right. exact I.
Qed.

Lemma filter_length {A} (f : A -> bool) l : Forall (fun x => f x = true) (filter f l).
Proof. apply Forall_forall. intros x I. apply filter_In in I. apply I. Qed.
Lemma tokens_nonempty s : Forall (fun t => t <> []) (tokenize space s).
Proof.
  destruct sp_ne as [N1 N2]. rewrite tokenize_spec by assumption. apply Forall_forall. intros t I. apply filter_In in I. destruct I as [_ I]. destruct t; [discriminate|discriminate].
Qed.
Lemma build_spec c p show options : Forall (fine c p) (tokenize space options) ->
  exists outs, edited c p (tokenize space options) outs /\ build_args c p show options = Some (rendered outs ++ extra_text c p show).
Proof.
  intros FI. destruct (line_spec c p (tokenize space options) (tokens_nonempty options) FI) as (ops&outs&E&A&ED&SA).
  exists outs. split; [exact ED|]. unfold build_args, build_ops. rewrite E. cbn [option_map]. f_equal.
  rewrite run_said.
  - cbn [app]. rewrite said_app, SA. unfold said, extra_text. cbn [flat_map txt]. now rewrite app_nil_r.
  - apply Forall_app. split; [exact A|]. repeat (apply Forall_cons; [discriminate|]). apply Forall_nil.
Qed.
