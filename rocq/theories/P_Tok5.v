(** Conditions of #if. *)
From Coq Require Import String List Arith NArith ZArith Bool Ascii Lia.
From Verif Require Import M_Path M_Cond M_Tok S_Tok S_Doc P_Tok P_Tok2 P_Tok3 P_Tok4.
Import ListNotations.
Open Scope char_scope.
Open Scope nat_scope.

Lemma lookup_none {A} (l : list (str * A)) k : lookup l k = None <-> ~ In k (map fst l).
Proof.
  induction l as [|[x v] l IH]; cbn [lookup map fst In]; [tauto|]. destruct (seqb x k) eqn:E.
  - apply seqb_eq in E. split; [discriminate|tauto].
  - rewrite IH. assert (x <> k) by (intro Q; apply seqb_eq in Q; congruence). tauto.
Qed.
Lemma lookup_in {A} (l : list (str * A)) k v : lookup l k = Some v -> In (k, v) l.
Proof.
  induction l as [|[x u] l IH]; cbn [lookup]; [discriminate|]. destruct (seqb x k) eqn:E; [apply seqb_eq in E; intro H; injection H as ->; left; congruence|right; auto].
Qed.
Lemma lookup_app {A} (l r : list (str * A)) k : lookup (l ++ r) k = match lookup l k with Some v => Some v | None => lookup r k end.
Proof. induction l as [|[x u] l IH]; cbn [lookup app]; [reflexivity|]. now destruct (seqb x k). Qed.
Lemma record_some {A} k (x v : A) l : lookup l k = Some v -> record k x l = l.
Proof.
  intro H. unfold record. destruct (in_dec (list_eq_dec ascii_dec) k (map fst l)) as [|N]; [reflexivity|]. apply lookup_none in N. congruence.
Qed.
Lemma record_none {A} k (x : A) l : lookup l k = None -> record k x l = l ++ [(k, x)].
Proof. intro H. apply lookup_none in H. unfold record. destruct (in_dec (list_eq_dec ascii_dec) k (map fst l)); tauto. Qed.

(** The answers recorded so far are the answers. *)
Definition agrees (w : world) (st : state) : Prop :=
  (forall v h, lookup (imported st) v = Some h -> h = hash_of w (env w v)) /\ (forall f b, lookup (checked st) f = Some b -> b = present w f).
Lemma record_agrees {A} (g : str -> A) k l : (forall v h, lookup l v = Some h -> h = g v) -> forall v h, lookup (record k (g k) l) v = Some h -> h = g v.
Proof.
  intros H v h. destruct (lookup l k) eqn:E; [rewrite (record_some _ _ _ _ E); apply H|]. rewrite (record_none _ _ _ E), lookup_app.
  destruct (lookup l v) eqn:Ev; [intro Q; injection Q as <-; now apply H|]. cbn [lookup]. destruct (seqb k v) eqn:Ek; [|discriminate]. apply seqb_eq in Ek. subst v. now intros [= <-].
Qed.
Lemma import_record w st v o : agrees w st -> o = true \/ env w v <> None ->
  import_var w st v o = (true, hash_of w (env w v), with_imported (record v (hash_of w (env w v)) (imported st)) st).
Proof.
  intros (A & _) O. unfold import_var.
  assert (E : match env w v with None => if o then false else true | Some _ => false end = false) by (destruct (env w v), o; destruct O; congruence).
  assert (G : (let h := match env w v with Some s => h32 w s | None => 0%N end in match lookup (imported st) v with Some h0 => ((h0 =? h)%N, h, st) | None => (true, h, {| macros := macros st; imported := imported st ++ [(v, h)]; checked := checked st; files := files st |}) end)
    = (true, hash_of w (env w v), with_imported (record v (hash_of w (env w v)) (imported st)) st)).
  { change (match env w v with Some s => h32 w s | None => 0%N end) with (hash_of w (env w v)). cbv zeta. destruct (lookup (imported st) v) as [h|] eqn:Lk.
    - rewrite (A _ _ Lk), N.eqb_refl, (record_some _ _ _ _ Lk). f_equal. destruct st; reflexivity.
    - now rewrite (record_none _ _ _ Lk). }
  destruct (env w v); [exact G|]. destruct o; [exact G|discriminate].
Qed.
Lemma check_record w st f : agrees w st -> check_file w st f = (present w f, with_checked (record f (present w f) (checked st)) st).
Proof.
  intros (_ & A). unfold check_file. destruct (lookup (checked st) f) as [b|] eqn:Lk.
  - rewrite (A _ _ Lk), (record_some _ _ _ _ Lk). destruct st; reflexivity.
  - now rewrite (record_none _ _ _ Lk).
Qed.

(** * Names of files *)
Lemma upto_none c s : ~ In c s -> upto_last c s = None.
Proof.
  induction s as [|x s IH]; intro N; [reflexivity|]. cbn [upto_last]. rewrite IH by (intro; apply N; now right). destruct (Ascii.eqb_spec x c) as [->|]; [exfalso; apply N; now left|reflexivity].
Qed.
Lemma upto_directory s : In "/" s -> upto_last "/" s = Some (directory s).
Proof.
  induction s as [|x s IH]; [intros []|]. intro H. cbn [upto_last directory]. destruct (in_dec ascii_dec "/" (x :: s)) as [_|]; [|tauto].
  destruct (in_dec ascii_dec "/" s) as [I|N].
  - now rewrite (IH I).
  - rewrite (upto_none _ _ N). destruct H as [->|]; [|tauto]. change ("/" =? "/")%char with true. cbn iota. destruct s as [|y s]; [reflexivity|]. cbn [directory]. destruct (in_dec ascii_dec "/" (y :: s)); [tauto|reflexivity].
Qed.
Lemma expand_beside file p : In "/" file -> expand_path file p = beside file p.
Proof.
  intro H. unfold expand_path, beside. rewrite (upto_directory _ H). destruct p as [|c p]; cbn [peek hd].
  - change (nul =? "/")%char with false. destruct (ascii_dec " " "/"); [discriminate|reflexivity].
  - destruct (Ascii.eqb_spec c "/"), (ascii_dec c "/"); congruence.
Qed.

(** * Operands *)
Definition atom_b (w : world) (file : str) (ms : list str) (a : atom) : bool :=
  match a with
  | Macro m => among ms m || among (predef w) m
  | Variable_set v => match env w v with Some _ => true | None => false end
  | File_there p => present w (beside file p)
  end.
Definition literal_b w file ms (l : literal) : bool := xorb (fst l) (atom_b w file ms (snd l)).
Lemma atom_b_true w file st a : atom_b w file (macros st) a = true <-> atom_true w file st a.
Proof.
  destruct a; cbn [atom_b atom_true]; [|destruct (env w v); split; congruence|tauto]. now rewrite orb_true_iff, !among_in.
Qed.
Lemma literal_b_true w file st l : literal_b w file (macros st) l = true <-> literal_true w file st l.
Proof.
  unfold literal_b, literal_true. destruct l as [[] a]; cbn [fst snd xorb]; rewrite <- (atom_b_true w file st a); [|now destruct (atom_b w file (macros st) a)].
  destruct (atom_b w file (macros st) a); cbn; split; congruence.
Qed.
Lemma note_macros w file st a : macros (note_atom w file st a) = macros st. Proof. destruct a; reflexivity. Qed.
Lemma note_files w file st a : files (note_atom w file st a) = files st. Proof. destruct a; reflexivity. Qed.
Lemma note_agrees w file st a : agrees w st -> agrees w (note_atom w file st a).
Proof.
  intros (A & B). destruct a as [m|v|p]; cbn [note_atom]; [now split| |]; split; cbn [imported checked with_imported with_checked]; auto.
  - apply (record_agrees (fun v => hash_of w (env w v))); exact A.
  - apply (record_agrees (present w)); exact B.
Qed.
Lemma note_all_macros w file l : forall st, macros (fold_left (note_atom w file) l st) = macros st.
Proof. induction l as [|a l IH]; intro st; [reflexivity|]. cbn [fold_left]. now rewrite IH, note_macros. Qed.
Lemma note_all_agrees w file l : forall st, agrees w st -> agrees w (fold_left (note_atom w file) l st).
Proof. induction l as [|a l IH]; intros st A; [exact A|]. cbn [fold_left]. now apply IH, note_agrees. Qed.

Section Cond.
Variables (w : world) (file : str).
Hypothesis Hw : sound_world w.
Hypothesis Hf : In "/" file.

Lemma operand_atom ev st a r : agrees w st ->
  operand w file ev st (atom_tokens a ++ r) = Some (ev && atom_b w file (macros st) a, r, if ev then note_atom w file st a else st).
Proof.
  intro A. destruct a as [m|v|p]; cbn [atom_tokens app operand].
  - unfold defined. cbn [atom_b note_atom]. now destruct ev.
  - change (seqb (L "exists") (L "exists")) with true. cbn [is_left is_right]. change (Ascii.eqb "(" "(" && Ascii.eqb ")" ")") with true. cbn iota.
    destruct ev; [|reflexivity]. rewrite (import_record w st v true A) by now left. cbn [andb atom_b note_atom]. do 3 f_equal.
    destruct (env w v) as [x|] eqn:E; cbn [hash_of]; [|reflexivity]. destruct Hw as (_ & Hz). apply negb_true_iff, N.eqb_neq. eauto.
  - change (seqb (L "file_exists") (L "exists")) with false. change (seqb (L "file_exists") (L "file_exists")) with true. cbn [is_left is_right].
    change (Ascii.eqb "(" "(" && Ascii.eqb ")" ")") with true. cbn iota. destruct ev; [|reflexivity]. rewrite (expand_beside _ _ Hf), (check_record w st _ A). reflexivity.
Qed.

(** A condition as a list of operators and operands. *)
Definition op_code (first_of_group : bool) : N := if first_of_group then 4%N else 2%N.
Definition op_tokens (x : bool * literal) : list token := TOp (if fst x then OOr else OAnd) :: literal_tokens (snd x).
Definition bit (b : bool) : N := if b then 1%N else 0%N.

Lemma not_op_literal l r : is_and (literal_tokens l ++ r) = false /\ is_or (literal_tokens l ++ r) = false.
Proof. destruct l as [[] []]; cbn; auto. Qed.
Lemma strip_literal l r : match literal_tokens l ++ r with TOp ONot :: y => (true, y) | _ => (false, literal_tokens l ++ r) end = (fst l, atom_tokens (snd l) ++ r).
Proof. destruct l as [[] []]; reflexivity. Qed.

Lemma history_rest ev : forall ops f st hist r, agrees w st -> is_and r = false -> is_or r = false -> List.length ops < f ->
  List.length hist + List.length ops <= 255 ->
  history f w file ev false st (flat_map op_tokens ops ++ r) hist =
  Done (hist ++ map (fun x => N.lor (op_code (fst x)) (bit (ev && literal_b w file (macros st) (snd x)))) ops, r,
        if ev then fold_left (note_atom w file) (map (fun x => snd (snd x)) ops) st else st).
Proof.
  induction ops as [|[g l] ops IH]; intros f st hist r A Na No Lf Lh; (destruct f as [|f]; [cbn in Lf; lia|]).
  - cbn [flat_map app history]. rewrite Na, No. cbn [orb map fold_left]. rewrite app_nil_r. now destruct ev.
  - cbn [flat_map]. rewrite <- app_assoc. cbn [op_tokens app fst snd].
    set (tl' := literal_tokens l ++ flat_map op_tokens ops ++ r). cbn [history].
    assert (E1 : is_and (TOp (if g then OOr else OAnd) :: tl') = negb g) by now destruct g.
    assert (E2 : is_or (TOp (if g then OOr else OAnd) :: tl') = g) by now destruct g.
    rewrite E1, E2. replace (negb g || g) with true by now destruct g. replace (false || negb g || g) with true by now destruct g. cbn [andb tl].
    unfold tl'. rewrite strip_literal. rewrite (operand_atom ev st (snd l) _ A).
    set (st' := if ev then note_atom w file st (snd l) else st).
    assert (V : (if ev && fst l then negb (ev && atom_b w file (macros st) (snd l)) else ev && atom_b w file (macros st) (snd l)) = ev && literal_b w file (macros st) l).
    { unfold literal_b. destruct ev, (fst l); cbn; try reflexivity; now destruct (atom_b w file (macros st) (snd l)). }
    rewrite V. assert (Ho : (if negb g then 2%N else 4%N) = op_code g) by now destruct g. rewrite Ho.
    change (if ev && literal_b w file (macros st) l then 1%N else 0%N) with (bit (ev && literal_b w file (macros st) l)).
    set (h := hist ++ [N.lor (op_code g) (bit (ev && literal_b w file (macros st) l))]).
    assert (Lh' : List.length h = S (List.length hist)) by (unfold h; rewrite app_length; cbn; lia).
    destruct (Nat.eqb_spec (List.length h) max_history) as [Q|_]; [unfold max_history in Q; cbn [List.length] in Lh; lia|].
    rewrite IH; [|unfold st'; destruct ev; [now apply note_agrees|exact A]|exact Na|exact No|cbn in Lf; lia|cbn [List.length] in Lh; lia].
    assert (M : macros st' = macros st) by (unfold st'; destruct ev; [apply note_macros|reflexivity]). rewrite M. unfold h. rewrite <- app_assoc. cbn [app map fold_left fst snd]. unfold st'. now destruct ev.
Qed.

Lemma history_first ev l ops f st r : agrees w st -> is_and r = false -> is_or r = false -> S (List.length ops) < f -> S (List.length ops) <= 255 ->
  history f w file ev true st (literal_tokens l ++ flat_map op_tokens ops ++ r) [] =
  Done (bit (ev && literal_b w file (macros st) l) :: map (fun x => N.lor (op_code (fst x)) (bit (ev && literal_b w file (macros st) (snd x)))) ops, r,
        if ev then fold_left (note_atom w file) (snd l :: map (fun x => snd (snd x)) ops) st else st).
Proof.
  intros A Na No Lf Lh. destruct f as [|f]; [lia|]. cbn [history]. destruct (not_op_literal l (flat_map op_tokens ops ++ r)) as (E1 & E2). rewrite E1, E2. cbn [orb andb].
  rewrite strip_literal. rewrite (operand_atom ev st (snd l) _ A).
  assert (V : (if ev && fst l then negb (ev && atom_b w file (macros st) (snd l)) else ev && atom_b w file (macros st) (snd l)) = ev && literal_b w file (macros st) l).
  { unfold literal_b. destruct ev, (fst l); cbn; try reflexivity; now destruct (atom_b w file (macros st) (snd l)). }
  rewrite V. change (if ev && literal_b w file (macros st) l then 1%N else 0%N) with (bit (ev && literal_b w file (macros st) l)). cbn [app].
  set (st' := if ev then note_atom w file st (snd l) else st).
  rewrite history_rest; [|unfold st'; destruct ev; [now apply note_agrees|exact A]|exact Na|exact No|lia|cbn; lia].
  assert (M : macros st' = macros st) by (unfold st'; destruct ev; [apply note_macros|reflexivity]). rewrite M. cbn [app fold_left map]. unfold st'. now destruct ev.
Qed.

(** * The value *)
Fixpoint eval_ops (acc : bool) (ops : list (bool * bool)) : bool :=
  match ops with
  | [] => acc
  | (false, b) :: r => eval_ops (acc && b) r
  | (true, b) :: r => acc || eval_ops b r
  end.
Definition or_fold (l : list N) : bool := fold_left (fun b y => b || N.testbit y 0) l false.
Lemma or_fold_acc l b : fold_left (fun b y => b || N.testbit y 0) l b = b || or_fold l.
Proof.
  unfold or_fold. revert b. induction l as [|y l IH]; intro b; cbn [fold_left]; [now rewrite orb_false_r|]. rewrite IH, (IH (false || N.testbit y 0)). cbn [orb]. symmetry. apply orb_assoc.
Qed.
Lemma or_fold_cons y l : or_fold (y :: l) = N.testbit y 0 || or_fold l.
Proof. unfold or_fold at 1. cbn [fold_left]. now rewrite or_fold_acc. Qed.
Lemma apply_and_value ops : forall g b : bool, or_fold (apply_and (if g then N.lor 4 (bit b) else bit b) (map (fun x : bool * bool => N.lor (op_code (fst x)) (bit (snd x))) ops)) = eval_ops b ops.
Proof.
  induction ops as [|[g' b'] ops IH]; intros g b.
  - destruct g, b; reflexivity.
  - cbn [map apply_and fst snd eval_ops]. destruct g'.
    + replace (N.testbit (N.lor (op_code true) (bit b')) 1) with false by now destruct b'. rewrite or_fold_cons. pose proof (IH true b') as Q. cbn iota in Q. change (op_code true) with 4%N. rewrite Q. clear Q.
      f_equal. destruct g, b; reflexivity.
    + replace (N.testbit (N.lor (op_code false) (bit b')) 1) with true by now destruct b'. rewrite or_fold_cons. rewrite <- (IH false (b && b')). destruct g, b, b'; reflexivity.
Qed.
Definition group_ops (g : list literal) : list (bool * literal) := match g with [] => [] | l :: r => (true, l) :: map (pair false) r end.
Definition rest_ops (c : cond) : list (bool * literal) := flat_map group_ops c.
Lemma eval_app_and r : forall acc ops, eval_ops acc (map (pair false) r ++ ops) = eval_ops (acc && forallb (fun b => b) r) ops.
Proof.
  induction r as [|b r IH]; intros acc ops; cbn [map app forallb eval_ops]; [now rewrite andb_true_r|]. now rewrite IH, andb_assoc.
Qed.
Lemma eval_or ops acc : (match ops with (false, _) :: _ => False | _ => True end) -> eval_ops acc ops = acc || eval_ops false ops.
Proof. destruct ops as [|[[] b] ops]; cbn; intro H; [now destruct acc|reflexivity|tauto]. Qed.
Lemma groups_value (val : literal -> bool) c : Forall (fun g => g <> []) c ->
  eval_ops false (map (fun x => (fst x, val (snd x))) (rest_ops c)) = existsb (forallb val) c.
Proof.
  induction 1 as [|g c Ng Fc IH]; [reflexivity|]. destruct g as [|l r]; [congruence|]. cbn [rest_ops flat_map group_ops existsb forallb].
  rewrite <- IH. change (flat_map group_ops c) with (rest_ops c). cbn [app map fst snd eval_ops orb]. rewrite map_app, map_map. cbn [fst snd].
  replace (map (fun x => (false, val x)) r) with (map (pair false) (map val r)) by now rewrite map_map. rewrite eval_app_and.
  replace (forallb (fun b => b) (map val r)) with (forallb val r) by (clear; induction r as [|x r IH]; cbn; congruence).
  apply eval_or. unfold rest_ops. destruct c as [|[|x y] c]; cbn; auto. inversion Fc; congruence.
Qed.
Lemma existsb_true (P : literal -> Prop) (val : literal -> bool) c : (forall l, val l = true <-> P l) -> existsb (forallb val) c = true <-> Exists (Forall P) c.
Proof.
  intro H. rewrite existsb_exists, Exists_exists. split; intros (g & I & F); exists g; split; auto.
  - rewrite forallb_forall in F. apply Forall_forall. intros. apply H. auto.
  - rewrite Forall_forall in F. apply forallb_forall. intros. apply H. auto.
Qed.

(** * Tokens of a condition *)
Lemma joined_and l r : joined OAnd (map literal_tokens (l :: r)) = literal_tokens l ++ flat_map op_tokens (map (pair false) r).
Proof. unfold joined. cbn [map]. f_equal. induction r as [|x r IH]; [reflexivity|]. cbn [map flat_map op_tokens fst snd]. now rewrite IH. Qed.
Lemma cond_tokens_ops l r c : Forall (fun g => g <> []) c ->
  cond_tokens ((l :: r) :: c) = literal_tokens l ++ flat_map op_tokens (map (pair false) r ++ rest_ops c).
Proof.
  intro F. unfold cond_tokens. change (map (fun g => joined OAnd (map literal_tokens g)) ((l :: r) :: c)) with (joined OAnd (map literal_tokens (l :: r)) :: map (fun g => joined OAnd (map literal_tokens g)) c).
  rewrite joined_and. unfold joined at 1. rewrite flat_map_app, <- app_assoc. do 2 f_equal. induction F as [|g c Ng F IH]; [reflexivity|].
  destruct g as [|x y]; [congruence|]. cbn [rest_ops flat_map]. change (map (fun g => joined OAnd (map literal_tokens g)) ((x :: y) :: c)) with (joined OAnd (map literal_tokens (x :: y)) :: map (fun g => joined OAnd (map literal_tokens g)) c).
  rewrite joined_and. cbn [flat_map]. fold (rest_ops c). rewrite flat_map_app, <- IH. cbn [group_ops flat_map]. unfold op_tokens at 2. cbn [fst snd app]. rewrite <- !app_assoc. reflexivity.
Qed.
Lemma rest_ops_literals c : Forall (fun g => g <> []) c -> map snd (rest_ops c) = concat c.
Proof.
  induction 1 as [|g c Ng F IH]; [reflexivity|]. destruct g as [|x y]; [congruence|]. cbn [rest_ops flat_map concat group_ops]. fold (rest_ops c). rewrite map_app, IH. cbn [map snd]. rewrite map_map. cbn [snd].
  now rewrite map_id.
Qed.

Lemma literal_tokens_some l : 1 <= List.length (literal_tokens l).
Proof. destruct l as [[] []]; cbn; lia. Qed.
Lemma op_tokens_length ops : List.length ops <= List.length (flat_map op_tokens ops).
Proof. induction ops as [|x ops IH]; [cbn; lia|]. cbn [flat_map]. rewrite app_length. cbn [op_tokens List.length]. lia. Qed.

Theorem if_expr_value ev st c : agrees w st -> cond_ok c ->
  exists b, if_expr w file ev st (cond_tokens c) = Done (b, [], if ev then note_cond w file st c else st) /\ (b = true <-> ev = true /\ cond_true w file st c).
Proof.
  intros A (Nc & Fc & Lc). destruct c as [|[|l r] c]; [congruence|inversion Fc; congruence|]. inversion Fc as [|? ? _ Fc']; subst.
  set (ops := map (pair false) r ++ rest_ops c). set (val := fun l => ev && literal_b w file (macros st) l).
  assert (Lo : List.length ops = List.length (concat ((l :: r) :: c)) - 1).
  { unfold ops. rewrite app_length, map_length. rewrite <- (map_length snd (rest_ops c)), (rest_ops_literals _ Fc'). cbn [concat app List.length]. rewrite app_length. lia. }
  assert (Lc1 : 1 <= List.length (concat ((l :: r) :: c))) by (cbn; lia).
  assert (Ll : map (fun x => snd (snd x)) ops = map snd (r ++ concat c)).
  { unfold ops. rewrite <- (rest_ops_literals _ Fc'). rewrite !map_app, !map_map. reflexivity. }
  unfold if_expr. rewrite (cond_tokens_ops _ _ _ Fc'). fold ops.
  pose proof (history_first ev l ops (S (List.length (literal_tokens l ++ flat_map op_tokens ops))) st [] A eq_refl eq_refl) as H. rewrite app_nil_r in H. rewrite H.
  2:{ rewrite app_length. pose proof (literal_tokens_some l). pose proof (op_tokens_length ops). lia. }
  2:{ lia. }
  cbn [bind]. eexists. split.
  - unfold note_cond. cbn [concat map app fold_left]. rewrite Ll. reflexivity.
  - cbn [verdict]. fold (or_fold (apply_and (bit (ev && literal_b w file (macros st) l)) (map (fun x => N.lor (op_code (fst x)) (bit (ev && literal_b w file (macros st) (snd x)))) ops))).
    pose proof (apply_and_value (map (fun x => (fst x, val (snd x))) ops) false (val l)) as V. rewrite map_map in V. cbn [fst snd] in V. unfold val in V. rewrite V. clear V.
    assert (G : eval_ops (val l) (map (fun x => (fst x, val (snd x))) ops) = existsb (forallb val) ((l :: r) :: c)).
    { rewrite <- groups_value by exact Fc. cbn [rest_ops flat_map group_ops app map fst snd eval_ops orb]. reflexivity. }
    unfold val in G at 1 2. rewrite G. unfold cond_true. destruct ev.
    + rewrite (existsb_true (literal_true w file st)); [tauto|]. intro l'. unfold val. cbn [andb]. apply literal_b_true.
    + split; [|intros (? & _); discriminate]. intro E. exfalso. apply existsb_exists in E as (g & I & F). rewrite Forall_forall in Fc. specialize (Fc g I). destruct g as [|x g]; [congruence|]. cbn in F. discriminate.
Qed.
End Cond.
