(** More about directives. *)
From Coq Require Import String List Arith NArith ZArith Bool Ascii Lia.
From Verif Require Import M_Path M_Cond M_Tok S_Tok S_Doc P_Tok P_Tok2 P_Tok3 P_Tok4 P_Tok5 P_Tok6 P_Tok7 P_Tok8.
From Verif Require M_Scope.
Import ListNotations.
Open Scope char_scope.
Open Scope nat_scope.

(** * Too many operands *)
Section Many.
Variables (w : world) (file : str).
Hypothesis Hw : sound_world w.
Hypothesis Hf : In "/" file.
Lemma history_many ev : forall ops f st hist r, agrees w st -> List.length ops < f -> List.length hist < 256 -> 256 <= List.length hist + List.length ops ->
  history f w file ev false st (flat_map op_tokens ops ++ r) hist = Fail.
Proof.
  induction ops as [|[g l] ops IH]; intros f st hist r A Lf Lh Lm; (destruct f as [|f]; [cbn in Lf; lia|]); [cbn in Lm; lia|].
  cbn [flat_map]. rewrite <- app_assoc. cbn [op_tokens app fst snd].
  set (tl' := literal_tokens l ++ flat_map op_tokens ops ++ r). cbn [history].
  assert (E1 : is_and (TOp (if g then OOr else OAnd) :: tl') = negb g) by now destruct g.
  assert (E2 : is_or (TOp (if g then OOr else OAnd) :: tl') = g) by now destruct g.
  rewrite E1, E2. replace (negb g || g) with true by now destruct g. replace (false || negb g || g) with true by now destruct g. cbn [andb tl].
  unfold tl'. rewrite strip_literal. rewrite (operand_atom w file Hw Hf ev st (snd l) _ A).
  match goal with |- (if List.length ?x =? _ then _ else _) = _ => set (h := x) end.
  assert (Lh' : List.length h = S (List.length hist)) by (unfold h; rewrite app_length; cbn; lia).
  destruct (Nat.eqb_spec (List.length h) max_history) as [Q|Q]; [reflexivity|]. unfold max_history in Q.
  apply IH; [destruct ev; [now apply note_agrees|exact A]|cbn in Lf; lia|lia|cbn in Lm; lia].
Qed.
Theorem if_expr_many ev st c : agrees w st -> c <> [] -> Forall (fun g => g <> []) c -> 256 <= List.length (concat c) -> if_expr w file ev st (cond_tokens c) = Fail.
Proof.
  intros A Nc Fc Lc. destruct c as [|[|l r] c]; [congruence|inversion Fc; congruence|]. inversion Fc as [|? ? _ Fc']; subst.
  set (ops := map (pair false) r ++ rest_ops c).
  assert (Lo : List.length ops = List.length (concat ((l :: r) :: c)) - 1).
  { unfold ops. rewrite app_length, map_length. rewrite <- (map_length snd (rest_ops c)), (rest_ops_literals _ Fc'). cbn [concat app List.length]. rewrite app_length. lia. }
  unfold if_expr. rewrite (cond_tokens_ops _ _ _ Fc'). fold ops. cbn [history]. rewrite <- (app_nil_r (flat_map op_tokens ops)).
  destruct (not_op_literal l (flat_map op_tokens ops ++ [])) as (E1 & E2). rewrite E1, E2. cbn [orb andb]. rewrite strip_literal. rewrite (operand_atom w file Hw Hf ev st (snd l) _ A). cbn [app].
  rewrite history_many; [reflexivity|destruct ev; [now apply note_agrees|exact A]| |cbn; lia|cbn [List.length]; lia].
  rewrite app_length, app_nil_r. pose proof (literal_tokens_some l). pose proof (op_tokens_length ops). lia.
Qed.
End Many.

(** * A file that includes itself *)
Lemma direct_include f w d fl st p x e : direct (tok f w) w d fl st [TKw (L "include"); TStr p] x e =
  if 128 <=? S d then Fail else bind (open_file (tok f w) w (S d) st (expand_path fl p)) (fun v => none_left [] (emit (fst v) (tok f w d fl (snd v) x e))).
Proof. cbn [direct]. names. reflexivity. Qed.
Lemma cycle_refused w fl h p x : In "/" fl -> head_ok h -> says h (L "include") [TStr p] -> clean w (beside fl p) = fl ->
  content w fl = Some (line_of h (L "include") ++ x) -> forall k d st, 128 <= d + k -> lookup (files st) fl = Some false ->
  yields w d fl st (line_of h (L "include") ++ x) 0 Fail.
Proof.
  intros Hf H Sy Cl Ct. assert (Wn : word_name (L "include")) by word.
  induction k as [|k IH]; intros d st Hd Lk; (apply yields_directive with (args := [TStr p]); [exact H|exact Wn|exact Sy|lia|discriminate|]).
  - exists 0. rewrite direct_include. destruct (Nat.leb_spec 128 (S d)); [reflexivity|lia].
  - destruct (IH (S d) st ltac:(lia) Lk) as (_ & g & Hg). exists g. rewrite direct_include. destruct (128 <=? S d); [reflexivity|].
    unfold open_file. rewrite (expand_beside _ _ Hf), Cl, Lk, Ct, Hg. reflexivity.
Qed.

(** * #once *)
Lemma tok_once w f d fl st s e ts st' g : tok f w d fl st s e = Done (ts, st') -> once_known st g -> once_known st' g.
Proof.
  intros H K. destruct (tok_ext w w (conj eq_refl (conj eq_refl eq_refl)) f d fl st s e ts st' H) as ((_ & _ & _ & X & _) & _). apply once_lookup in K. apply once_lookup. auto.
Qed.
Lemma once_marks w d fl st h k ts st' : sound_world w -> head_ok h -> shaped k -> In "/" fl -> agrees w st -> In fl (map fst (files st)) ->
  runs w d fl st (Command h (L "once") k) ts st' -> once_known st' fl.
Proof.
  intros Hw H Sk Hf A I R. inversion R; subst; try (match goal with E : L _ = L _ |- _ => discriminate E end).
  match goal with Q : runs w d fl ?s0 k ts st' |- _ => destruct (runs_yields w Hw _ _ _ _ _ _ Q Sk Hf A) as (_ & G); assert (K : once_known s0 fl) end.
  { apply once_lookup. cbn [files with_files]. rewrite <- mark_map, mark_lookup. destruct (lookup (files st) fl) eqn:E; [now rewrite seqb_refl, orb_true_r|]. apply lookup_none in E. tauto. }
  destruct (G [] 0 (Done ([], st')) (le_n 0) (yields_end w d fl st' [] 0 (le_n 0))) as (_ & g & Hg). cbn [emit bind fst snd] in Hg. eapply tok_once; eassumption.
Qed.

(** * #import *)
Lemma subst_literally fr x : M_Scope.subst fr (literally x) = M_Scope.Good x.
Proof.
  unfold M_Scope.subst. induction x as [|c x IH]; [reflexivity|]. unfold literally in *. cbn [flat_map]. destruct (ascii_dec c "^") as [->|N1].
  - cbn [app]. cbn [M_Scope.subst_from]. change ("^" =? "^")%char with true. cbn iota. rewrite IH. reflexivity.
  - destruct (ascii_dec c "$") as [->|N2].
    + cbn [app]. cbn [M_Scope.subst_from]. change ("^" =? "^")%char with true. cbn iota. rewrite IH. reflexivity.
    + cbn [app M_Scope.subst_from]. destruct (Ascii.eqb_spec c "^"); [congruence|]. destruct (Ascii.eqb_spec c "$"); [congruence|]. rewrite IH. reflexivity.
Qed.
Lemma import_unset w d fl st h v x e : head_ok h -> says h (L "import") [TId v] -> env w v = None -> e <= List.length x ->
  yields w d fl st (line_of h (L "import") ++ x) e Fail.
Proof.
  intros H Sy Ev Le. apply yields_directive with (args := [TId v]); auto; [word|discriminate|]. exists 0. cbn [direct]. names. unfold import_var. rewrite Ev. reflexivity.
Qed.

(** * Parts that are not taken *)
Lemma untaken w d fl st h c b1 b2 t x e X : sound_world w -> In "/" fl -> agrees w st -> head_ok h -> says h (L "if") (cond_tokens c) -> cond_ok c -> ~ cond_true w fl st c ->
  shaped b1 -> shaped b2 -> tail_shaped t -> e <= List.length x ->
  yields w d fl st (text (If h c b1 t Nil) ++ x) e X -> yields w d fl st (text (If h c b2 t Nil) ++ x) e X.
Proof.
  intros Hw Hf A H Sy Ok Nc S1 S2 St Le Y. cbn [text] in *. rewrite app_nil_r in *. rewrite <- !app_assoc in *.
  destruct (find_part b1 t x e S1 St Le) as (be1 & _ & F1). destruct (find_part b2 t x e S2 St Le) as (be2 & _ & F2).
  assert (E : forall f, direct (tok f w) w d fl st (TKw (L "if") :: cond_tokens c) (text b1 ++ tail_text t ++ x) e = direct (tok f w) w d fl st (TKw (L "if") :: cond_tokens c) (text b2 ++ tail_text t ++ x) e).
  { intro f. cbn [direct]. names. destruct (if_expr_value w fl Hw Hf true st c A Ok) as (v & Ev & Vt). rewrite Ev. cbn [bind]. assert (v = false) by (apply not_true; intro Q; apply Vt in Q; tauto). subst v.
    rewrite F1, F2. reflexivity. }
  assert (L1 : e <= List.length (text b1 ++ tail_text t ++ x)) by (rewrite !app_length; lia). assert (L2 : e <= List.length (text b2 ++ tail_text t ++ x)) by (rewrite !app_length; lia).
  pose proof (yields_directive_inv _ _ _ _ _ _ _ _ _ _ H w_if Sy L1 Y) as (f & D).
  apply yields_directive with (args := cond_tokens c); auto using w_if; [apply Y|]. exists f. now rewrite <- E.
Qed.
