(** What the parse has learnt from outside is recorded, and nothing else matters. *)
From Coq Require Import String List Arith NArith ZArith Bool Ascii Lia.
From Verif Require Import M_Path M_Cond M_Tok S_Tok S_Doc P_Tok P_Tok4 P_Tok5.
Import ListNotations.
Open Scope char_scope.
Open Scope nat_scope.

Definition keys {A} (l : list (str * A)) : list str := map fst l.
(** The record grows. *)
Definition ext (w : world) (st st' : state) : Prop :=
  incl (keys (imported st)) (keys (imported st')) /\ incl (keys (checked st)) (keys (checked st')) /\ incl (keys (files st)) (keys (files st')) /\
  (forall f, lookup (files st) f = Some true -> lookup (files st') f = Some true) /\ (agrees w st -> agrees w st') /\ (true_record w st -> true_record w st').
Lemma ext_refl w st : ext w st st. Proof. unfold ext. auto 10 using incl_refl. Qed.
Lemma ext_trans w a b c : ext w a b -> ext w b c -> ext w a c.
Proof. intros (A1 & A2 & A3 & A4 & A5 & A6) (B1 & B2 & B3 & B4 & B5 & B6). unfold ext. split; [|split; [|split; [|split; [|split]]]]; eauto using incl_tran. Qed.

Lemma keys_app {A} (l r : list (str * A)) : incl (keys l) (keys (l ++ r)).
Proof. unfold keys. rewrite map_app. apply incl_appl, incl_refl. Qed.
Lemma lookup_key {A} (l : list (str * A)) k v : lookup l k = Some v -> In k (keys l).
Proof. intro H. apply lookup_in in H. apply (in_map fst) in H. exact H. Qed.

Lemma same_before w st st' w1 w2 : ext w st st' -> same_on st' w1 w2 -> same_on st w1 w2.
Proof. intros (A & B & C & _) (D & E & F). split; [|split]; auto. Qed.

Section Two.
Variables w1 w2 : world.
Hypothesis Tools : same_tools w1 w2.

Lemma import_ext st v o h st' : import_var w1 st v o = (true, h, st') -> ext w1 st st' /\ In v (keys (imported st')) /\ (env w1 v = env w2 v -> import_var w2 st v o = (true, h, st')).
Proof.
  destruct Tools as (_ & Eh & _). unfold import_var. rewrite <- Eh.
  assert (G : (let x := match env w1 v with Some s => h32 w1 s | None => 0%N end in match lookup (imported st) v with Some h0 => ((h0 =? x)%N, x, st) | None => (true, x, {| macros := macros st; imported := imported st ++ [(v, x)]; checked := checked st; files := files st |}) end) = (true, h, st')
    -> ext w1 st st' /\ In v (keys (imported st'))).
  { cbv zeta. destruct (lookup (imported st) v) as [h0|] eqn:E; intro Q.
    - injection Q as _ _ <-. split; [apply ext_refl|eapply lookup_key; eassumption].
    - injection Q as _ <-. split.
      + unfold ext. cbn [imported checked files]. split; [apply keys_app|]. split; [apply incl_refl|]. split; [apply incl_refl|]. split; [auto|]. split; intros (A1 & A2); (split; [|exact A2]); cbn [imported].
        * rewrite <- (record_none _ _ _ E). apply (record_agrees (fun v => hash_of w1 (env w1 v))). exact A1.
        * intros v0 h0 I. apply in_app_or in I as [I|[I|[]]]; [now apply A1|]. now injection I as <- <-.
      + cbn [imported]. unfold keys. rewrite map_app. apply in_or_app. right. now left. }
  intro H. assert (K : ext w1 st st' /\ In v (keys (imported st'))).
  { destruct (env w1 v); [now apply G|]. destruct o; [now apply G|discriminate]. }
  destruct K as (K1 & K2). split; [exact K1|]. split; [exact K2|]. intros <-. exact H.
Qed.
Lemma import_optional st v : exists h b st', import_var w1 st v true = (b, h, st') /\ ext w1 st st' /\ In v (keys (imported st')) /\ (env w1 v = env w2 v -> import_var w2 st v true = (b, h, st')).
Proof.
  destruct Tools as (_ & Eh & _). destruct (import_var w1 st v true) as [[b h] st'] eqn:E. exists h, b, st'. split; [reflexivity|]. destruct b; [now apply import_ext|].
  assert (K : st' = st /\ In v (keys (imported st))).
  { unfold import_var in E. destruct (env w1 v); destruct (lookup (imported st) v) eqn:Lk; try discriminate; injection E as _ _ <-; (split; [reflexivity|eapply lookup_key; eassumption]). }
  destruct K as (-> & K). split; [apply ext_refl|]. split; [exact K|]. intro Q. unfold import_var in *. rewrite <- Q, <- Eh. exact E.
Qed.
Lemma check_ext st f b st' : check_file w1 st f = (b, st') -> ext w1 st st' /\ (same_on st' w1 w2 -> check_file w2 st f = (b, st')).
Proof.
  unfold check_file. destruct (lookup (checked st) f) as [x|] eqn:E; intro Q; injection Q as <- <-.
  - split; [apply ext_refl|reflexivity].
  - split.
    + unfold ext. cbn [imported checked files]. split; [apply incl_refl|]. split; [apply keys_app|]. split; [apply incl_refl|]. split; [auto|]. split; intros (A1 & A2); (split; [exact A1|]); cbn [checked].
      * rewrite <- (record_none _ _ _ E). apply (record_agrees (present w1)). exact A2.
      * intros v0 h0 I. apply in_app_or in I as [I|[I|[]]]; [now apply A2|]. now injection I as <- <-.
    + intros (_ & H & _). rewrite <- H; [reflexivity|]. cbn [checked]. unfold keys. rewrite map_app. apply in_or_app. right. now left.
Qed.
Lemma defined_same st m : defined w1 st m = defined w2 st m.
Proof. unfold defined. destruct Tools as (_ & _ & ->). reflexivity. Qed.
Lemma operand_ext file ev st ts x r st' : operand w1 file ev st ts = Some (x, r, st') -> ext w1 st st' /\ (same_on st' w1 w2 -> operand w2 file ev st ts = Some (x, r, st')).
Proof.
  unfold operand. destruct ts as [|[] ts]; try discriminate.
  - destruct (seqb k (L "exists")).
    + destruct ts as [|a [|[] [|b ts]]]; try discriminate. destruct (is_left a && is_right b); [|discriminate]. destruct ev; [|intro Q; injection Q as <- <- <-; split; [apply ext_refl|reflexivity]].
      destruct (import_optional st s) as (h & ok & st1 & E & X & K & Sm). rewrite E. intro Q. injection Q as <- <- <-. split; [exact X|]. intros (H & _). rewrite (Sm (H _ K)). reflexivity.
    + destruct (seqb k (L "file_exists")); [|discriminate].
      destruct ts as [|a [|[] [|b ts]]]; try discriminate. destruct (is_left a && is_right b); [|discriminate]. destruct ev; [|intro Q; injection Q as <- <- <-; split; [apply ext_refl|reflexivity]].
      destruct (check_file w1 st (expand_path file s)) as [y st1] eqn:E. apply check_ext in E as (X & Sm). intro Q. injection Q as <- <- <-. split; [exact X|]. intro H. rewrite (Sm H). reflexivity.
  - intro Q. injection Q as <- <- <-. split; [apply ext_refl|]. intros _. now rewrite defined_same.
Qed.
Lemma history_ext file ev f : forall first st ts h x r st', history f w1 file ev first st ts h = Done (x, r, st') ->
  ext w1 st st' /\ (same_on st' w1 w2 -> history f w2 file ev first st ts h = Done (x, r, st')).
Proof.
  induction f as [|f IH]; intros first st ts h x r st' H; [discriminate|]. cbn [history] in *.
  destruct (first || is_and ts || is_or ts); [|injection H as <- <- <-; split; [apply ext_refl|reflexivity]].
  destruct (first && (is_and ts || is_or ts)); [discriminate|].
  set (ts1 := if is_and ts || is_or ts then tl ts else ts) in *.
  destruct (match ts1 with TOp ONot :: r => (true, r) | _ => (false, ts1) end) as [neg ts2].
  destruct (operand w1 file ev st ts2) as [[[y ts3] st3]|] eqn:O; [|discriminate]. apply operand_ext in O as (X & Sm).
  destruct first.
  - apply IH in H as (X2 & H2). split; [eapply ext_trans; eassumption|]. intro Q. rewrite (Sm (same_before _ _ _ _ _ X2 Q)). now apply H2.
  - destruct (_ =? max_history) eqn:M; [discriminate|]. apply IH in H as (X2 & H2). split; [eapply ext_trans; eassumption|]. intro Q. rewrite (Sm (same_before _ _ _ _ _ X2 Q)). rewrite M. now apply H2.
Qed.
Lemma if_expr_ext file ev st ts b r st' : if_expr w1 file ev st ts = Done (b, r, st') -> ext w1 st st' /\ (same_on st' w1 w2 -> if_expr w2 file ev st ts = Done (b, r, st')).
Proof.
  unfold if_expr. destruct (history (S (List.length ts)) w1 file ev true st ts []) as [[[h r0] st0]| |] eqn:E; cbn [bind]; try discriminate. intro H. injection H as <- <- <-.
  apply history_ext in E as (X & Sm). split; [exact X|]. intro Q. rewrite (Sm Q). reflexivity.
Qed.
Lemma branches_ext file e f : forall k result block s st bl r st', branches f w1 file e k result block s st = Done (bl, r, st') ->
  ext w1 st st' /\ (same_on st' w1 w2 -> branches f w2 file e k result block s st = Done (bl, r, st')).
Proof.
  induction f as [|f IH]; intros k result block s st bl r st' H; [discriminate|]. cbn [branches] in *. destruct k.
  - injection H as <- <- <-. split; [apply ext_refl|reflexivity].
  - destruct (find_endif false s e) as [[[r0 be] k0]| |]; cbn [bind] in *; try discriminate. injection H as <- <- <-. split; [apply ext_refl|reflexivity].
  - destruct (line (List.length s) (List.length (next_line e s)) s) as [args| |]; cbn [bind] in *; try discriminate.
    destruct (if_expr w1 file (negb result) st args) as [[[b rest] st1]| |] eqn:I1; cbn [bind] in *; try discriminate. apply if_expr_ext in I1 as (X1 & S1).
    destruct (find_endif true (next_line e s) e) as [[[r0 be] k0]| |] eqn:Fe; cbn [bind] in *; try discriminate. destruct rest; [|discriminate].
    apply IH in H as (X2 & S2). split; [eapply ext_trans; eassumption|]. intro Q. rewrite (S1 (same_before _ _ _ _ _ X2 Q)). cbn [bind]. now apply S2.
Qed.

Definition tracks (r1 r2 : nat -> str -> state -> str -> nat -> res (list token * state)) : Prop :=
  forall d fl st s e ts st', r1 d fl st s e = Done (ts, st') -> ext w1 st st' /\ (same_on st' w1 w2 -> r2 d fl st s e = Done (ts, st')).
Definition follows (st : state) (x1 x2 : res (list token * state)) : Prop :=
  forall ts st', x1 = Done (ts, st') -> ext w1 st st' /\ (same_on st' w1 w2 -> x2 = Done (ts, st')).
Lemma follows_fail st x2 : follows st Fail x2. Proof. intros ts st' H. discriminate. Qed.
Lemma follows_emit st ts x1 x2 : follows st x1 x2 -> follows st (emit ts x1) (emit ts x2).
Proof.
  intros F us st' H. destruct x1 as [[u st0]| |]; try discriminate. cbn in H. injection H as <- <-. destruct (F _ _ eq_refl) as (X & Sm). split; [exact X|]. intro Q. now rewrite (Sm Q).
Qed.
Lemma follows_none st r x1 x2 : follows st x1 x2 -> follows st (none_left r x1) (none_left r x2).
Proof. intro F. destruct r; [exact F|apply follows_fail]. Qed.
Lemma follows_bind st x1 x2 g1 g2 : follows st x1 x2 -> (forall v, follows (snd v) (g1 v) (g2 v)) -> follows st (bind x1 g1) (bind x2 g2).
Proof.
  intros F G ts st' H. destruct x1 as [[u st0]| |]; try discriminate. cbn [bind] in H. destruct (F _ _ eq_refl) as (X & Sm). destruct (G _ _ _ H) as (X2 & S2). cbn [snd] in X2. split; [eapply ext_trans; eassumption|].
  intro Q. rewrite (Sm (same_before _ _ _ _ _ X2 Q)). cbn [bind]. now apply S2.
Qed.
Lemma follows_ext st st1 x1 x2 : ext w1 st st1 -> follows st1 x1 x2 -> follows st x1 x2.
Proof. intros X F ts st' H. destruct (F _ _ H) as (X2 & Sm). split; [eapply ext_trans; eassumption|exact Sm]. Qed.

Lemma mark_keys f l : keys (mark_once f l) = keys l.
Proof. unfold keys, mark_once. rewrite map_map. apply map_ext. intros [k v]. cbn. now destruct (seqb k f). Qed.
Lemma mark_lookup f l g : lookup (mark_once f l) g = match lookup l g with Some b => Some (b || seqb f g) | None => None end.
Proof.
  induction l as [|[k v] l IH]; [reflexivity|]. unfold mark_once in *. cbn [map fst lookup]. destruct (seqb k f) eqn:E.
  - apply seqb_eq in E. subst k. cbn [lookup]. destruct (seqb f g); [now rewrite orb_true_r|exact IH].
  - cbn [lookup]. destruct (seqb k g) eqn:E2; [|exact IH]. apply seqb_eq in E2. subst k. assert (N : seqb f g = false) by (destruct (seqb f g) eqn:Q; [apply seqb_eq in Q; subst; now rewrite seqb_refl in E|reflexivity]). now rewrite N, orb_false_r.
Qed.
Lemma mark_ext f st : ext w1 st (set_files (mark_once f (files st)) st).
Proof.
  unfold ext. cbn [imported checked files set_files]. rewrite mark_keys. split; [apply incl_refl|]. split; [apply incl_refl|]. split; [apply incl_refl|]. split; [|auto]. intros g H. now rewrite mark_lookup, H.
Qed.
Lemma open_ext d st f r1 r2 : tracks r1 r2 -> follows st (open_file r1 w1 d st f) (open_file r2 w2 d st f).
Proof.
  intros T. destruct Tools as (Ec & _). unfold open_file. rewrite <- Ec. set (n := clean w1 f). destruct (lookup (files st) n) as [[]|] eqn:Lk.
  - intros ts st' H. injection H as <- <-. split; [apply ext_refl|reflexivity].
  - destruct (content w1 n) as [t|] eqn:Ct; [|apply follows_fail]. intros ts st' H. destruct (T _ _ _ _ _ _ _ H) as (X & Sm). split; [exact X|]. intro Q.
    assert (K : content w1 n = content w2 n) by (apply (same_before _ _ _ _ _ X Q); eapply lookup_key; eassumption). rewrite <- K, Ct. now apply Sm.
  - destruct (content w1 n) as [t|] eqn:Ct; [|apply follows_fail]. intros ts st' H. destruct (T _ _ _ _ _ _ _ H) as (X & Sm).
    assert (X0 : ext w1 st (set_files (files st ++ [(n, false)]) st)).
    { unfold ext. cbn [imported checked files set_files]. split; [apply incl_refl|]. split; [apply incl_refl|]. split; [apply keys_app|]. split; [|auto]. intros g Hg. now rewrite lookup_app, Hg. }
    split; [eapply ext_trans; eassumption|]. intro Q.
    assert (K : content w1 n = content w2 n). { apply (same_before _ _ _ _ _ X Q). cbn [files set_files]. unfold keys. rewrite map_app. apply in_or_app. right. now left. }
    rewrite <- K, Ct. now apply Sm.
Qed.
Lemma direct_ext d file st args s e r1 r2 : tracks r1 r2 -> follows st (direct r1 w1 d file st args s e) (direct r2 w2 d file st args s e).
Proof.
  intros T. assert (Go : forall s' e' st1, ext w1 st st1 -> follows st (r1 d file st1 s' e') (r2 d file st1 s' e')).
  { intros s' e' st1 X. apply (follows_ext st st1); [exact X|]. intros ts st' H. now apply T. }
  assert (Go0 : forall s' e' st1, follows st1 (r1 d file st1 s' e') (r2 d file st1 s' e')) by (intros s' e' st1 ts st' H; now apply T).
  unfold direct. destruct args as [|[] a]; try apply follows_fail.
  destruct (seqb k (L "define")).
  { destruct a as [|[] a]; try apply follows_fail. rewrite <- defined_same. destruct (defined w1 st s0); [apply follows_fail|]. apply follows_none, Go. unfold ext. cbn [imported checked files set_macros]. auto 10 using incl_refl. }
  destruct (seqb k (L "undef")).
  { destruct a as [|[] a]; try apply follows_fail. destruct (among (macros st) s0); [|apply follows_fail]. apply follows_none, Go. unfold ext. cbn [imported checked files set_macros]. auto 10 using incl_refl. }
  destruct (seqb k (L "once")). { apply follows_none, Go, mark_ext. }
  destruct (seqb k (L "import")).
  { destruct a as [|[] a]; try apply follows_fail. destruct (import_var w1 st s0 false) as [[[] h] st1] eqn:E; [|apply follows_fail]. apply import_ext in E as (X & K & Sm).
    intros ts st' H. assert (F : follows st (none_left a (emit [TVar ("." :: s0); TOp OAssign; TStr (escape (match env w1 s0 with Some x => x | None => [] end))] (r1 d file st1 s e)))
      (none_left a (emit [TVar ("." :: s0); TOp OAssign; TStr (escape (match env w1 s0 with Some x => x | None => [] end))] (r2 d file st1 s e)))) by (apply follows_none, follows_emit, Go; exact X).
    destruct (F _ _ H) as (X2 & S2). split; [exact X2|]. intro Q.
    assert (Ev : env w1 s0 = env w2 s0).
    { unfold none_left in H. destruct a; [|discriminate]. unfold emit in H. destruct (r1 d file st1 s e) as [[u su]| |] eqn:R; cbn [bind fst snd] in H; try discriminate. injection H as _ <-. destruct (T _ _ _ _ _ _ _ R) as (X3 & _).
      apply (same_before _ _ _ _ _ X3 Q). exact K. }
    rewrite (Sm Ev). rewrite <- Ev. now apply S2. }
  destruct (seqb k (L "include")).
  { destruct (128 <=? S d); [apply follows_fail|]. destruct a as [|[] a]; try apply follows_fail. apply follows_bind; [now apply open_ext|]. intro v. apply follows_none, follows_emit, Go0. }
  destruct (seqb k (L "if")); [|apply follows_fail].
  destruct (if_expr w1 file true st a) as [[[b rest] st1]| |] eqn:I1; cbn [bind]; [|intros ts st' H; discriminate|intros ts st' H; discriminate]. apply if_expr_ext in I1 as (X1 & S1).
  destruct (find_endif true s e) as [[[r be] k1]| |] eqn:Fe; cbn [bind]; [|intros ts st' H; discriminate|intros ts st' H; discriminate].
  destruct (branches (S (List.length r)) w1 file e k1 b (if b then Some (s, be) else None) r st1) as [[[block rr] st2]| |] eqn:B1; cbn [bind]; [|intros ts st' H; discriminate|intros ts st' H; discriminate].
  apply branches_ext in B1 as (X2 & S2).
  set (g1 := fun v => none_left rest (emit (fst v) (r1 d file (snd v) rr e))). set (g2 := fun v => none_left rest (emit (fst v) (r2 d file (snd v) rr e))).
  assert (F : follows st2 (bind (match block with Some (t, te) => r1 d file st2 t te | None => Done ([], st2) end) g1) (bind (match block with Some (t, te) => r2 d file st2 t te | None => Done ([], st2) end) g2)).
  { apply follows_bind; [|intro v; apply follows_none, follows_emit, Go0]. destruct block as [[t te]|]; [apply Go0|]. intros ts st' H. injection H as <- <-. split; [apply ext_refl|reflexivity]. }
  intros ts st' H. destruct (F _ _ H) as (X3 & S3). split; [eapply ext_trans; [exact X1|]; eapply ext_trans; eassumption|]. intro Q.
  pose proof (same_before _ _ _ _ _ X3 Q) as Q2. rewrite (S1 (same_before _ _ _ _ _ X2 Q2)). cbn [bind]. rewrite (S2 Q2). cbn [bind]. now apply S3.
Qed.
Lemma tok_ext f : tracks (tok f w1) (tok f w2).
Proof.
  induction f as [|f IH]; intros d fl st s e ts st' H; [discriminate|]. cbn [tok] in *. unfold tok_body in *.
  destruct (List.length s <=? e); [injection H as <- <-; split; [apply ext_refl|reflexivity]|]. destruct (lex e s) as [r|t r|r|]; [now apply IH| | |discriminate].
  - revert ts st' H. apply follows_emit. intros ts st' H. now apply IH.
  - destruct (line (List.length r) (List.length (next_line e r)) r) as [args| |]; cbn [bind] in *; try discriminate. revert ts st' H. now apply direct_ext.
Qed.
End Two.
