(** The search through the files: growth, closure under includes, termination. *)
From Coq Require Import String List Arith NArith Bool Ascii Lia.
From Verif Require Import M_Path.
From Verif Require M_Tok S_Tok P_Tok P_Tok5.
From Verif Require Import M_Light S_Light P_Light.
Import ListNotations.
Import M_Tok(seqb, span, blank, LF, CR, TAB, DQ, SQ, id_start, id_char, res, Done, Fail, NoFuel, bind, lookup).
Import P_Tok(eqb_iff, among_in).
Import P_Tok5(lookup_none, lookup_in).
Open Scope char_scope.
Open Scope nat_scope.

(** * Facts about single files *)
Lemma mem_in f l : mem f l = true <-> In f l. Proof. apply among_in. Qed.
Lemma mem_out f l : mem f l = false <-> ~ In f l. Proof. apply (P_Tok.iff_false _ _ (mem_in f l)). Qed.
Lemma there_iff w f : exists_ w f = true <-> there w f.
Proof. unfold exists_, there. destruct (text w f); split; congruence. Qed.
Lemma there_false w f : exists_ w f = false <-> ~ there w f. Proof. apply (P_Tok.iff_false _ _ (there_iff w f)). Qed.
Lemma full_iff n : full n = true <-> starts ["/"] n.
Proof. unfold full. rewrite eqb_iff. destruct n as [|c n]; cbn; split; try discriminate; [intros (r & E); discriminate|intros ->; now exists n|intros (r & E); now injection E]. Qed.
Lemma full_false n : full n = false <-> ~ starts ["/"] n. Proof. apply (P_Tok.iff_false _ _ (full_iff n)). Qed.

Definition good_event (e : event) : Prop :=
  match e with Include n Macro => full n = false | Define _ _ Macro => False | _ => True end.
Lemma include_string_type s n t r : include_string s = Some (n, t, r) -> t <> Macro.
Proof. intro E. apply include_string_only in E as (h & H & _). destruct H; discriminate. Qed.
Lemma directive_good s ev p : directive s = Some (ev, p) -> Forall good_event ev.
Proof.
  unfold directive. destruct (after (L "include") (skip_ws s)) as [r|].
  - unfold include_line. destruct (_ || _).
    + destruct (include_string (skip_gap r)) as [[[n t] q]|] eqn:E; [|discriminate]. apply include_string_type in E. intro Q. injection Q as <- <-. repeat constructor. cbn. now destruct t.
    + unfold macro_name. destruct (id_start (peek (skip_gap r))) eqn:E; [|discriminate]. destruct (skip_gap r) as [|c x]; [discriminate|]. cbn [span]. intro Q.
      assert (Qi : id_char c = true) by (unfold id_char, id_start in *; cbn in E; rewrite E; reflexivity). rewrite Qi in Q. injection Q as <- _. repeat constructor. cbn.
      unfold full. cbn. cbn in E. destruct (Ascii.eqb_spec c "/") as [->|]; [discriminate|reflexivity].
  - destruct (after (L "define") (skip_ws s)) as [r|].
    + unfold define_line. destruct (macro_name (skip_gap r)) as [[n q]|]; [|discriminate]. destruct (include_string (skip_gap q)) as [[[n' t] q']|] eqn:E.
      * apply include_string_type in E. intro Q. injection Q as <- <-. repeat constructor. cbn. now destruct t.
      * intro Q. injection Q as <- <-. repeat constructor.
    + destruct (after (L "import") (skip_ws s)); [discriminate|]. intro Q. injection Q as <- <-. constructor.
Qed.
Lemma loop_good f : forall s, Forall good_event (fst (loop f s)).
Proof.
  induction f as [|f IH]; intro s; [constructor|]. rewrite loop_step. unfold step. destruct (skip_ws s) as [|c r]; [constructor|]. destruct (at_eol c); [apply IH|].
  destruct (if Ascii.eqb c "#" then directive r else Some ([], c :: r)) as [[ev p]|] eqn:D; [|constructor]. cbn [fst]. apply Forall_app. split; [|apply IH].
  destruct (Ascii.eqb c "#"); [eapply directive_good; eassumption|]. injection D as <- <-. constructor.
Qed.
Lemma events_good w f : Forall good_event (events w f).
Proof. unfold events. destruct (text w f); [|constructor]. apply loop_good. Qed.
Lemma include_macro w f m : In (m, Macro) (includes_of (events w f)) -> full m = false.
Proof.
  unfold includes_of. rewrite in_flat_map. intros (e & I & Ie). pose proof (events_good w f) as G. rewrite Forall_forall in G. specialize (G e I).
  destruct e; cbn in Ie; try contradiction. destruct Ie as [E|[]]. injection E as -> ->. exact G.
Qed.
Lemma define_type w f m n t : In (m, (n, t)) (defines_of (events w f)) -> t <> Macro.
Proof.
  unfold defines_of. rewrite in_flat_map. intros (e & I & Ie). pose proof (events_good w f) as G. rewrite Forall_forall in G. specialize (G e I).
  destruct e; cbn in Ie; try contradiction. destruct Ie as [E|[]]. injection E as -> -> ->. destruct t; try discriminate; contradiction.
Qed.
Lemma events_none w f : exists_ w f = false -> events w f = [].
Proof. unfold exists_, events. destruct (text w f); [discriminate|reflexivity]. Qed.

Lemma dir_directory f d : directory f d <-> d = dir f.
Proof.
  assert (Sl : forall c, slash c = true <-> c = "/" \/ c = "\") by (intro c; unfold slash; rewrite orb_true_iff, !eqb_iff; reflexivity).
  assert (Ex : forall s, existsb slash s = true <-> In "/" s \/ In "\" s).
  { intro s. rewrite existsb_exists. split; [intros (c & I & H); apply Sl in H as [->| ->]; tauto|intros [I|I]; eexists; (split; [exact I|reflexivity])]. }
  split.
  - intros (n & -> & N1 & N2 & D). revert D. induction d as [|c d IH]; intro D.
    + cbn [app]. destruct n as [|c n]; [reflexivity|]. cbn [dir]. destruct (existsb slash (c :: n)) eqn:E; [|reflexivity]. apply Ex in E. tauto.
    + cbn [app dir]. assert (E : existsb slash (c :: d ++ n) = true).
      { apply Ex. destruct D as [D|(e & [D|D])]; [discriminate| |]; [left|right]; change (c :: d ++ n) with ((c :: d) ++ n); rewrite D; rewrite !in_app_iff; cbn; tauto. }
      rewrite E. f_equal. destruct d as [|x d]; [apply IH; now left|]. apply IH. right. destruct D as [D|(e & D)]; [discriminate|]. destruct e as [|y e]; [cbn in D; destruct D; discriminate|].
      exists e. destruct D as [D|D]; injection D as _ D; [now left|now right].
  - intros ->. induction f as [|c f IH]; [exists []; repeat split; [intros []|intros []|now left]|]. cbn [dir]. destruct (existsb slash (c :: f)) eqn:E.
    + destruct IH as (n & Ef & N1 & N2 & D). exists n. split; [cbn [app]; now f_equal|]. split; [exact N1|]. split; [exact N2|]. right. destruct D as [D|(e & D)].
      * rewrite D in *. cbn in Ef. subst n. assert (Sc : slash c = true). { cbn in E. apply orb_true_iff in E as [E|E]; [exact E|]. apply Ex in E. tauto. }
        exists []. apply Sl in Sc as [->| ->]; [now left|now right].
      * exists (c :: e). destruct D as [-> | ->]; [now left|now right].
    + exists (c :: f). assert (~ (In "/" (c :: f) \/ In "\" (c :: f))) by (rewrite <- Ex; congruence). repeat split; [tauto|tauto|now left].
Qed.

Lemma NoDup_app_iff_2 (l : list str) x : NoDup l -> ~ In x l -> NoDup (l ++ [x]).
Proof.
  intros H N. induction H as [|y l Ny H IH]; [constructor; [easy|constructor]|]. cbn. constructor; [|apply IH; firstorder]. rewrite in_app_iff. cbn. intros [I|[->|[]]]; [auto|]. apply N. now left.
Qed.

Section Search.
Variables (w : world) (o : others) (rel : bool) (paths : list str).

(** * What stays *)
Definition grows (st st' : state) : Prop :=
  (exists e, all st' = all st ++ e) /\ stack st' = stack st /\ (exists e, defs st' = defs st ++ e) /\ (errs st = true -> errs st' = true).
Lemma grows_refl st : grows st st. Proof. repeat split; auto; exists []; now rewrite app_nil_r. Qed.
Lemma grows_trans a b c : grows a b -> grows b c -> grows a c.
Proof.
  intros ((e1 & A1) & S1 & (d1 & D1) & E1) ((e2 & A2) & S2 & (d2 & D2) & E2). repeat split; [exists (e1 ++ e2); now rewrite A2, A1, <- app_assoc|congruence|
  exists (d1 ++ d2); now rewrite D2, D1, <- app_assoc|auto].
Qed.
Lemma grows_incl st st' : grows st st' -> incl (all st) (all st'). Proof. intros ((e & ->) & _) x I. apply in_or_app. now left. Qed.
Lemma grows_defs st st' : grows st st' -> incl (defs st) (defs st'). Proof. intros (_ & _ & (e & ->) & _) x I. apply in_or_app. now left. Qed.
Lemma exists_grows st f : grows st (file_exists w o rel st f).
Proof.
  unfold file_exists. destruct (lookup (known st) f); [|destruct (o (calls st))]; (repeat split; cbn; [exists []; now rewrite app_nil_r|now eexists|]); auto.
  intros ->. reflexivity.
Qed.
Lemma exists_all st f : all (file_exists w o rel st f) = all st /\ stack (file_exists w o rel st f) = stack st /\ defs (file_exists w o rel st f) = defs st ++ defines_of (events w f).
Proof. unfold file_exists. destruct (lookup (known st) f); [|destruct (o (calls st))]; repeat split. Qed.

(** Between two includes: the stack is of files in the list, files in the list are there, and the definitions are theirs. *)
Record fine (st : state) : Prop := {
  f_stack : incl (stack st) (all st);
  f_there : forall f, In f (all st) -> there w f;
  f_once : NoDup (all st);
  f_defs : forall m x, In (m, x) (defs st) <-> exists f, In f (all st) /\ In (m, x) (defines_of (events w f)) }.

Definition answer (x : found) (st : state) (l : list str) : Prop :=
  match x with
  | Nothing => Forall (fun p => ~ there w p) l
  | Cyclic => exists g, first_of w l g /\ In g (stack st)
  | Found g => first_of w l g
  end.
(** The list and the stack stay as they are; definitions come in with the file that is found. *)
Lemma search_spec : forall l st x st', fine st -> search w o rel st l = (x, st') ->
  answer x st l /\ grows st st' /\ all st' = all st /\
  defs st' = defs st ++ (match x with Found g => defines_of (events w g) | _ => [] end) /\ (match x with Found g => there w g | _ => True end).
Proof.
  induction l as [|p l IH]; intros st x st' F; cbn [search].
  - intro E. injection E as <- <-. split; [constructor|]. split; [apply grows_refl|]. split; [reflexivity|]. split; [now rewrite app_nil_r|exact I].
  - destruct (mem p (stack st)) eqn:M.
    + intro E. injection E as <- <-. apply mem_in in M. split; [|split; [apply grows_refl|split; [reflexivity|split; [now rewrite app_nil_r|exact I]]]].
      exists p. split; [|exact M]. exists [], l. repeat split; [|constructor]. apply (f_there st F). now apply (f_stack st F).
    + destruct (exists_all st p) as (Ea & Es & Ed). pose proof (exists_grows st p) as G. destruct (exists_ w p) eqn:X.
      * intro E. injection E as <- <-. apply there_iff in X. split; [|split; [exact G|split; [exact Ea|split; [exact Ed|exact X]]]]. exists [], l. repeat split; [exact X|constructor].
      * rewrite (events_none _ _ X), app_nil_r in Ed. apply there_false in X. intro E.
        assert (F' : fine (file_exists w o rel st p)) by (destruct F; constructor; rewrite ?Ea, ?Es, ?Ed; assumption).
        destruct (IH _ _ _ F' E) as (A & G' & A' & D' & T). split; [|split; [exact (grows_trans _ _ _ G G')|split; [congruence|split; [now rewrite D', Ed|exact T]]]].
        assert (Fi : forall g, first_of w l g -> first_of w (p :: l) g).
        { intros g (a & b & -> & Tg & Na). exists (p :: a), b. repeat split; [exact Tg|now constructor]. }
        destruct x; cbn [answer] in *; [now constructor| |now apply Fi]. destruct A as (g & Fg & I). exists g. split; [now apply Fi|]. now rewrite Es in I.
Qed.

(** * Closure *)
(** No file of the list has a file called n beside it, unless f has. *)
Definition lone (A : list str) (f n : str) : Prop := ~ there w (clean w (dir f ++ n)) -> forall f', In f' A -> ~ there w (clean w (dir f' ++ n)).
Definition ok_at (A : list str) (f n : str) (t : itype) : Prop :=
  forall g, t <> Macro -> leads w paths f n t g -> (t = Quote -> ~ starts ["/"] n -> lone A f n) -> In g A.
Definition macro_at (A a : list str) (f m : str) : Prop :=
  forall n t g f', (f' = f \/ In f' a) -> In (m, (n, t)) (defines_of (events w f')) ->
  (forall f'' x, In f'' A -> In (m, x) (defines_of (events w f'')) -> x = (n, t)) -> leads w paths f n t g -> (t = Quote -> ~ starts ["/"] n -> lone A f n) -> In g A.
Definition closed (A : list str) (h : str) : Prop :=
  exists a b, A = a ++ h :: b /\ forall n t, In (n, t) (includes_of (events w h)) -> ok_at A h n t /\ (t = Macro -> macro_at A a h n).
Lemma lone_mono A A' f n : incl A A' -> lone A' f n -> lone A f n. Proof. unfold lone. auto. Qed.
Lemma ok_mono A A' f n t : incl A A' -> ok_at A f n t -> ok_at A' f n t.
Proof. intros I H g T Le Lo. apply I, H; auto. intros T' Ns. apply lone_mono with A'; auto. Qed.
Lemma macro_mono A A' a f m : incl A A' -> macro_at A a f m -> macro_at A' a f m.
Proof. intros I H n t g f' F D U Le Lo. apply I. apply (H n t g f' F D); auto. - intros f'' x If. apply U. now apply I. - intros T' Ns. apply lone_mono with A'; auto. Qed.
Lemma closed_mono A e h : closed A h -> closed (A ++ e) h.
Proof.
  intros (a & b & E & H). assert (I : incl A (A ++ e)) by (intros x Ix; apply in_or_app; now left). exists a, (b ++ e). split; [rewrite E, <- app_assoc; reflexivity|].
  intros n t In1. destruct (H n t In1) as (O1 & O2). split; [now apply ok_mono with A|]. intro T. apply macro_mono with A; auto.
Qed.

Definition post (st st' : state) : Prop := grows st st' /\ fine st' /\ forall h, In h (all st') -> In h (all st) \/ closed (all st') h.
Lemma post_refl st : fine st -> post st st. Proof. intro F. split; [apply grows_refl|]. split; [exact F|]. tauto. Qed.
Lemma post_trans a b c : post a b -> post b c -> post a c.
Proof.
  intros (G1 & F1 & C1) (G2 & F2 & C2). split; [now apply grows_trans with b|]. split; [exact F2|]. intros h I. destruct (C2 h I) as [Ib|Cc]; [|now right].
  destruct (C1 h Ib) as [Ia|Cb]; [now left|]. right. destruct G2 as ((e & ->) & _). now apply closed_mono.
Qed.
Definition reached (st st' : state) (n : str) (t : itype) : Prop :=
  forall f stk, stack st = f :: stk -> ok_at (all st') f n t /\ (t = Macro -> forall a, incl (f :: a) (all st) -> macro_at (all st') a f n).
Definition good_rec (rec : str -> itype -> state -> res state) : Prop :=
  forall n t st st', fine st -> (t = Macro -> full n = false) -> rec n t st = Done st' -> post st st' /\ reached st st' n t.

Lemma each_post rec : good_rec rec -> forall l st st', fine st -> (forall n t, In (n, t) l -> t = Macro -> full n = false) -> each rec l st = Done st' ->
  post st st' /\ forall n t, In (n, t) l -> reached st st' n t.
Proof.
  intros R. induction l as [|[n t] l IH]; intros st st' F Fl; cbn [each].
  - intro E. injection E as <-. split; [now apply post_refl|]. intros n t [].
  - unfold bind. destruct (rec n t st) as [st1| |] eqn:E1; try discriminate. intro E.
    destruct (R n t st st1 F (Fl n t (or_introl eq_refl)) E1) as (P1 & R1). pose proof P1 as (G1 & F1 & _).
    destruct (IH st1 st' F1 (fun n' t' I => Fl n' t' (or_intror I)) E) as (P2 & R2). pose proof P2 as (G2 & _). split; [now apply post_trans with st1|].
    intros n' t' [Q|I] f stk Es.
    + injection Q as <- <-. destruct (R1 f stk Es) as (O1 & O2). pose proof (grows_incl _ _ G2) as Ic. split; [now apply ok_mono with (all st1)|]. intros T a Ia. apply macro_mono with (all st1); auto.
    + destruct G1 as (Ga & Gs & _). destruct (R2 n' t' I f stk) as (O1 & O2); [congruence|]. split; [exact O1|]. intros T a Ia. apply O2; [exact T|].
      intros x Ix. destruct Ga as (e & ->). apply in_or_app. left. now apply Ia.
Qed.

Lemma visit_post rec x st st1 st' : good_rec rec -> fine st -> grows st st1 -> all st1 = all st ->
  defs st1 = defs st ++ (match x with Found g => defines_of (events w g) | _ => [] end) -> visit rec w (x, st1) = Done st' ->
  post st st' /\ match x with Found g => there w g -> In g (all st') | _ => True end.
Proof.
  intros R F G A D. pose proof G as (_ & Gs & _).
  assert (Same : forall g, x = Found g -> ~ there w g \/ In g (all st) -> fine st1).
  { intros g -> Hg. constructor; rewrite ?Gs, ?A; try apply F. intros m y. rewrite D, in_app_iff, (f_defs st F). split.
    - intros [Q|Q]; [exact Q|]. destruct Hg as [Hg|Hg]; [|now exists g]. apply there_false in Hg. rewrite (events_none _ _ Hg) in Q. destruct Q.
    - intro Q. now left. }
  assert (Stop : fine st1 -> post st st1).
  { intro F1. split; [exact G|]. split; [exact F1|]. rewrite A. tauto. }
  destruct x as [| |g]; cbn [visit].
  - rewrite app_nil_r in D. intro E. injection E as <-. split; [|exact I]. apply Stop. constructor; rewrite ?Gs, ?A, ?D; apply F.
  - rewrite app_nil_r in D. intro E. injection E as <-. split; [|exact I]. apply Stop. constructor; rewrite ?Gs, ?A, ?D; apply F.
  - destruct (exists_ w g) eqn:X; cbn [negb orb].
    2:{ intro E. injection E as <-. apply there_false in X. split; [|tauto]. apply Stop. apply (Same g); tauto. }
    apply there_iff in X. destruct (mem g (all st1)) eqn:M.
    { intro E. injection E as <-. apply mem_in in M. rewrite A in M. split; [apply Stop, (Same g); tauto|]. intros _. now rewrite A. }
    apply mem_out in M. unfold bind. destruct (each rec (includes_of (events w g)) (push g st1)) as [st2| |] eqn:E2; try discriminate. intro E. injection E as <-.
    assert (F2 : fine (push g st1)).
    { constructor; cbn [push all stack defs].
      - rewrite Gs, A. intros y [<-|I]; apply in_or_app; [right; now left|left; now apply (f_stack st F)].
      - intros y I. apply in_app_or in I as [I|[<-|[]]]; [|exact X]. rewrite A in I. now apply (f_there st F).
      - apply NoDup_app_iff_2; [rewrite A; apply F|]. exact M.
      - intros m y. rewrite D, A, in_app_iff, (f_defs st F). split.
        + intros [(f & I & Q)|Q]; [exists f; split; [apply in_or_app; now left|exact Q]|exists g; split; [apply in_or_app; right; now left|exact Q]].
        + intros (f & I & Q). apply in_app_or in I as [I|[<-|[]]]; [left; now exists f|now right]. }
    assert (Fl : forall n t, In (n, t) (includes_of (events w g)) -> t = Macro -> full n = false) by (intros n t I ->; now apply include_macro in I).
    destruct (each_post rec R _ _ _ F2 Fl E2) as ((G2 & F3 & C2) & R2).
    destruct G2 as (Ga & Gs2 & Gd & Ge). cbn [push all stack defs errs] in *. destruct Ga as (e & Ga).
    split; [|intros _; cbn [pop all]; rewrite Ga; apply in_or_app; left; apply in_or_app; right; now left].
    split; [|split].
    + destruct G as ((e1 & G1) & _ & (d1 & Gd1) & Ge1). repeat split; cbn [pop all stack defs errs].
      * exists ([g] ++ e). now rewrite Ga, A, <- app_assoc.
      * rewrite Gs2. cbn [tl]. exact Gs.
      * destruct Gd as (d & ->). rewrite Gd1. exists (d1 ++ d). now rewrite <- app_assoc.
      * auto.
    + constructor; cbn [pop all stack defs]; try apply F3. rewrite Gs2. cbn [tl]. rewrite Gs. intros y I. apply (f_stack st F) in I. rewrite Ga, A. apply in_or_app. left. apply in_or_app. now left.
    + cbn [pop all]. intros h I. destruct (C2 h I) as [Ih|Ch]; [|now right]. apply in_app_or in Ih as [Ih|[<-|[]]]; [left; now rewrite <- A|]. right.
      exists (all st1), e. split; [rewrite Ga, <- app_assoc; reflexivity|]. intros n t In1. destruct (R2 n t In1 g (stack st1) eq_refl) as (O1 & O2). split; [exact O1|].
      intro T. apply O2; [exact T|]. cbn [push all]. intros y [<-|Iy]; apply in_or_app; [right; now left|now left].
Qed.

Lemma first_unique l g g' : first_of w l g -> first_of w l g' -> g = g'.
Proof.
  intros (a & b & -> & T & N) (a' & b' & E & T' & N'). revert a' E N'. induction a as [|x a IH]; intros [|y a'] E N'; cbn in E; injection E; intros; subst.
  - reflexivity.
  - apply Forall_inv in N'. contradiction.
  - apply Forall_inv in N. contradiction.
  - apply IH with a'; [now apply Forall_inv_tail in N|assumption|now apply Forall_inv_tail in N'].
Qed.
Lemma first_head c l g : first_of w (c :: l) g -> there w c -> g = c.
Proof. intros F T. apply (first_unique _ _ _ F). exists [], l. repeat split; [exact T|constructor]. Qed.
Lemma first_tail c l g : first_of w (c :: l) g -> ~ there w c -> first_of w l g.
Proof. intros (a & b & E & T & N) Nt. destruct a as [|x a]; cbn in E; injection E; intros; subst; [contradiction|]. exists a, b. repeat split; [exact T|now apply Forall_inv_tail in N]. Qed.
Lemma first_not_none l g : first_of w l g -> Forall (fun p => ~ there w p) l -> False.
Proof. intros (a & b & -> & T & _) N. rewrite Forall_forall in N. apply (N g); [apply in_elt|exact T]. Qed.

(** Searching through names and going into what is found. *)
Lemma search_visit rec l st x st1 st' : good_rec rec -> fine st -> search w o rel st l = (x, st1) -> visit rec w (x, st1) = Done st' ->
  post st st' /\ answer x st l /\ forall g, first_of w l g -> In g (all st').
Proof.
  intros R F Es Ev. destruct (search_spec l st x st1 F Es) as (A & G & Aa & D & T). destruct (visit_post rec x st st1 st' R F G Aa D Ev) as (P & V). split; [exact P|]. split; [exact A|].
  intros g Fg. destruct x as [| |h]; cbn [answer] in A.
  - destruct (first_not_none _ _ Fg A).
  - destruct A as (h & Fh & Ih). rewrite (first_unique _ _ _ Fg Fh). apply (grows_incl st st'); [apply P|]. now apply (f_stack st F).
  - rewrite (first_unique _ _ _ Fg A). now apply V.
Qed.

Lemma body_good rec : good_rec rec -> good_rec (process_body rec w o rel paths).
Proof.
  intros R n t st st' F Fm. unfold process_body. destruct (full n) eqn:Fu.
  - assert (T : t <> Macro) by (intro T; specialize (Fm T); congruence). clear Fm. apply full_iff in Fu.
    assert (Le : forall f g, leads w paths f n t g -> g = n /\ there w n) by (intros f g Le; destruct Le; tauto).
    destruct (mem n (stack st)) eqn:M.
    + cbn [visit]. intro E. injection E as <-. split; [now apply post_refl|]. intros f stk Es. split; [|contradiction]. intros g _ Lg _. apply Le in Lg as (-> & _).
      apply (f_stack st F). now apply mem_in.
    + intro E. destruct (exists_all st n) as (Ea & Ess & Ed). destruct (visit_post rec (Found n) st (file_exists w o rel st n) st' R F (exists_grows st n) Ea Ed E) as (P & V).
      split; [exact P|]. intros f stk Es. split; [|contradiction]. intros g _ Lg _. apply Le in Lg as (-> & Tn). now apply V.
  - clear Fm. apply full_false in Fu. destruct t.
    + destruct (search w o rel st (from_paths w paths n)) as [x st1] eqn:Es. intro Ev. destruct (search_visit rec _ _ _ _ _ R F Es Ev) as (P & _ & V). split; [exact P|].
      intros f stk _. split; [|discriminate]. intros g _ Lg _. apply V. inversion Lg; subst; [contradiction|assumption].
    + destruct (search w o rel st (from_stack w st n)) as [x st1] eqn:Es.
      assert (Qu : forall f stk, stack st = f :: stk -> from_stack w st n = clean w (dir f ++ n) :: map (fun f => clean w (dir f ++ n)) stk) by (intros f stk E; unfold from_stack; now rewrite E).
      assert (Ld : forall f g, leads w paths f n Quote g -> first_of w (clean w (dir f ++ n) :: from_paths w paths n) g).
      { intros f g Lg. inversion Lg; subst; [contradiction|]. match goal with H : directory _ _ |- _ => apply dir_directory in H; subst end. assumption. }
      destruct x as [| |h].
      * destruct (search_spec _ _ _ _ F Es) as (A & G & Aa & D & _). rewrite app_nil_r in D. pose proof G as (_ & Gs & _).
        assert (F1 : fine st1) by (constructor; rewrite ?Gs, ?Aa, ?D; apply F).
        destruct (search w o rel st1 (from_paths w paths n)) as [y st2] eqn:Es2. intro Ev. destruct (search_visit rec _ _ _ _ _ R F1 Es2 Ev) as (P & _ & V).
        split; [apply post_trans with st1; [|exact P]; split; [exact G|split; [exact F1|rewrite Aa; tauto]]|]. intros f stk E. split; [|discriminate]. intros g _ Lg _.
        apply V. apply Ld in Lg. apply first_tail in Lg; [exact Lg|]. cbn [answer] in A. rewrite (Qu f stk E) in A. now apply Forall_inv in A.
      * intro Ev. destruct (search_visit rec _ _ _ _ _ R F Es Ev) as (P & A & V). split; [exact P|]. intros f stk E. split; [|discriminate]. intros g _ Lg Lo. apply Ld in Lg.
        destruct (exists_ w (clean w (dir f ++ n))) eqn:X.
        -- apply there_iff in X. rewrite (first_head _ _ _ Lg X). apply V. rewrite (Qu f stk E). exists [], (map (fun f => clean w (dir f ++ n)) stk). repeat split; [exact X|constructor].
        -- apply there_false in X. exfalso. destruct A as (h & Fh & _). apply (first_not_none _ _ Fh). apply Forall_forall. intros p Ip. unfold from_stack in Ip. apply in_map_iff in Ip as (f' & <- & If).
           apply (Lo eq_refl Fu X). apply (grows_incl st st'); [apply P|]. now apply (f_stack st F).
      * intro Ev. destruct (search_visit rec _ _ _ _ _ R F Es Ev) as (P & A & V). split; [exact P|]. intros f stk E. split; [|discriminate]. intros g _ Lg Lo. apply Ld in Lg.
        destruct (exists_ w (clean w (dir f ++ n))) eqn:X.
        -- apply there_iff in X. rewrite (first_head _ _ _ Lg X). apply V. rewrite (Qu f stk E). exists [], (map (fun f => clean w (dir f ++ n)) stk). repeat split; [exact X|constructor].
        -- apply there_false in X. exfalso. cbn [answer] in A. apply (first_not_none _ _ A). apply Forall_forall. intros p Ip. unfold from_stack in Ip. apply in_map_iff in Ip as (f' & <- & If).
           apply (Lo eq_refl Fu X). apply (grows_incl st st'); [apply P|]. now apply (f_stack st F).
    + destruct (lookup (defs st) n) as [[n' t']|] eqn:Lk.
      * apply lookup_in in Lk. pose proof Lk as Lk'. apply (f_defs st F) in Lk' as (f0 & I0 & D0). pose proof (define_type _ _ _ _ _ D0) as T'.
        intro E. destruct (R n' t' st st' F (fun Q => False_ind _ (T' Q)) E) as (P & Rc). split; [exact P|]. intros f stk Es. destruct (Rc f stk Es) as (O1 & _).
        split; [intros g T; now destruct T|]. intros _ a Ia m t g f' Hf Df U Lg Lo. pose proof (grows_incl st st' (proj1 P)) as Ic.
        assert (Q : (n', t') = (m, t)) by (apply (U f0); [now apply Ic|exact D0]). injection Q as -> ->. now apply O1.
      * assert (Mc : forall st2, fine st -> all st2 = all st -> reached st st2 n Macro).
        { intros st2 _ Ea f stk Es. split; [intros g T; now destruct T|]. intros _ a Ia m t g f' Hf Df _ _ _. exfalso. rewrite lookup_none in Lk. apply Lk.
          change n with (fst (n, (m, t))). apply in_map. apply (f_defs st F). exists f'. split; [|exact Df]. apply Ia. destruct Hf as [->|Hf]; [now left|now right]. }
        destruct (existsb _ (all st)); intro E; injection E as <-; (split; [|now apply Mc]); [|now apply post_refl].
        split; [repeat split; auto; exists []; now rewrite app_nil_r|]. split; [destruct F; now constructor|]. cbn. tauto.
Qed.
Lemma process_good fuel : good_rec (process fuel w o rel paths).
Proof. induction fuel as [|fuel IH]; [intros n t st st' _ _; discriminate|]. apply (body_good _ IH). Qed.

Lemma start_fine : fine start.
Proof. constructor; cbn; [easy|easy|constructor|]. intros m x. split; [easy|]. now intros (f & [] & _). Qed.
End Search.
