(** A macro that stands for something else than a file name: the compilation is refused. *)
From Coq Require Import String List Arith NArith Bool Ascii Lia.
From Verif Require Import M_Path M_Light S_Light P_Light P_Light2 P_Light3.
From Verif Require M_Tok S_Tok P_Tok P_Tok5.
Import ListNotations.
Import M_Tok(res, Done, Fail, NoFuel, bind, lookup).
Import P_Tok5(lookup_none, lookup_in, lookup_app).
Open Scope char_scope.
Open Scope nat_scope.

Section Other.
Variables (w : world) (o : others) (rel : bool) (paths : list str).
Notation fine := (fine w).
Notation good_rec := (good_rec w paths).

Definition settled (st : state) (m : str) (a : list str) : Prop :=
  errs st = true \/ lookup (defs st) m <> None \/ forall f, In f a -> ~ In m (others_of (events w f)).
Lemma settled_mono st st' m a : grows st st' -> settled st m a -> settled st' m a.
Proof.
  intros (_ & _ & (e & D) & Er) [H|[H|H]]; [left; auto| |right; now right]. right. left. rewrite D. rewrite lookup_app. destruct (lookup (defs st) m); congruence.
Qed.
Definition seen (st : state) (h : str) : Prop :=
  exists a b, all st = a ++ h :: b /\ forall m, In (m, Macro) (includes_of (events w h)) -> settled st m (a ++ [h]).
Lemma seen_mono st st' h : grows st st' -> seen st h -> seen st' h.
Proof.
  intros G (a & b & E & H). pose proof G as ((e & Ga) & _). exists a, (b ++ e). split; [rewrite Ga, E, <- app_assoc; reflexivity|]. intros m I. apply settled_mono with st; auto.
Qed.
Definition after (st st' : state) : Prop := forall h, In h (all st') -> In h (all st) \/ seen st' h.
Lemma after_trans a b c : grows b c -> after a b -> after b c -> after a c.
Proof. intros G H1 H2 h I. destruct (H2 h I) as [I'|Q]; [|now right]. destruct (H1 h I') as [I''|Q]; [now left|]. right. now apply seen_mono with b. Qed.
Definition met (rec : str -> itype -> state -> res state) : Prop :=
  forall n t st st', fine st -> (t = Macro -> full n = false) -> rec n t st = Done st' -> after st st' /\ (t = Macro -> settled st' n (all st)).

Lemma each_after rec : good_rec rec -> met rec -> forall l st st', fine st -> (forall n t, In (n, t) l -> t = Macro -> full n = false) -> each rec l st = Done st' ->
  after st st' /\ forall n, In (n, Macro) l -> settled st' n (all st).
Proof.
  intros R Mt. induction l as [|[n t] l IH]; intros st st' F Fl; cbn [each].
  - intro E. injection E as <-. split; [intros h I; now left|]. intros n [].
  - unfold bind. destruct (rec n t st) as [st1| |] eqn:E1; try discriminate. intro E.
    destruct (R n t st st1 F (Fl n t (or_introl eq_refl)) E1) as ((G1 & F1 & _) & _). destruct (Mt n t st st1 F (Fl n t (or_introl eq_refl)) E1) as (A1 & S1).
    assert (Fl' : forall n' t', In (n', t') l -> t' = Macro -> full n' = false) by (intros n' t' I; apply Fl; now right).
    destruct (IH st1 st' F1 Fl' E) as (A2 & S2). destruct (each_post w paths rec R l st1 st' F1 Fl' E) as ((G2 & _) & _).
    split; [now apply after_trans with st1|]. intros n' [Q|I].
    + injection Q as <- ->. apply settled_mono with st1; auto.
    + destruct (S2 n' I) as [H|[H|H]]; [now left|right; now left|]. right. right. intros f If. apply H. now apply (grows_incl st st1).
Qed.
Lemma visit_after rec x st st1 st' : good_rec rec -> met rec -> fine st -> grows st st1 -> all st1 = all st ->
  defs st1 = defs st ++ (match x with Found g => defines_of (events w g) | _ => [] end) -> visit rec w (x, st1) = Done st' -> after st st'.
Proof.
  intros R Mt F G A D. assert (Stop : after st st1) by (intros h; rewrite A; now left). destruct x as [| |g]; cbn [visit]; [intro E; injection E as <-; exact Stop..|].
  destruct (exists_ w g) eqn:X; cbn [negb orb]; [|intro E; injection E as <-; exact Stop].
  destruct (mem g (all st1)) eqn:M; [intro E; injection E as <-; exact Stop|]. apply there_iff in X. apply mem_out in M.
  unfold bind. destruct (each rec (includes_of (events w g)) (push g st1)) as [st2| |] eqn:E2; try discriminate. intro E. injection E as <-.
  assert (F2 : fine (push g st1)) by (apply (push_fine w g st); auto; [apply G|now rewrite <- A]).
  assert (Fl : forall n t, In (n, t) (includes_of (events w g)) -> t = Macro -> full n = false) by (intros n t I ->; now apply include_macro in I).
  destruct (each_after rec R Mt _ _ _ F2 Fl E2) as (A2 & S2). destruct (each_post w paths rec R _ _ _ F2 Fl E2) as ((((e & Ga) & _) & _) & _). cbn [push all] in *.
  intros h I. cbn [pop all] in I. assert (Q : forall h, seen st2 h -> seen (pop st2) h) by (intros h' H; exact H).
  destruct (A2 h I) as [Ih|Sh]; [|right; now apply Q]. cbn [push all] in Ih. apply in_app_or in Ih as [Ih|[<-|[]]]; [left; now rewrite <- A|]. right. apply Q.
  exists (all st1), e. split; [rewrite Ga, <- app_assoc; reflexivity|exact S2].
Qed.
Lemma search_after rec l st x st1 st' : good_rec rec -> met rec -> fine st -> search w o rel st l = (x, st1) -> visit rec w (x, st1) = Done st' -> after st st'.
Proof. intros R Mt F Es Ev. destruct (search_spec w o rel l st x st1 F Es) as (A & G & Aa & D & T). now apply (visit_after rec x st st1 st'). Qed.

Lemma body_met rec : good_rec rec -> met rec -> met (process_body rec w o rel paths).
Proof.
  intros R Mt n t st st' F Fm. unfold process_body. destruct (full n) eqn:Fu.
  - assert (T : t <> Macro) by (intro T; specialize (Fm T); congruence). intro E. split; [|contradiction]. destruct (mem n (stack st)) eqn:M.
    + cbn [visit] in E. injection E as <-. intros h I. now left.
    + destruct (exists_all w o rel st n) as (Ea & _ & Ed). now apply (visit_after rec (Found n) st (file_exists w o rel st n) st' R Mt F (exists_grows w o rel st n) Ea Ed).
  - destruct t.
    + destruct (search w o rel st (from_paths w paths n)) as [x st1] eqn:Es. intro Ev. split; [|discriminate]. now apply (search_after rec _ _ _ _ _ R Mt F Es).
    + destruct (search w o rel st (from_stack w st n)) as [x st1] eqn:Es. intro Ev. split; [|discriminate]. destruct x as [| |h]; [|now apply (search_after rec _ _ _ _ _ R Mt F Es)..].
      destruct (search_spec w o rel _ _ _ _ F Es) as (A & G & Aa & D & _). rewrite app_nil_r in D. pose proof G as (_ & Gs & _).
      assert (F1 : fine st1) by (constructor; rewrite ?Gs, ?Aa, ?D; apply F).
      destruct (search w o rel st1 (from_paths w paths n)) as [y st2] eqn:Es2. pose proof (search_after rec _ _ _ _ _ R Mt F1 Es2 Ev) as H. intros h I. rewrite <- Aa. now apply H.
    + destruct (lookup (defs st) n) as [[n' t']|] eqn:Lk.
      * pose proof Lk as Lk'. apply lookup_in in Lk'. apply (f_defs w st F) in Lk' as (f0 & I0 & D0). pose proof (define_type _ _ _ _ _ D0) as T'.
        intro E. destruct (Mt n' t' st st' F (fun Q => False_ind _ (T' Q)) E) as (A1 & _). destruct (R n' t' st st' F (fun Q => False_ind _ (T' Q)) E) as ((G & _) & _).
        split; [exact A1|]. intros _. apply settled_mono with st; [exact G|]. right. left. congruence.
      * destruct (existsb _ (all st)) eqn:X; intro E; injection E as <-; (split; [intros h I; now left|intros _]); [left; reflexivity|]. right. right. intros f If Ho.
        assert (Y : existsb (fun f => existsb (fun m => N.eqb (h64 w m) (h64 w n)) (others_of (events w f))) (all st) = true).
        { apply existsb_exists. exists f. split; [exact If|]. apply existsb_exists. exists n. split; [exact Ho|apply N.eqb_refl]. }
        congruence.
Qed.
Lemma process_met fuel : met (process fuel w o rel paths).
Proof. induction fuel as [|fuel IH]; [intros n t st st' _ _; discriminate|]. apply (body_met _ (process_good w o rel paths fuel) IH). Qed.

Lemma key_seen fuel forced root k l f : light_hash fuel w o rel paths forced root = Done (Key k l) -> In f l ->
  exists a b, l = a ++ f :: b /\ forall m, In (m, Macro) (includes_of (events w f)) -> (exists f' x, In f' l /\ In (m, x) (defines_of (events w f'))) \/ forall f', In f' (a ++ [f]) -> ~ In m (others_of (events w f')).
Proof.
  unfold light_hash, bind. destruct (each (process fuel w o rel paths) (map (fun n => (n, Quote)) (forced ++ [root])) start) as [st| |] eqn:E; try discriminate.
  intros H I. injection H as H. apply finish_key in H as (-> & Er & _).
  assert (Fl : forall n t, In (n, t) (map (fun n : str => (n, Quote)) (forced ++ [root])) -> t = Macro -> full n = false) by (intros n t J ->; apply in_map_iff in J as (y & Q & _); discriminate).
  destruct (each_after _ (process_good w o rel paths fuel) (process_met fuel) _ _ _ (start_fine w) Fl E) as (A & _).
  destruct (each_post w paths _ (process_good w o rel paths fuel) _ _ _ (start_fine w) Fl E) as ((_ & F & _) & _).
  destruct (A f I) as [[]|(a & b & Ea & S)]. exists a, b. split; [exact Ea|]. intros m Im. destruct (S m Im) as [C|[Lk|N]]; [congruence| |now right]. left.
  destruct (lookup (defs st) m) as [x|] eqn:Lk'; [|congruence]. apply lookup_in in Lk'. apply (f_defs w st F) in Lk' as (f' & I' & D'). now exists f', x.
Qed.
End Other.
