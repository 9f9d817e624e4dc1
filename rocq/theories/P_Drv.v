(** Proofs about compiler command lines. *)
From Coq Require Import String List Arith Bool Ascii Lia.
From Verif Require Import M_Path M_Args S_Args P_Args M_Drv S_Drv T_Path.
Import ListNotations.
Open Scope list_scope.

Lemma teq_eq a b : teq a b = true <-> a = b.
Proof. unfold teq. destruct (list_eq_dec ascii_dec a b); split; congruence. Qed.
Lemma teq_ne a b : teq a b = false <-> a <> b.
Proof. unfold teq. destruct (list_eq_dec ascii_dec a b); split; congruence. Qed.
Lemma teq_refl a : teq a a = true. Proof. now apply teq_eq. Qed.
Lemma starts_none o t : starts_with o t = false -> forall x, t <> o ++ x.
Proof. intros H x E. assert (starts_with o t = true) by (apply starts_with_iff; eauto). congruence. Qed.
Lemma starts_cons a x b y : starts_with (a :: x) (b :: y) = Ascii.eqb a b && starts_with x y.
Proof. unfold starts_with. cbn [List.length Nat.leb combine forallb fst snd]. destruct (Nat.leb _ _); [reflexivity|now rewrite andb_false_r]. Qed.
Lemma starts_nil y : starts_with [] y = true. Proof. reflexivity. Qed.
Lemma starts_short a x : starts_with (a :: x) [] = false. Proof. reflexivity. Qed.

(** *** Options with an argument *)
Definition plain_head (o : str) : Prop := match o with c :: _ => c <> quote | [] => False end.
Lemma plain_unquoted o x t : plain_head o -> unquoted (o ++ x) t -> t = o ++ x.
Proof.
  intros P U. inversion U as [t' E|t' u N U' E]; subst; [reflexivity|]. destruct o as [|c o]; [destruct P|]. cbn [app] in E. injection E as E _. exfalso. apply P. congruence.
Qed.
Lemma unquoted_head o x t : unquoted t (o ++ x) -> plain_head o -> hd nul t = quote \/ t = o ++ x.
Proof. intros U P. inversion U; subst; [right; reflexivity|left; reflexivity]. Qed.
Lemma unquoted_two t u : unquoted t u -> forall v, plain_head u -> plain_head v -> unquoted t v -> u = v.
Proof.
  induction 1 as [t|t u N U IH]; intros v Pu Pv V.
  - pose proof (plain_unquoted t [] v) as Q. rewrite app_nil_r in Q. symmetry. apply Q; auto.
  - inversion V as [? E|t' u' N' V' E]; subst.
    + exfalso. apply Pv. reflexivity.
    + assert (t' = t) by (eapply (app_inj_tail t' t quote quote); congruence). subst t'. apply IH; auto.
Qed.
Lemma strip_fuel o : plain_head o -> forall n t, List.length t <= n ->
  match strip_with_arg_ n o t with
  | Some b => exists x, unquoted t (o ++ x) /\ (b = true <-> x = [])
  | None => forall x, ~ unquoted t (o ++ x)
  end.
Proof.
  intros P. induction n as [|n IH]; intros t Hn.
  - destruct t as [|c t]; [|cbn in Hn; lia]. unfold strip_with_arg_. destruct (starts_with o []) eqn:S.
    + apply starts_with_iff in S. destruct S as [x E]. destruct o; [destruct P|discriminate].
    + intros x U. destruct (unquoted_head _ _ _ U P) as [H|H]; [discriminate|]. now apply (starts_none _ _ S x).
  - cbn [strip_with_arg_]. destruct (starts_with o t) eqn:S.
    + apply starts_with_iff in S. destruct S as [x ->]. exists x. split; [constructor|]. rewrite teq_eq. split; [|intros ->; apply app_nil_r].
      intros E. rewrite <- (app_nil_r o) in E at 2. now apply app_inv_head in E.
    + assert (D : forall x, unquoted t (o ++ x) -> exists m, m <> [] /\ t = quote :: m ++ [quote] /\ unquoted m (o ++ x)).
      { intros x U. inversion U as [? E|m u N U' E]; subst; [|now exists m]. exfalso. now apply (starts_none _ _ S x). }
      destruct t as [|a m]; [intros x U; destruct (D x U) as (m&_&E&_); discriminate|].
      destruct (rev (a :: m)) as [|b w] eqn:R; [intros x U; apply (f_equal (@List.length ascii)) in R; rewrite rev_length in R; discriminate|].
      destruct (Ascii.eqb a quote && Ascii.eqb b quote && (2 <? List.length (a :: m))) eqn:Q.
      * apply andb_true_iff in Q. destruct Q as [Q Q3]. apply andb_true_iff in Q. destruct Q as [Q1 Q2]. apply Ascii.eqb_eq in Q1, Q2. subst a b. apply Nat.ltb_lt in Q3.
        destruct m as [|m0 m'] eqn:Em; [cbn in Q3; lia|]. rewrite <- Em in *. assert (NM : m <> []) by (subst; discriminate). clear Em m0 m'.
        assert (EM : m = removelast m ++ [quote]).
        { rewrite (app_removelast_last nul NM) at 1. f_equal. f_equal. cbn [rev] in R. rewrite (app_removelast_last nul NM) in R. rewrite rev_app_distr in R. cbn [rev app] in R. now injection R. }
        assert (LM : List.length (removelast m) <= n) by (apply (f_equal (@List.length ascii)) in EM; rewrite app_length in EM; cbn in EM, Hn; lia).
        assert (NR : removelast m <> []) by (intros E; rewrite E in EM; rewrite EM in Q3; cbn in Q3; lia).
        specialize (IH (removelast m) LM). destruct (strip_with_arg_ n o (removelast m)) as [b|].
        -- destruct IH as (x&U&B). exists x. split; [|exact B]. rewrite EM. now apply uq_in.
        -- intros x U. destruct (D x U) as (m1&_&E&U'). injection E as E. rewrite EM in E. assert (removelast m = m1) by (apply (app_inj_tail (removelast m) m1 quote quote); exact E). subst m1. now apply (IH x).
      * intros x U. destruct (D x U) as (m1&N1&E&U'). injection E as -> ->. cbn [rev] in R. rewrite rev_app_distr in R. cbn [rev app] in R. injection R as <- _.
        rewrite Ascii.eqb_refl in Q. cbn [andb] in Q. apply Nat.ltb_ge in Q. cbn [List.length] in Q. rewrite app_length in Q. destruct m1; [now apply N1|]. cbn in Q. lia.
Qed.
Lemma strip_spec o t : plain_head o ->
  match strip_with_arg o t with
  | Some b => exists x, unquoted t (o ++ x) /\ (b = true <-> x = [])
  | None => forall x, ~ unquoted t (o ++ x)
  end.
Proof. intros P. apply strip_fuel; auto. Qed.

(** *** Options of cl.exe *)
Lemma dash_spec t : dash t = true <-> exists o, dashed t o.
Proof.
  unfold dash, dashed. destruct t as [|c t]; [split; [discriminate|intros (o&[H|H]); discriminate]|]. rewrite orb_true_iff, !Ascii.eqb_eq.
  split; [intros [->| ->]; exists t; auto|intros (o&[H|H]); injection H; auto].
Qed.
Lemma is_start_spec t o : is_start t o = true <-> exists x, dashed t (o ++ x).
Proof.
  unfold is_start. rewrite !andb_true_iff, dash_spec. split.
  - intros [[(y&D) _] S]. apply starts_with_iff in S. destruct S as [x E]. exists x. destruct D as [->| ->]; cbn [tl] in E; subst; unfold dashed; auto.
  - intros (x&D). assert (T : tl t = o ++ x) by (destruct D as [->| ->]; reflexivity). split; [split|].
    + now exists (o ++ x).
    + apply negb_true_iff, Nat.ltb_ge. destruct D as [->| ->]; cbn [List.length]; rewrite app_length; lia.
    + apply starts_with_iff. eauto.
Qed.
Lemma is_arg_spec t o : is_arg t o = true <-> dashed t o.
Proof.
  unfold is_arg. rewrite !andb_true_iff, dash_spec, Nat.eqb_eq, ends_with_iff. split.
  - intros [[(y&D) E] (w&W)]. assert (T : exists c, t = c :: y) by (destruct D as [->| ->]; eauto). destruct T as (c&T). rewrite T in W, E. cbn in E.
    destruct w as [|c' w].
    + exfalso. cbn in W. rewrite <- W in E. cbn in E. lia.
    + injection W as _ W. assert (w = []) by (rewrite W, app_length in E; destruct w; [reflexivity|cbn in E; lia]). subst w. cbn in W. subst y. exact D.
  - intros D. split; [split|].
    + eauto.
    + destruct D as [->| ->]; cbn; lia.
    + destruct D as [->| ->]; [exists ["/"%char]|exists ["-"%char]]; reflexivity.
Qed.

(** *** Rows *)
Definition row_act (t : str) (r : row) : act :=
  match r with
  | Only o => gone (strip_token o t false)
  | Starting o => gone (strip_token o t true)
  | Taking o => gone_arg (strip_with_arg o t)
  | OnlyCl o => gone (strip_token_cl o t false)
  | StartingCl o => gone (strip_token_cl o t true)
  | TakingCl o => gone_arg (strip_with_arg_cl o t)
  end.
Definition well (r : row) : Prop := match r with Only o | Starting o | Taking o => plain_head o | _ => True end.
Lemma dashed_tail t a b : dashed t a -> dashed t b -> a = b.
Proof. unfold dashed. intros [->| ->] [H|H]; congruence. Qed.
Lemma row_act_spec t r : well r ->
  match row_act t r with
  | Pass_ => ~ covers r t
  | Did out skip => out = [] /\ covers r t /\ (skip = true <-> takes r t)
  | Bad => False
  end.
Proof.
  intros W. destruct r as [o|o|o|o|o|o]; cbn [row_act covers takes well] in *.
  - unfold gone, strip_token. destruct (teq t o) eqn:E; [apply teq_eq in E|apply teq_ne in E]; auto. split; [reflexivity|]. split; [auto|]. split; [discriminate|tauto].
  - unfold gone, strip_token. destruct (starts_with o t) eqn:E; [apply starts_with_iff in E; split; [reflexivity|split; [exact E|split; [discriminate|tauto]]]|].
    intros (x&X). now apply (starts_none _ _ E x).
  - pose proof (strip_spec o t W) as S. destruct (strip_with_arg o t) as [b|]; cbn [gone_arg].
    + destruct S as (x&U&B). split; [reflexivity|]. split; [eauto|]. rewrite B. split; [intros ->; now rewrite app_nil_r in U|].
      intros V. assert (PO : plain_head (o ++ x)) by (destruct o; [destruct W|exact W]).
      pose proof (unquoted_two _ _ U o PO W V) as E. rewrite <- (app_nil_r o) in E at 2. now apply app_inv_head in E.
    + intros (x&U). now apply (S x).
  - unfold gone, strip_token_cl. destruct (is_arg t o) eqn:E; [apply is_arg_spec in E; split; [reflexivity|split; [exact E|split; [discriminate|tauto]]]|].
    intros D. apply is_arg_spec in D. congruence.
  - unfold gone, strip_token_cl. destruct (is_start t o) eqn:E; [apply is_start_spec in E; split; [reflexivity|split; [exact E|split; [discriminate|tauto]]]|].
    intros D. apply is_start_spec in D. congruence.
  - unfold gone_arg, strip_with_arg_cl. destruct (is_start t o) eqn:E.
    + split; [reflexivity|]. split; [now apply is_start_spec|]. apply is_arg_spec.
    + intros D. apply is_start_spec in D. congruence.
Qed.

Lemma orelse_assoc a b c : orelse (orelse a b) c = orelse a (orelse b c). Proof. destruct a; reflexivity. Qed.
Lemma first_app l m : first_of (l ++ m) = orelse (first_of l) (first_of m).
Proof. induction l as [|a l IH]; [reflexivity|]. cbn [app first_of]. now rewrite IH, orelse_assoc. Qed.
Lemma orelse_pass a : orelse a Pass_ = a. Proof. destruct a; reflexivity. Qed.

(** The tokens that stand for an option with an argument. *)
Definition canon (r : row) : list str :=
  match r with Taking o => [o] | TakingCl o => ["/"%char :: o; "-"%char :: o] | _ => [] end.
Definition hides (r r' : row) : bool := existsb (fun t => match row_act t r with Did _ false => true | _ => false end) (canon r').
Fixpoint ordered (l : list row) : bool := match l with [] => true | r :: k => forallb (fun r' => negb (hides r r')) k && ordered k end.

Lemma canon_hit r r' t : well r -> well r' -> takes r' t -> covers r t -> ~ takes r t -> hides r r' = true.
Proof.
  intros W W' T C NT. unfold hides. apply existsb_exists.
  assert (K : forall u, In u (canon r') -> covers r u -> ~ takes r u -> exists x, In x (canon r') /\ match row_act x r with Did _ false => true | _ => false end = true).
  { intros u I Cu Nu. exists u. split; [exact I|]. pose proof (row_act_spec u r W) as S. destruct (row_act u r) as [|out [] |]; [now destruct (S Cu)| |reflexivity|destruct S].
    destruct S as (_&_&S). destruct Nu. now apply S. }
  destruct r' as [o|o|o|o|o|o]; cbn [takes] in T; try (now destruct T); cbn [well] in W'.
  - assert (TO : t = o \/ hd nul t = quote) by (rewrite <- (app_nil_r o) in T; destruct (unquoted_head _ _ _ T W'); [auto|left; now rewrite app_nil_r in *]).
    apply (K o); [left; reflexivity| |].
    + destruct r as [q|q|q|q|q|q]; cbn [covers well] in *.
      * destruct TO as [<-|TO]; [exact C|]. subst t. destruct q; [destruct W|]. exfalso. apply W. exact TO.
      * destruct TO as [<-|TO]; [exact C|]. destruct C as (x&->). destruct q; [destruct W|]. exfalso. apply W. exact TO.
      * destruct C as (x&C). assert (PQ : plain_head (q ++ x)) by (destruct q; [destruct W|exact W]). exists x. rewrite (unquoted_two _ _ C o PQ W' T). constructor.
      * destruct TO as [<-|TO]; [exact C|]. destruct C as [->| ->]; discriminate.
      * destruct TO as [<-|TO]; [exact C|]. destruct C as (x&[->| ->]); discriminate.
      * destruct TO as [<-|TO]; [exact C|]. destruct C as (x&[->| ->]); discriminate.
    + intros TK. apply NT. destruct r as [q|q|q|q|q|q]; cbn [takes covers well] in *; try (now destruct TK).
      destruct TO as [<-|TO]; [exact TK|]. destruct C as (x&[->| ->]); discriminate.
  - apply (K t); [|exact C|exact NT]. destruct T as [->| ->]; cbn; auto.
Qed.
Lemma rows_spec t l : Forall well l -> ordered l = true ->
  match first_of (map (row_act t) l) with
  | Pass_ => forall r, In r l -> ~ covers r t
  | Did out skip => out = [] /\ (exists r, In r l /\ covers r t) /\
      (if skip then exists r, In r l /\ takes r t else forall r, In r l -> ~ takes r t)
  | Bad => False
  end.
Proof.
  induction l as [|r l IH]; intros W O; [intros r []|]. inversion W as [|? ? W1 W2]; subst. cbn [ordered] in O. apply andb_true_iff in O. destruct O as [O1 O2].
  cbn [map first_of]. pose proof (row_act_spec t r W1) as S. destruct (row_act t r) as [|out skip|] eqn:E; cbn [orelse].
  - specialize (IH W2 O2). destruct (first_of (map (row_act t) l)) as [|out skip|].
    + intros r' [<-|I]; [exact S|]. now apply IH.
    + destruct IH as (A&(r1&I1&C1)&B). split; [exact A|]. split; [exists r1; split; [right; exact I1|exact C1]|]. destruct skip.
      * destruct B as (r2&I2&T2). exists r2. split; [right; exact I2|exact T2].
      * intros r' [<-|I]; [|now apply B]. intros T. apply S. destruct r; cbn [takes covers] in *; try (now destruct T); exists []; now rewrite app_nil_r.
    + exact IH.
  - destruct S as (A&C&T). split; [exact A|]. split; [exists r; split; [left; reflexivity|exact C]|]. destruct skip.
    + exists r. split; [left; reflexivity|now apply T].
    + assert (NT : ~ takes r t) by (intros TT; apply T in TT; discriminate). intros r' [<-|I]; [exact NT|]. intros T'.
      rewrite forallb_forall in O1. specialize (O1 r' I). rewrite Forall_forall in W2. rewrite (canon_hit r r' t W1 (W2 r' I) T' C NT) in O1. discriminate.
  - exact S.
Qed.
