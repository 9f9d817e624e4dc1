(** Reading options. *)

From Coq Require Import String List Bool Arith Ascii Lia.
From Verif Require Import M_Path M_Args M_Drv P_Drv P_Link M_Opts S_Opts.
Import ListNotations.
Local Open Scope list_scope.

Lemma in_group : forall (t : str) group, existsb (teq t) group = true <-> In t group.
Proof. intros t group. exact (mem_iff t group). Qed.

(** The loop on arguments whose quotes are gone. *)
Fixpoint scan' (group : list str) (esc keep : bool) (ts : list str) : option (list str) :=
  match ts with
  | [] => Some []
  | t :: r =>
      let go (b : str) : option (list str) :=
        let b2 := match b with
                  | [] => match List.find (fun p => starts_with p t) group with
                          | Some p => if keep then t else skipn (List.length p) t
                          | None => []
                          end
                  | _ => b
                  end in
        match trim_body b2 with
        | None => None
        | Some [] => scan' group esc keep r
        | Some b3 => option_map (cons (if esc then escape b3 else b3)) (scan' group esc keep r)
        end in
      if existsb (teq t) group
      then match r with [] => Some [] | n :: _ => go n end
      else go []
  end.

Lemma scan_scan' : forall group esc keep ts, scan group esc keep ts = scan' group esc keep (map remove_quotes ts).
Proof.
  intros group esc keep. induction ts as [|t r IH]; [reflexivity|]. cbn [map scan scan'].
  rewrite IH. destruct (existsb (teq (remove_quotes t)) group); [|reflexivity].
  destruct r; reflexivity.
Qed.

Lemma trim_unwrapped : forall v w, unwrapped v w -> trim_body v = Some w.
Proof.
  intros v w [w'|v' A B].
  - cbn [trim_body]. rewrite Ascii.eqb_refl.
    rewrite (proj2 (ends_iff (quote :: w' ++ [quote]) [quote])) by (exists (quote :: w'); reflexivity).
    cbn [andb]. destruct (w' ++ [quote]) as [|c r] eqn:E; [now destruct w'|]. rewrite <- E. now rewrite removelast_last.
  - destruct v' as [|c r]; [reflexivity|]. cbn [trim_body].
    destruct (Ascii.eqb_spec c quote) as [->|]; [|reflexivity]. cbn [andb].
    destruct (ends_with (quote :: r) [quote]) eqn:E; [|reflexivity].
    apply ends_iff in E as (p & P). destruct p as [|d p]; cbn in P; [congruence|].
    injection P as <- ->. now elim (B p).
Qed.

Lemma find_first : forall (group : list str) t p, List.find (fun p => starts_with p t) group = Some p ->
  exists a b v, group = a ++ p :: b /\ t = p ++ v /\ forall q, In q a -> forall x, t <> q ++ x.
Proof.
  induction group as [|q group IH]; intros t p E; cbn [List.find] in E; [discriminate|].
  destruct (starts_with q t) eqn:S.
  - injection E as <-. apply starts_iff in S as (v & ->). exists [], group, v. repeat split; auto.
  - destruct (IH _ _ E) as (a & b & v & -> & -> & H). exists (q :: a), b, v. repeat split; auto.
    intros q' [<-|I] x; [|apply H; exact I]. intros X. assert (starts_with q (p ++ v) = true) by (apply starts_iff; eauto). congruence.
Qed.

Lemma find_none : forall (group : list str) t, (forall p x, In p group -> t <> p ++ x) ->
  List.find (fun p => starts_with p t) group = None.
Proof.
  induction group as [|q group IH]; intros t H; cbn [List.find]; [reflexivity|].
  destruct (starts_with q t) eqn:S.
  - apply starts_iff in S as (v & ->). elim (H q v); auto. now left.
  - apply IH. intros p x I. apply H. now right.
Qed.

Lemma find_is : forall (group a b : list str) p v, group = a ++ p :: b ->
  (forall q, In q a -> forall x, p ++ v <> q ++ x) -> List.find (fun q => starts_with q (p ++ v)) group = Some p.
Proof.
  intros group a b p v -> H. induction a as [|q a IH]; cbn [app List.find].
  - destruct (starts_with p (p ++ v)) eqn:S; [reflexivity|].
    assert (starts_with p (p ++ v) = true) by (apply starts_iff; eauto). congruence.
  - destruct (starts_with q (p ++ v)) eqn:S.
    + apply starts_iff in S as (x & X). elim (H q (or_introl eq_refl) x X).
    + apply IH. intros q' I. apply H. now right.
Qed.

Definition shown (esc : bool) (l : list str) : list str := map (fun v => if esc then escape v else v) (filter nonempty l).

(** A value that is an argument of its own is passed over when its turn comes. *)
Lemma pass_value : forall group esc v r, (forall p x, In p group -> v <> p ++ x) ->
  scan' group esc false (v :: r) = scan' group esc false r.
Proof.
  intros group esc v r H. cbn [scan'].
  destruct (existsb (teq v) group) eqn:E.
  - apply in_group in E. elim (H v []); auto. now rewrite app_nil_r.
  - rewrite find_none by auto. reflexivity.
Qed.

(** No option of the group begins with one that is tried before it. *)
Definition ordered (group : list str) : Prop :=
  forall a p b q x, group = a ++ p :: b -> In q b -> q <> p ++ x.

Lemma find_self : forall (group : list str) o, ordered group -> In o group ->
  List.find (fun p => starts_with p o) group = Some o.
Proof.
  intros group o O I. destruct (List.find (fun p => starts_with p o) group) as [p|] eqn:E.
  - destruct (find_first _ _ _ E) as (a & b & x & Eg & Eo & H). rewrite Eg in I.
    apply in_app_iff in I as [I|[I|I]].
    + elim (H _ I []). now rewrite app_nil_r.
    + now rewrite I.
    + elim (O _ _ _ _ x Eg I Eo).
  - pose proof (List.find_none _ _ E o I) as X. cbn in X.
    assert (starts_with o o = true) by (apply starts_iff; exists []; now rewrite app_nil_r). congruence.
Qed.

Lemma scan_values : forall group esc args l l', ordered group ->
  Forall (tidy group) args -> values group args l -> Forall2 unwrapped l l' ->
  scan' group esc false (line args) = Some (shown esc l').
Proof.
  intros group esc args l l' NE T V. revert l'. induction V as [|a v r l G V IH|a r l F V IH]; intros l' B.
  - inversion B. reflexivity.
  - inversion_clear T as [|? ? Ta Tr]. inversion B as [|? w ? l2 Bv Bl]; subst. specialize (IH Tr _ Bl).
    destruct G as [o v Io|a p b v Eg H]; unfold line; cbn [flat_map words app]; fold (line r); cbn [tidy] in Ta.
    + destruct Ta as [Tv _].
      assert (P : scan' group esc false (v :: line r) = Some (shown esc l2)) by (now rewrite pass_value).
      remember (v :: line r) as r' eqn:Er. cbn [scan']. rewrite (proj2 (in_group _ _) Io).
      rewrite P. rewrite Er.
      pose proof (trim_unwrapped v w Bv) as X. pose proof (find_self group o NE Io) as Y.
      destruct v as [|c v].
      * rewrite Y, skipn_all, X. unfold shown. destruct w; reflexivity.
      * rewrite X. unfold shown. destruct w; reflexivity.
    + cbn [scan']. destruct (existsb (teq (p ++ v)) group) eqn:E; [apply in_group in E; now elim Ta|].
      rewrite (find_is group a b p v Eg H). rewrite skipn_app, skipn_all, Nat.sub_diag. cbn [app skipn].
      rewrite (trim_unwrapped v w) by auto. rewrite IH. unfold shown. destruct w as [|c w]; reflexivity.
  - inversion_clear T as [|? ? Ta Tr]. specialize (IH Tr _ B).
    destruct a as [t|o v]; unfold line; cbn [flat_map words app]; fold (line r); cbn [tidy foreign] in *.
    + cbn [scan']. destruct (existsb (teq t) group) eqn:E; [apply in_group in E; now elim Ta|].
      rewrite find_none by auto. cbn. exact IH.
    + destruct Ta as [Tv [Io|To]]; [now elim F|].
      assert (P : scan' group esc false (v :: line r) = Some (shown esc l')) by (now rewrite pass_value).
      remember (v :: line r) as r' eqn:Er. cbn [scan'].
      destruct (existsb (teq o) group) eqn:E; [apply in_group in E; now elim F|].
      rewrite find_none by auto. cbn. exact P.
Qed.

Lemma escape_escaped : forall s, escaped s (escape s).
Proof.
  induction s as [|c s IH]; [constructor|]. unfold escape; cbn [flat_map]; fold (escape s).
  destruct (Ascii.eqb_spec c quote) as [->|]; cbn [app]; now constructor.
Qed.

Lemma shown_handed : forall esc l, Forall2 (handed esc) (filter nonempty l) (shown esc l).
Proof.
  intros esc l. unfold shown. induction (filter nonempty l) as [|v r IH]; cbn [map]; constructor; auto.
  destruct esc; cbn [handed]; [apply escape_escaped|reflexivity].
Qed.

Lemma extract_found : forall group esc opts args l, ordered group -> spells opts args ->
  Forall (tidy group) args -> found group args l ->
  exists out, extract group esc false opts = Some out /\ Forall2 (handed esc) l out.
Proof.
  intros group esc opts args l O S T (raw & inner & V & U & ->). exists (shown esc inner). split; [|apply shown_handed].
  unfold extract. rewrite scan_scan', S. now apply (scan_values group esc args raw).
Qed.

Lemma join_found : forall esc opts args groups ls, Forall ordered groups -> spells opts args ->
  (forall g, In g groups -> Forall (tidy g) args) -> Forall2 (fun g l => found g args l) groups ls ->
  exists out, join_all (map (fun g => extract g esc false opts) groups) = Some out /\ Forall2 (handed esc) (concat ls) out.
Proof.
  intros esc opts args groups ls O S T F. induction F as [|g l groups ls H F IH]; [exists []; split; constructor|].
  inversion_clear O as [|? ? O1 O2].
  destruct (extract_found g esc opts args l O1 S (T g (or_introl eq_refl)) H) as (x & X & Hx).
  destruct (IH O2 (fun g' I => T g' (or_intror I))) as (y & Y & Hy).
  exists (x ++ y). cbn [map join_all concat]. rewrite X, Y. split; [reflexivity|]. now apply Forall2_app.
Qed.

Lemma keep_picks : forall group ts, (forall p, In p group -> exists c x, p = c :: x /\ c <> quote) ->
  Forall (fun t => ~ In t group) ts ->
  exists l, scan' group false true ts = Some l /\ picks (begins_with_one_of group) ts l.
Proof.
  intros group ts G F. induction F as [|t r Nt F (l & IH & P)]; [exists []; split; [reflexivity|constructor]|].
  cbn [scan']. destruct (existsb (teq t) group) eqn:E; [apply in_group in E; now elim Nt|].
  destruct (List.find (fun p => starts_with p t) group) as [p|] eqn:Fd.
  - destruct (find_first _ _ _ Fd) as (a & b & v & Eg & -> & _).
    assert (Ip : In p group) by (rewrite Eg; apply in_elt).
    destruct (G p Ip) as (c & x & -> & Nc). cbn [app].
    assert (T : trim_body (c :: x ++ v) = Some (c :: x ++ v)).
    { cbn [trim_body]. destruct (Ascii.eqb_spec c quote); [congruence|reflexivity]. }
    rewrite T, IH. eexists. split; [reflexivity|]. constructor; [|assumption]. exists (c :: x), v. now split.
  - cbn [trim_body]. exists l. split; [exact IH|]. constructor 3; [|assumption]. intros (p & x & I & ->).
    pose proof (List.find_none _ _ Fd p I) as X. cbn in X.
    assert (starts_with p (p ++ x) = true) by (apply starts_iff; eauto). congruence.
Qed.

(** Every tidy command line has values. *)
Lemma arg_total : forall group a, (exists v, gives group a v) \/ foreign group a.
Proof.
  intros group [t|o v].
  - destruct (List.find (fun p => starts_with p t) group) as [p|] eqn:Fd.
    + left. destruct (find_first _ _ _ Fd) as (a & b & v & Eg & -> & H). exists v. econstructor; eauto.
    + right. intros p x I ->. pose proof (List.find_none _ _ Fd p I) as X. cbn in X.
      assert (starts_with p (p ++ x) = true) by (apply starts_iff; eauto). congruence.
  - destruct (existsb (teq o) group) eqn:E.
    + left. exists v. constructor. now apply in_group.
    + right. intros I. apply in_group in I. congruence.
Qed.

Lemma values_total : forall group args, exists raw, values group args raw.
Proof.
  intros group args. induction args as [|a r (l & IH)]; [exists []; constructor|].
  destruct (arg_total group a) as [(v & G)|F]; [exists (v :: l)|exists l]; now constructor.
Qed.
