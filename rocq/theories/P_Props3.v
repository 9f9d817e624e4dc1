(** Proofs: lists of targets. *)
From Coq Require Import String List Arith Bool Ascii ZArith Lia.
From Verif Require Import M_Path M_Names M_Dir M_Props S_Props P_Props P_Props2.
Import ListNotations.
Open Scope list_scope.

Definition visit_all (f : nat) (o : nopts) (g : graph) :=
  fix go (ts : list nat) (st : list nat * list nat) : option (list nat * list nat) :=
    match ts with
    | [] => Some st
    | t :: r => match visit f o g t st with Some st' => go r st' | None => None end
    end.
Lemma visit_S f o g k st : visit (S f) o g k st =
  match nth_error g k with
  | None => None
  | Some n =>
      let '(l, tags) := st in
      if no_dups o && existsb (Nat.eqb k) tags then Some (l, tags) else
      let tags := if no_dups o then k :: tags else tags in
      if taken o n then Some (l ++ [k], tags)
      else if nty_eqb (ntype n) TyAlias then visit_all f o g (aliased n) (l, tags)
      else None
  end.
Proof. reflexivity. Qed.
Lemma taken_iff o n : taken o n = true <-> allowed o n.
Proof.
  unfold taken, allowed. destruct (is_file n); cbn [orb].
  - split; auto.
  - destruct (ntype n) eqn:E; split; intro H; try discriminate H;
      try solve [ auto 10 ];
      decompose [or and] H; first [ discriminate | assumption ].
Qed.
Definition good (o : nopts) (g : graph) (k : nat) : Prop := exists n, nth_error g k = Some n /\ taken o n = true.
Lemma good_dec o g k : good o g k \/ ~ good o g k.
Proof.
  unfold good. destruct (nth_error g k) as [n|]; [ | right; intros (n & H & _); discriminate ].
  destruct (taken o n) eqn:E; [ left; eauto | right; intros (m & H & G); congruence ].
Qed.
Lemma all_good_dec o g ls : Forall (good o g) ls \/ ~ Forall (good o g) ls.
Proof.
  induction ls as [|k ls IH]; [ left; constructor | ].
  destruct (good_dec o g k) as [A|A]; [ | right; intro F; inversion F; auto ].
  destruct IH as [B|B]; [ left; auto | right; intro F; inversion F; auto ].
Qed.

(** ** Without regard to duplicates *)
Lemma visit_plain o g : healthy g -> no_dups o = false -> forall f k n, nth_error g k = Some n ->
  1 <= f -> (ntype n = TyAlias -> k + 2 <= f) -> forall ls, stands_for g k ls -> forall l tags,
  (Forall (good o g) ls -> visit f o g k (l, tags) = Some (l ++ ls, tags)) /\
  (~ Forall (good o g) ls -> visit f o g k (l, tags) = None).
Proof.
  intros HG D. pose proof HG as [_ NF _ AB]. induction f as [|f IH]; intros k n N L A ls SF l tags; [ lia | ].
  rewrite visit_S, N, D. cbn [andb].
  destruct (nty_eqb (ntype n) TyAlias) eqn:T.
  - apply nty_iff in T. replace (taken o n) with false by (unfold taken; rewrite (NF k n N T), T; reflexivity).
    inversion SF; subst; [ congruence | ]. replace n0 with n in * by congruence.
    rename H1 into F. clear SF H H0.
    assert (K : forall t, In t (aliased n) -> forall ls, stands_for g t ls -> forall l tags,
             (Forall (good o g) ls -> visit f o g t (l, tags) = Some (l ++ ls, tags)) /\
             (~ Forall (good o g) ls -> visit f o g t (l, tags) = None)).
    { intros t I ls HS. destruct (AB k n t N T I) as (x & X & Y). specialize (A T). eapply IH; eauto; [ lia | ].
      intro Z. specialize (Y Z). lia. }
    clear N T A AB IH L NF. revert l. induction F as [|t s ts ss HD F IHF]; intro l; cbn [visit_all concat].
    + rewrite app_nil_r. split; [ reflexivity | intro Q; destruct Q; constructor ].
    + destruct (K t (or_introl eq_refl) s HD l tags) as [K1 K2].
      destruct (all_good_dec o g s) as [B|B].
      * rewrite (K1 B). destruct (IHF ltac:(intros t' I; apply K; now right) (l ++ s)) as [J1 J2].
        split; intro Q.
        -- apply Forall_app in Q. rewrite (app_assoc l s). apply J1. apply Q.
        -- apply J2. intro R. apply Q. apply Forall_app. auto.
      * rewrite (K2 B). split; intro Q; [ | reflexivity ]. apply Forall_app in Q. destruct B. apply Q.
  - apply nty_no in T. inversion SF; subst; [ | congruence ]. destruct (taken o n) eqn:E.
    + split; [ reflexivity | ]. intro Q. destruct Q. constructor; [ exists n; auto | constructor ].
    + split; [ | reflexivity ]. intro Q. inversion Q as [|? ? (m & M & E') _]; subst. congruence.
Qed.

(** ** Each once *)
Lemma firsts_ext l : forall s1 s2, (forall x, In x l -> (In x s1 <-> In x s2)) -> firsts s1 l = firsts s2 l.
Proof.
  induction l as [|x l IH]; intros s1 s2 H; cbn [firsts]; [ reflexivity | ].
  pose proof (H x (or_introl eq_refl)) as X. destruct (in_dec Nat.eq_dec x s1), (in_dec Nat.eq_dec x s2); try tauto.
  - apply IH. intros y I. apply H. now right.
  - f_equal. apply IH. intros y I. specialize (H y (or_intror I)). cbn. tauto.
Qed.
Lemma firsts_app a : forall seen b, firsts seen (a ++ b) = firsts seen a ++ firsts (a ++ seen) b.
Proof.
  induction a as [|x a IH]; intros seen b; cbn [firsts app]; [ reflexivity | ].
  destruct (in_dec Nat.eq_dec x seen) as [I|I].
  - rewrite IH. f_equal. apply firsts_ext. intros y _. cbn. rewrite !in_app_iff. split; [ tauto | ]. intros [->|H]; tauto.
  - cbn. f_equal. rewrite IH. f_equal. apply firsts_ext. intros y _. cbn. rewrite !in_app_iff. cbn. tauto.
Qed.
Lemma firsts_seen l : forall seen, incl l seen -> firsts seen l = [].
Proof.
  induction l as [|x l IH]; intros seen I; cbn [firsts]; [ reflexivity | ].
  destruct (in_dec Nat.eq_dec x seen) as [_|N]; [ | destruct N; apply I; now left ].
  apply IH. intros y J. apply I. now right.
Qed.

Definition leaf (g : graph) (k : nat) : Prop := exists n, nth_error g k = Some n /\ ntype n <> TyAlias.
Definition settled (g : graph) (tags : list nat) (x : nat) : Prop := forall ls, stands_for g x ls -> incl ls tags.
(** Aliases that are tagged and come before [b] are done; targets that are tagged are good. *)
Record done (o : nopts) (g : graph) (b : nat) (tags : list nat) : Prop := {
  done_alias : forall x, In x tags -> ~ leaf g x -> x < b -> settled g tags x;
  done_leaf : forall x, In x tags -> leaf g x -> good o g x
}.
Lemma exists_tag k tags : existsb (Nat.eqb k) tags = true <-> In k tags.
Proof.
  rewrite existsb_exists. split.
  - intros (x & I & E). apply Nat.eqb_eq in E. now subst.
  - intro I. exists k. split; [ exact I | apply Nat.eqb_refl ].
Qed.
(** What a visit has done to the tags. *)
Definition tagged (g : graph) (b : nat) (ls tags tags' : list nat) : Prop :=
  (forall x, leaf g x -> (In x tags' <-> In x tags \/ In x ls)) /\
  (forall x, In x tags' -> ~ leaf g x -> In x tags \/ x < b /\ settled g tags' x) /\
  incl tags tags'.
Lemma leaf_of g k ls x : stands_for g k ls -> In x ls -> leaf g x.
Proof. intros H I. destruct (stands_leaves g k ls H x I) as (n & A & B). exists n. auto. Qed.
Lemma settled_more g tags tags' x : settled g tags x -> incl tags tags' -> settled g tags' x.
Proof. intros H I ls F y J. apply I. exact (H ls F y J). Qed.
Lemma done_after o g b b' ls tags tags' : b' <= b -> done o g b tags -> Forall (good o g) ls ->
  tagged g b' ls tags tags' -> done o g b tags'.
Proof.
  intros LE [D1 D2] FA (T1 & T2 & T3). split.
  - intros x I N LT. destruct (T2 x I N) as [J|[_ J]]; [ | exact J ]. eapply settled_more; eauto.
  - intros x I LF. apply (T1 x LF) in I. destruct I as [I|I]; [ auto | ]. rewrite Forall_forall in FA. auto.
Qed.

Lemma visit_once o g : healthy g -> no_dups o = true -> forall f k n, nth_error g k = Some n ->
  1 <= f -> (ntype n = TyAlias -> k + 2 <= f) -> forall ls, stands_for g k ls -> forall b l tags,
  done o g b tags -> (ntype n = TyAlias -> k < b) ->
  (Forall (good o g) ls -> exists tags', visit f o g k (l, tags) = Some (l ++ firsts tags ls, tags') /\ tagged g b ls tags tags') /\
  (~ Forall (good o g) ls -> visit f o g k (l, tags) = None).
Proof.
  intros HG D. pose proof HG as [_ NF _ AB]. induction f as [|f IH]; intros k n N L A ls SF b l tags DN KB; [ lia | ].
  rewrite visit_S, N, D. cbn [andb].
  destruct (existsb (Nat.eqb k) tags) eqn:EX.
  { apply exists_tag in EX.
    assert (IN : incl ls tags).
    { destruct (nty_eqb (ntype n) TyAlias) eqn:T.
      - apply nty_iff in T. eapply (done_alias _ _ _ _ DN k EX); eauto.
        intros (n' & N' & T'). congruence.
      - apply nty_no in T. inversion SF; subst; [ | congruence ]. intros x [<-|[]]. exact EX. }
    assert (GD : Forall (good o g) ls).
    { apply Forall_forall. intros x I. eapply (done_leaf _ _ _ _ DN); [ now apply IN | ]. eapply leaf_of; eauto. }
    split; [ intros _ | contradiction ]. exists tags. rewrite (firsts_seen ls tags IN), app_nil_r. split; [ reflexivity | ].
    split; [ | split ].
    - intros x _. split; [ tauto | ]. intros [I|I]; auto.
    - intros x I _. now left.
    - intros x I. exact I. }
  assert (NT : ~ In k tags) by (intro I; apply exists_tag in I; congruence).
  destruct (nty_eqb (ntype n) TyAlias) eqn:T.
  - apply nty_iff in T. replace (taken o n) with false by (unfold taken; rewrite (NF k n N T), T; reflexivity).
    specialize (KB T). specialize (A T).
    inversion SF as [|? n0 lss N0 _ F]; subst; [ congruence | ]. replace n0 with n in * by congruence. clear N0.
    assert (NL : ~ leaf g k) by (intros (n' & N' & T'); congruence).
    assert (D1 : done o g k (k :: tags)).
    { destruct DN as [D1 D2]. split.
      - intros x [<-|I] H LT; [ lia | ]. eapply settled_more; [ apply D1; auto; lia | ]. intros y J. now right.
      - intros x [<-|I] H; [ contradiction | auto ]. }
    assert (K : forall t, In t (aliased n) -> forall ls, stands_for g t ls -> forall l tags, done o g k tags ->
             (Forall (good o g) ls -> exists tags', visit f o g t (l, tags) = Some (l ++ firsts tags ls, tags') /\ tagged g k ls tags tags') /\
             (~ Forall (good o g) ls -> visit f o g t (l, tags) = None)).
    { intros t I s HS l0 tags0 D0. destruct (AB k n t N T I) as (x & X & Y).
      apply (IH t x X ltac:(lia) ltac:(intro Z; specialize (Y Z); lia) s HS k l0 tags0 D0 Y). }
    assert (ALL : forall l tags0, done o g k tags0 ->
             (Forall (good o g) (concat lss) -> exists tags', visit_all f o g (aliased n) (l, tags0) =
                Some (l ++ firsts tags0 (concat lss), tags') /\ tagged g k (concat lss) tags0 tags') /\
             (~ Forall (good o g) (concat lss) -> visit_all f o g (aliased n) (l, tags0) = None)).
    { clear SF N T A AB IH L NF D1 KB. induction F as [|t s ts ss HD F IHF]; intros l0 tags0 D0; cbn [visit_all concat].
      - split; [ intros _ | intro Q; destruct Q; constructor ].
        exists tags0. rewrite app_nil_r. split; [ reflexivity | ]. split; [ | split ]; cbn.
        + intros x _. tauto.
        + intros x I _. now left.
        + intros x I. exact I.
      - destruct (K t (or_introl eq_refl) s HD l0 tags0 D0) as [K1 K2].
        destruct (all_good_dec o g s) as [B|B].
        + destruct (K1 B) as (tags1 & V & TG). rewrite V.
          assert (D2 : done o g k tags1) by (eapply done_after; eauto).
          destruct (IHF ltac:(intros t' I; apply K; now right) (l0 ++ firsts tags0 s) tags1 D2) as [J1 J2].
          split; intro Q.
          * apply Forall_app in Q. destruct Q as [_ Q]. destruct (J1 Q) as (tags2 & V2 & TG2). exists tags2.
            destruct TG as (A1 & A2 & A3), TG2 as (B1 & B2 & B3).
            split.
            { rewrite firsts_app, app_assoc. rewrite V2. do 3 f_equal. apply firsts_ext. intros x I.
              rewrite in_app_iff.
              assert (LX : leaf g x).
              { apply in_concat in I. destruct I as (s' & I1 & I2).
                clear - F I1 I2. induction F as [|t' r' ts' rs' H' F' IH']; [ destruct I1 | ].
                destruct I1 as [<-|I1]; [ eapply leaf_of; eauto | auto ]. }
              rewrite (A1 x LX). tauto. }
            split; [ | split ].
            { intros x LX. rewrite (B1 x LX), (A1 x LX), in_app_iff. tauto. }
            { intros x I NX. destruct (B2 x I NX) as [I2|I2]; [ | auto ].
              destruct (A2 x I2 NX) as [I3|[I3 I4]]; [ auto | right ]. split; [ exact I3 | ]. eapply settled_more; eauto. }
            { intros x I. auto. }
          * apply J2. intro R. apply Q. apply Forall_app. auto.
        + rewrite (K2 B). split; intro Q; [ | reflexivity ]. apply Forall_app in Q. destruct B. apply Q. }
    destruct (ALL l (k :: tags) D1) as [J1 J2]. split; [ intro Q | exact J2 ].
    destruct (J1 Q) as (tags' & V & (A1 & A2 & A3)). exists tags'. split.
    { rewrite V. do 3 f_equal. apply firsts_ext. intros x I. cbn.
      assert (LX : leaf g x) by (eapply leaf_of; eauto). split; [ | tauto ]. intros [<-|J]; [ contradiction | exact J ]. }
    split; [ | split ].
    { intros x LX. rewrite (A1 x LX). cbn. split; [ | tauto ]. intros [[<-|J]|J]; [ contradiction | tauto | tauto ]. }
    { intros x I NX. destruct (A2 x I NX) as [[<-|J]|[J1' J2']].
      - right. split; [ exact KB | ]. intros ls' SF' y J. rewrite (stands_unique g k ls' SF' _ SF) in J.
        apply (A1 y); [ eapply leaf_of; [ exact SF | exact J ] | ]. now right.
      - now left.
      - right. split; [ lia | exact J2' ]. }
    { intros x I. apply A3. now right. }
  - apply nty_no in T. inversion SF; subst; [ | congruence ].
    assert (LK : leaf g k) by (exists n; auto).
    cbn [firsts]. destruct (in_dec Nat.eq_dec k tags) as [I|_]; [ contradiction | ].
    destruct (taken o n) eqn:E.
    + split; [ intros _ | intro Q; destruct Q; constructor; [ exists n; auto | constructor ] ].
      exists (k :: tags). split; [ reflexivity | ]. split; [ | split ].
      * intros x _. cbn. tauto.
      * intros x [<-|I] NX; [ contradiction | now left ].
      * intros x I. now right.
    + split; [ | reflexivity ]. intro Q. inversion Q as [|? ? (m & M & E') _]; subst. congruence.
Qed.

(** ** Names *)
Section Cleaner.
Context (cp : str -> str).
Lemma new_file g s : healthy g -> find_node cp g s = None -> healthy (g ++ [file_node cp s]).
Proof.
  intros [U NF AN AB] FN. unfold find_node in FN. destruct (find_as_is g s); [ discriminate | ].
  pose proof (proj1 (as_is_none g (cp s)) FN) as NG.
  assert (C : forall k n, nth_error (g ++ [file_node cp s]) k = Some n ->
            nth_error g k = Some n \/ k = List.length g /\ n = file_node cp s).
  { intros k n H. destruct (Nat.lt_ge_cases k (List.length g)) as [L|L].
    - rewrite nth_error_app1 in H by exact L. auto.
    - rewrite nth_error_app2 in H by exact L. destruct (k - List.length g) as [|j] eqn:E.
      + injection H as <-. right. split; [ lia | reflexivity ].
      + destruct j; discriminate. }
  split.
  - intros i j ni nj Hi Hj E. apply C in Hi, Hj. destruct Hi as [Hi|[-> ->]], Hj as [Hj|[-> ->]].
    + eapply U; eauto.
    + destruct (NG i). exists ni. auto.
    + destruct (NG j). exists nj. auto.
    + reflexivity.
  - intros k n H T. apply C in H. destruct H as [H|[-> ->]]; [ eauto | discriminate ].
  - intros k n H T. apply C in H. destruct H as [H|[-> ->]]; [ eauto | discriminate ].
  - intros k n t H T I. apply C in H. destruct H as [H|[-> ->]]; [ | discriminate ].
    destruct (AB k n t H T I) as (x & X & Y). exists x. split; [ | exact Y ].
    rewrite nth_error_app1; [ exact X | ]. apply nth_error_Some. congruence.
Qed.
Lemma allowed_good o g ls : Forall (good o g) ls <-> forall x, In x ls -> exists n, nth_error g x = Some n /\ allowed o n.
Proof.
  rewrite Forall_forall. split; intros H x I; destruct (H x I) as (n & A & B); exists n; (split; [ exact A | now apply taken_iff ]).
Qed.
(** One name, for a list made so far. *)
Lemma list_one_iff o g s l g' l' : healthy g ->
  (list_one cp o g s l = Some (g', l') <-> exists r, lists cp o g s g' r /\ l' = l ++ r).
Proof.
  intro HG. pose proof (healthy_uniq g HG) as U. unfold list_one, visit_name.
  destruct (find_node cp g s) as [k|] eqn:FN.
  - pose proof (find_bound _ _ _ _ FN) as KB. pose proof FN as FC. apply (find_some cp g s k U) in FC.
    destruct (nth_error g k) as [n|] eqn:N; [ | apply nth_error_None in N; lia ].
    destruct (stands_exists g HG k n N) as (ls & SF).
    assert (V : (Forall (good o g) ls -> exists tags', visit (S (S (List.length g))) o g k (l, []) =
                 Some (l ++ (if no_dups o then firsts [] ls else ls), tags')) /\
                (~ Forall (good o g) ls -> visit (S (S (List.length g))) o g k (l, []) = None)).
    { destruct (no_dups o) eqn:D.
      - assert (DN : done o g (S k) []) by (split; intros x []).
        destruct (visit_once o g HG D (S (S (List.length g))) k n N ltac:(lia) ltac:(lia) ls SF (S k) l [] DN ltac:(lia)) as [V1 V2].
        split; [ intro Q; destruct (V1 Q) as (tags' & V & _); eauto | exact V2 ].
      - destruct (visit_plain o g HG D (S (S (List.length g))) k n N ltac:(lia) ltac:(lia) ls SF l []) as [V1 V2].
        split; [ intro Q; rewrite (V1 Q); eauto | exact V2 ]. }
    destruct V as [V1 V2]. split.
    + intro H. destruct (all_good_dec o g ls) as [Q|Q]; [ | rewrite (V2 Q) in H; discriminate ].
      destruct (V1 Q) as (tags' & V). rewrite V in H. injection H as <- <-.
      eexists. split; [ | reflexivity ]. eapply lists_target; eauto. now apply allowed_good.
    + intros (r & H & ->). inversion H as [NC|k' ls' C SF' AL]; subst.
      * destruct (NC k FC).
      * apply (find_some cp g' s k' U) in C. assert (k' = k) by congruence. subst k'.
        rewrite (stands_unique _ _ _ SF' _ SF) in *. apply allowed_good in AL. destruct (V1 AL) as (tags' & V). now rewrite V.
  - pose proof (proj1 (find_none cp g s U) FN) as NC. cbn [fst snd]. split.
    + intro H. injection H as <- <-. eexists. split; [ | reflexivity ]. now apply lists_file.
    + intros (r & H & ->). inversion H as [_|k' ls' C SF' AL]; subst; [ reflexivity | destruct (NC k' C) ].
Qed.
Lemma lists_healthy o g s g' l : healthy g -> lists cp o g s g' l -> healthy g' /\ exists new, g' = g ++ new.
Proof.
  intros HG H. inversion H; subst.
  - split; [ | eauto ]. apply new_file; [ exact HG | ]. apply find_none; [ now apply healthy_uniq | assumption ].
  - split; [ exact HG | ]. exists []. now rewrite app_nil_r.
Qed.
Lemma list_names_iff o ss : forall g l g' l', healthy g ->
  (list_names cp o g ss l = Some (g', l') <-> exists r, lists_each cp o g ss g' r /\ l' = l ++ r).
Proof.
  induction ss as [|s ss IH]; intros g l g' l' HG; cbn [list_names].
  - split.
    + intro H. injection H as <- <-. exists []. rewrite app_nil_r. split; [ constructor | reflexivity ].
    + intros (r & H & ->). inversion H; subst. now rewrite app_nil_r.
  - destruct s as [|c s].
    + split; [ discriminate | ]. intros (r & H & _). inversion H as [|? ? ? ? ? ? ? X _ _]; subst. destruct X. reflexivity.
    + split.
      * intro H. destruct (list_one cp o g (c :: s) l) as [[g1 l1]|] eqn:E; [ | discriminate ].
        apply (list_one_iff o g (c :: s) l g1 l1 HG) in E. destruct E as (r1 & E & ->).
        destruct (lists_healthy _ _ _ _ _ HG E) as [HG1 _].
        apply (IH g1 _ g' l' HG1) in H. destruct H as (r2 & H & ->). exists (r1 ++ r2). rewrite app_assoc. split; [ | reflexivity ].
        econstructor; eauto. discriminate.
      * intros (r & H & ->). inversion H as [|? ? ? g1 l1 ? l2 X Y Z]; subst.
        destruct (lists_healthy _ _ _ _ _ HG Y) as [HG1 _].
        rewrite (proj2 (list_one_iff o g (c :: s) l g1 (l ++ l1) HG)) by eauto.
        apply (IH g1 _ g' _ HG1). exists l2. rewrite app_assoc. auto.
Qed.
(** The list of names of a property that was read before: one pass over all of them comes to the same. *)
Lemma visit_name_plain o g s l tags : healthy g -> no_dups o = false ->
  forall g' l', (exists t, visit_name cp o g s (l, tags) = Some (g', (l', t))) <-> list_one cp o g s l = Some (g', l').
Proof.
  intros HG D g' l'. pose proof (healthy_uniq g HG) as U. unfold list_one, visit_name.
  destruct (find_node cp g s) as [k|] eqn:FN.
  - pose proof (find_bound _ _ _ _ FN) as KB.
    destruct (nth_error g k) as [n|] eqn:N; [ | apply nth_error_None in N; lia ].
    destruct (stands_exists g HG k n N) as (ls & SF).
    destruct (visit_plain o g HG D (S (S (List.length g))) k n N ltac:(lia) ltac:(lia) ls SF l tags) as [V1 V2].
    destruct (visit_plain o g HG D (S (S (List.length g))) k n N ltac:(lia) ltac:(lia) ls SF l []) as [W1 W2].
    destruct (all_good_dec o g ls) as [Q|Q].
    + rewrite (V1 Q), (W1 Q). split; [ intros (t & H); congruence | intro H; injection H as <- <-; eauto ].
    + rewrite (V2 Q), (W2 Q). split; [ intros (t & H); discriminate | discriminate ].
  - cbn [fst snd]. split; [ intros (t & H); congruence | intro H; injection H as <- <-; eauto ].
Qed.
Lemma list_sweep_iff o ss : no_dups o = false -> ~ In [] ss -> forall g l tags g' l', healthy g ->
  ((exists t, list_sweep cp o g ss (l, tags) = Some (g', (l', t))) <-> list_names cp o g ss l = Some (g', l')).
Proof.
  intro D. induction ss as [|s ss IH]; intros NE g l tags g' l' HG; cbn [list_sweep list_names].
  - split; [ intros (t & H); congruence | intro H; injection H as <- <-; eauto ].
  - destruct s as [|c s]; [ destruct NE; now left | ].
    assert (NE' : ~ In [] ss) by (intro I; apply NE; now right).
    pose proof (visit_name_plain o g (c :: s) l tags HG D) as V.
    destruct (visit_name cp o g (c :: s) (l, tags)) as [[g1 [l1 t1]]|].
    + rewrite (proj1 (V g1 l1)) by eauto. apply IH; [ exact NE' | ].
      assert (E : list_one cp o g (c :: s) l = Some (g1, l1)) by (apply V; eauto).
      apply (list_one_iff o g _ l g1 l1 HG) in E. destruct E as (r & E & _). eapply lists_healthy; eauto.
    + destruct (list_one cp o g (c :: s) l) as [[g1 l1]|].
      * destruct (proj2 (V g1 l1) eq_refl) as (t & H). discriminate.
      * split; [ intros (t & H); discriminate | discriminate ].
Qed.
Lemma each_healthy o g ss g' l : lists_each cp o g ss g' l -> healthy g -> healthy g'.
Proof.
  induction 1 as [|g s r g1 l1 g2 l2 N L E IH]; intro HG; [ exact HG | ].
  apply IH. eapply lists_healthy; eauto.
Qed.
End Cleaner.
