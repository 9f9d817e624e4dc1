(** Proofs about the migration: every node is fresh or carried. *)
From Coq Require Import List Arith NArith Bool Ascii Lia.
From Verif Require Import M_Path M_Names M_Migrate S_Migrate.
Import ListNotations.
Open Scope nat_scope.

Lemma str_eqb_eq : forall a b, str_eqb a b = true <-> a = b.
Proof.
  induction a as [|x a IH]; intros [|y b]; cbn; split; try discriminate; try reflexivity.
  - intros H. apply andb_true_iff in H as [H1 H2]. apply Ascii.eqb_eq in H1. apply IH in H2. now subst.
  - intros H. injection H as -> ->. rewrite Ascii.eqb_refl. cbn. now apply IH.
Qed.
Lemma strs_eqb_eq : forall a b, strs_eqb a b = true <-> a = b.
Proof.
  induction a as [|x a IH]; intros [|y b]; cbn; split; try discriminate; try reflexivity.
  - destruct (str_eqb x y) eqn:E; [|discriminate]. intros H. apply str_eqb_eq in E. apply IH in H. now subst.
  - intros H. injection H as -> ->. replace (str_eqb y y) with true by (symmetry; now apply str_eqb_eq). now apply IH.
Qed.

Scheme pval_mind := Induction for pval Sort Prop
with fields_mind := Induction for fields Sort Prop
with list_fields_mind := Induction for list_fields Sort Prop.
Combined Scheme pval_mutind from pval_mind, fields_mind, list_fields_mind.

Lemma same_agree :
  (forall a b, val_same a b = true <-> agree a b) /\
  (forall a b, fields_same a b = true <-> agree_fields a b) /\
  (forall a b, structs_same a b = true <-> agree_structs_list a b).
Proof.
  apply pval_mutind.
  - intros s [ ]; cbn; split; intros H; try discriminate H; try (inversion H; fail).
    + apply str_eqb_eq in H. subst. constructor.
    + inversion H; subst. now apply str_eqb_eq.
  - intros s [ ]; cbn; split; intros H; try discriminate H; try (inversion H; fail).
    + apply strs_eqb_eq in H. subst. constructor.
    + inversion H; subst. now apply strs_eqb_eq.
  - intros s [ ]; cbn; split; intros H; try discriminate H; try (inversion H; fail).
    + apply N.eqb_eq in H. subst. constructor.
    + inversion H; subst. now apply N.eqb_eq.
  - intros s [ ]; cbn; split; intros H; try discriminate H; try (inversion H; fail).
    + apply eqb_prop in H. subst. constructor.
    + inversion H; subst. now apply eqb_reflx.
  - intros s IH [ ]; cbn; split; intros H; try discriminate H; try (inversion H; fail).
    + constructor. now apply IH.
    + inversion H; subst. now apply IH.
  - intros s IH [ ]; cbn; split; intros H; try discriminate H; try (inversion H; fail).
    + constructor. now apply IH.
    + inversion H; subst. now apply IH.
  - intros s [ | | | | | | t | ]; cbn; split; intros H; try discriminate H; try (inversion H; fail).
    + destruct s, t; try discriminate H; [apply str_eqb_eq in H; subst|]; constructor.
    + inversion H; subst. destruct t; [|reflexivity]. now apply str_eqb_eq.
  - intros s [ ]; cbn; split; intros H; try discriminate H; try (inversion H; fail).
    + apply strs_eqb_eq in H. subst. constructor.
    + inversion H; subst. now apply strs_eqb_eq.
  - intros [ ]; cbn; split; intros H; try discriminate H; try (inversion H; fail). constructor. reflexivity.
  - intros i v IHv r IHr [|j w s]; cbn; split; intros H; try discriminate H; try (inversion H; fail).
    + destruct i, j; cbn in H; try discriminate H.
      * constructor. now apply IHr.
      * destruct (val_same v w) eqn:E; [|discriminate H]. constructor; [now apply IHv|now apply IHr].
    + inversion H; subst; cbn.
      * replace (val_same v w) with true by (symmetry; now apply IHv). now apply IHr.
      * now apply IHr.
  - intros [ ]; cbn; split; intros H; try discriminate H; try (inversion H; fail). constructor. reflexivity.
  - intros f IHf r IHr [|w s]; cbn; split; intros H; try discriminate H; try (inversion H; fail).
    + destruct (fields_same f w) eqn:E; [|discriminate H]. constructor; [now apply IHf|now apply IHr].
    + inversion H; subst; cbn. replace (fields_same f w) with true by (symmetry; now apply IHf). now apply IHr.
Qed.

Lemma agree_take : forall o n, agree_fields o n -> agree_fields o (take_ignored n o).
Proof. intros o n H. induction H; cbn; constructor; auto. Qed.
Lemma results_take : forall o n, agree_fields o n -> same_results (take_ignored n o) o.
Proof. intros o n H. induction H; cbn; constructor; auto. Qed.

Lemma agree_untake : forall o n, agree_fields o n -> forall x, agree_fields x (take_ignored n o) -> agree_fields x n.
Proof.
  intros o n H. induction H; intros x Hx; cbn in Hx; auto; inversion Hx; subst; constructor; auto.
Qed.

(** Lists. *)
Lemma set_nth_length : forall A k (x : A) l, length (set_nth k x l) = length l.
Proof. intros A k x l. revert k. induction l as [|y l IH]; intros [|k]; cbn; auto. Qed.
Lemma set_nth_same : forall A k (x : A) l, k < length l -> nth_error (set_nth k x l) k = Some x.
Proof. intros A k x l. revert k. induction l as [|y l IH]; intros [|k] H; cbn in *; try lia; auto. apply IH. lia. Qed.
Lemma set_nth_other : forall A k j (x : A) l, j <> k -> nth_error (set_nth k x l) j = nth_error l j.
Proof.
  intros A k j x l. revert k j. induction l as [|y l IH]; intros [|k] [|j] H; cbn; auto; try lia.
Qed.
Lemma nth_lt : forall A (l : list A) k x, nth_error l k = Some x -> k < length l.
Proof. intros. apply nth_error_Some. congruence. Qed.
Lemma memb_In : forall k l, memb k l = true <-> In k l.
Proof.
  intros k l. unfold memb. rewrite existsb_exists. split.
  - intros [x [H1 H2]]. apply Nat.eqb_eq in H2. now subst.
  - intros H. exists k. split; [exact H|apply Nat.eqb_refl].
Qed.
Lemma memb_nIn : forall k l, memb k l = false <-> ~ In k l.
Proof. intros k l. rewrite <- memb_In. destruct (memb k l); split; intros; congruence. Qed.

Lemma find_from_some : forall g k nm j, find_from k g nm = Some j ->
  exists i n, j = k + i /\ nth_error g i = Some n /\ equals_i (name n) nm = true.
Proof.
  induction g as [|n g IH]; intros k nm j H; [discriminate|]. cbn [find_from] in H.
  destruct (equals_i (name n) nm) eqn:E.
  - injection H as <-. exists 0, n. repeat split; [lia|exact E].
  - apply IH in H as (i & m & -> & H1 & H2). exists (S i), m. repeat split; [lia|exact H1|exact H2].
Qed.
Lemma find_some : forall g nm j, find_node g nm = Some j ->
  exists n, nth_error g j = Some n /\ equals_i (name n) nm = true.
Proof. intros g nm j H. apply find_from_some in H as (i & n & -> & H). now exists n. Qed.
Lemma find_from_none : forall g k nm, find_from k g nm = None ->
  forall i n, nth_error g i = Some n -> equals_i (name n) nm = false.
Proof.
  induction g as [|n g IH]; intros k nm H [|i] m Hm; try discriminate Hm; cbn in H, Hm.
  - injection Hm as ->. destruct (equals_i (name m) nm); [discriminate|reflexivity].
  - destruct (equals_i (name n) nm); [discriminate|]. now apply (IH (S k) nm H i).
Qed.
Lemma find_none : forall g nm, find_node g nm = None ->
  forall i n, nth_error g i = Some n -> equals_i (name n) nm = false.
Proof. intros g nm H. now apply (find_from_none g 0). Qed.

Lemma equals_i_refl : forall s, equals_i s s = true.
Proof. induction s as [|x s IH]; cbn; [reflexivity|]. rewrite Ascii.eqb_refl. now destruct (Ascii.eqb x nul). Qed.

(** Two versions of the same node. *)
Record kept (n n' : node) : Prop := {
  k_name : name n' = name n; k_type : type n' = type n; k_pre : pre n' = pre n;
  k_stat : map to (stat n') = map to (stat n);
  k_set : forall x, agree_fields x (props n') -> agree_fields x (props n) }.
Lemma kept_refl : forall n, kept n n.
Proof. now constructor. Qed.
Lemma kept_trans : forall a b c, kept a b -> kept b c -> kept a c.
Proof. intros a b c [? ? ? ? A] [? ? ? ? B]. constructor; try congruence. auto. Qed.

(** From one state of the migration to a later one: the nodes that were visited are left alone. *)
Record ext (s s' : mst) : Prop := {
  e_len : length (fst s) <= length (fst s');
  e_vis : incl (snd s) (snd s');
  e_kept : forall i n, nth_error (fst s) i = Some n -> exists n', nth_error (fst s') i = Some n' /\ kept n n';
  e_same : forall i n, In i (snd s) -> nth_error (fst s) i = Some n -> nth_error (fst s') i = Some n }.
Lemma ext_refl : forall s, ext s s.
Proof. intros s. constructor; auto using incl_refl. intros i n H. exists n. auto using kept_refl. Qed.
Lemma ext_trans : forall a b c, ext a b -> ext b c -> ext a c.
Proof.
  intros a b c [L1 V1 K1 S1] [L2 V2 K2 S2]. constructor.
  - lia.
  - eauto using incl_tran.
  - intros i n H. apply K1 in H as (n1 & H & Kn). apply K2 in H as (n2 & H & Kn2). exists n2. split; [exact H|]. eauto using kept_trans.
  - intros i n Hi H. apply S2; [now apply V1|]. now apply S1.
Qed.

Section S.
Context (R : str -> nat) (HR : caseless R) (init : initialiser) (old : graph).
Context (Hinit : prepares R old init) (Hod : ordered_dyn R old).

Definition done_deps (v P : list nat) (n : node) : Prop :=
  forall d, In d (pre n ++ stat n) -> In (to d) v /\ ~ In (to d) P.

Record Inv (P : list nat) (s : mst) : Prop := {
  i_ord : ordered R (fst s);
  i_prog : incl P (snd s);
  i_vis : forall i, In i (snd s) -> i < length (fst s);
  i_node : forall i n, nth_error (fst s) i = Some n -> fresh n \/
      (In i (snd s) /\ ~ In i P /\ done_deps (snd s) P n /\
       exists h o, nth_error old h = Some o /\ carried old (fst s) o n) }.

Lemma ordered_kept : forall g g', length g <= length g' ->
  (forall i n, nth_error g i = Some n -> exists n', nth_error g' i = Some n' /\ kept n n') ->
  (length g' = length g) -> ordered R g -> ordered R g'.
Proof.
  intros g g' _ K L O i n H d Hd.
  assert (Hi : i < length g) by (apply nth_lt in H; lia).
  destruct (nth_error g i) as [n0|] eqn:E; [|apply nth_error_None in E; lia].
  destruct (K _ _ E) as (n' & H' & [Kn Kt Kp Ks _]). rewrite H in H'. injection H' as <-.
  assert (Hd' : exists d0, In d0 (pre n0 ++ stat n0) /\ to d0 = to d).
  { rewrite in_app_iff in Hd. destruct Hd as [Hd|Hd].
    - exists d. rewrite Kp in Hd. rewrite in_app_iff. auto.
    - apply (in_map to) in Hd. rewrite Ks in Hd. apply in_map_iff in Hd as (d0 & E0 & Hd). exists d0. rewrite in_app_iff. auto. }
  destruct Hd' as (d0 & Hd0 & Et). destruct (O _ _ E d0 Hd0) as (m & Hm & Lt). rewrite Et in Hm.
  destruct (K _ _ Hm) as (m' & Hm' & [Kn' _ _ _ _]). exists m'. split; [exact Hm'|]. rewrite Kn', Kn. exact Lt.
Qed.

(** Carried nodes stay so. *)
Lemma Forall2_weaken : forall A B (P Q : A -> B -> Prop) l l', (forall a b, In a l -> P a b -> Q a b) ->
  Forall2 P l l' -> Forall2 Q l l'.
Proof. intros A B P Q l l' H F. induction F; constructor; auto using in_eq, in_cons. Qed.

Lemma carried_ext : forall g g' v P o n,
  (forall i n, nth_error g i = Some n -> exists n', nth_error g' i = Some n' /\ kept n n') ->
  (forall i n, In i v -> ~ In i P -> nth_error g i = Some n -> nth_error g' i = Some n) ->
  done_deps v P n -> carried old g o n -> carried old g' o n.
Proof.
  intros g g' v P o n K S D [C1 C2 C3 C4 C5 C6 C7 C8 C9].
  assert (St : forall d d0, In d (pre n ++ stat n) -> same_state old g d d0 -> same_state old g' d d0).
  { intros d d0 Hd (m' & m & H1 & H2 & H3). destruct (D d Hd) as [Dv Dp]. exists m', m. split; [now apply S|]. now split. }
  constructor; auto.
  - eapply Forall2_weaken; [|exact C5]. intros a b Ha. apply St. rewrite in_app_iff. auto.
  - eapply Forall2_weaken; [|exact C6]. intros a b Ha [H1 H2]. split; [|exact H2]. apply St; [|exact H1]. rewrite in_app_iff. auto.
  - eapply Forall2_weaken; [|exact C7]. intros a b Ha [(m' & m & H1 & H2 & H3 & H4) H5]. split; [|exact H5].
    destruct (K _ _ H1) as (m2 & Hm2 & [Kn Kt _ _ _]). exists m2, m. rewrite Kn, Kt. auto.
Qed.

Definition good (rec : mst -> nat -> option nat -> res mst) : Prop :=
  forall P s i hint s' n,
    rec s i hint = Done s' -> Inv P s -> nth_error (fst s) i = Some n ->
    (forall p m, In p P -> nth_error (fst s) p = Some m -> R (name n) < R (name m)) ->
    (forall h, hint = Some h -> exists o, nth_error old h = Some o /\ equals_i (name n) (name o) = true) ->
    Inv P s' /\ ext s s' /\ In i (snd s') /\ ~ In i P.

Lemma each_good : forall rec, good rec -> forall ds P s s',
  each rec ds s = Done s' -> Inv P s ->
  (forall d, In d ds -> exists n, nth_error (fst s) (to d) = Some n /\
     forall p m, In p P -> nth_error (fst s) p = Some m -> R (name n) < R (name m)) ->
  Inv P s' /\ ext s s' /\ (forall d, In d ds -> In (to d) (snd s') /\ ~ In (to d) P).
Proof.
  intros rec Hg. induction ds as [|d ds IH]; intros P s s' H I Hd.
  - injection H as <-. split; [exact I|]. split; [apply ext_refl|]. intros d [].
  - cbn [each] in H. destruct (rec s (to d) None) as [s1| |] eqn:E; try discriminate H. cbn [bind] in H.
    destruct (Hd d (or_introl eq_refl)) as (n & Hn & Hp).
    destruct (Hg P s (to d) None s1 n E I Hn Hp) as (I1 & X1 & V1 & N1); [discriminate|].
    destruct (IH P s1 s' H I1) as (I2 & X2 & V2).
    + intros d' Hd'. destruct (Hd d' (or_intror Hd')) as (n' & Hn' & Hp').
      destruct (e_kept _ _ X1 _ _ Hn') as (n1 & Hn1 & Kn). exists n1. split; [exact Hn1|].
      intros p m Hpp Hm. pose proof (i_prog _ _ I p Hpp) as Hv.
      destruct (nth_error (fst s) p) as [m0|] eqn:E0.
      * rewrite (k_name _ _ Kn). specialize (Hp' p m0 Hpp E0). rewrite (e_same _ _ X1 p m0 Hv E0) in Hm. injection Hm as <-. exact Hp'.
      * apply nth_error_None in E0. apply (i_vis _ _ I) in Hv. lia.
    + split; [exact I2|]. split; [eauto using ext_trans|].
      intros d' [<-|Hd']; [|now apply V2]. split; [|exact N1]. now apply (e_vis _ _ X2).
Qed.

Lemma deps_match_state : forall g a b, deps_match old g a b = true -> Forall2 (same_state old g) b a.
Proof.
  intros g. induction a as [|x a IH]; intros [|y b] H; try discriminate H; [constructor|].
  cbn [deps_match] in H. destruct (nth_error old (to x)) as [m|] eqn:E1; [|discriminate].
  destruct (nth_error g (to y)) as [n|] eqn:E2; [|discriminate].
  destruct (N.eqb_spec (type m) (type n)); [|discriminate]. destruct (N.eqb_spec (stamp m) (stamp n)); [|discriminate].
  destruct (str_eqb (name m) (name n)) eqn:E3; [|discriminate]. apply str_eqb_eq in E3.
  constructor; [|now apply IH]. exists n, m. auto.
Qed.

Lemma restamp_to : forall o l, map to (restamp o l) = map to l.
Proof. intros o l. revert o. induction l as [|d l IH]; intros [|e o]; cbn; auto. now rewrite IH. Qed.
Lemma restamp_state : forall g l o, Forall2 (same_state old g) l o ->
  Forall2 (fun d' d => same_state old g d' d /\ seen d' = seen d) (restamp o l) o.
Proof.
  intros g l o F. induction F as [|d e l o H F IH]; cbn [restamp]; [constructor|].
  constructor; [|exact IH]. split; [exact H|reflexivity].
Qed.

(** Adding a node that has never been built. *)
Lemma inv_grow : forall P g v g', Inv P (g, v) -> ordered R g' ->
  (forall j m, nth_error g j = Some m -> nth_error g' j = Some m) ->
  (forall j m, nth_error g' j = Some m -> length g <= j -> fresh m) ->
  length g <= length g' -> Inv P (g', v) /\ ext (g, v) (g', v).
Proof.
  intros P g v g' [O Pv Vl Nd] O' K F L. cbn in *.
  assert (X : ext (g, v) (g', v)).
  { constructor; cbn; auto using incl_refl. intros i n H. exists n. split; [now apply K|apply kept_refl]. }
  split; [|exact X]. constructor; cbn; auto.
  - intros i Hi. apply Vl in Hi. lia.
  - intros i n H. destruct (Nat.lt_ge_cases i (length g)) as [Lt|Ge]; [|left; now apply (F i)].
    destruct (nth_error g i) as [m|] eqn:E; [|apply nth_error_None in E; lia].
    rewrite (K _ _ E) in H. injection H as <-. destruct (Nd _ _ E) as [Fr|(Hv & Hp & D & h & o & Ho & C)]; [now left|].
    right. split; [exact Hv|]. split; [exact Hp|]. split; [exact D|]. exists h, o. split; [exact Ho|].
    eapply carried_ext; [|intros ? ? ? ?; apply K|exact D|exact C].
    intros j m' Hj. exists m'. split; [now apply K|apply kept_refl].
Qed.

Lemma dynamics_good : forall rec, good rec -> forall ds P s acc dsold s' r,
  dynamics rec init old ds s acc = Done (s', r) -> Inv P s ->
  Forall2 (fun d' d => same_found old (fst s) d' d /\ seen d' = seen d /\ weak d' = weak d) acc dsold ->
  (forall d, In d ds -> exists o, nth_error old (to d) = Some o /\
     forall p m, In p P -> nth_error (fst s) p = Some m -> R (name o) < R (name m)) ->
  Inv P s' /\ ext s s' /\
  (forall l, r = Some l ->
     Forall2 (fun d' d => same_found old (fst s') d' d /\ seen d' = seen d /\ weak d' = weak d) l (dsold ++ ds)).
Proof.
  intros rec Hg. induction ds as [|d ds IH]; intros P s acc dsold s' r H I F Hd.
  - injection H as <- <-. split; [exact I|]. split; [apply ext_refl|]. intros l [= <-]. now rewrite app_nil_r.
  - cbn [dynamics] in H. destruct (Hd d (or_introl eq_refl)) as (o & Ho & Hp). rewrite Ho in H.
    assert (Fm : forall s1, ext s s1 ->
       Forall2 (fun d' d => same_found old (fst s1) d' d /\ seen d' = seen d /\ weak d' = weak d) acc dsold).
    { intros s1 X. eapply Forall2_weaken; [|exact F]. intros a b _ [(m' & m & H1 & H2 & H3 & H4) H5]. split; [|exact H5].
      destruct (e_kept _ _ X _ _ H1) as (m2 & Hm2 & [Kn Kt _ _ _]). exists m2, m. rewrite Kn, Kt. auto. }
    assert (Dm : forall s1, ext s s1 -> forall d', In d' ds -> exists o', nth_error old (to d') = Some o' /\
       forall p m, In p P -> nth_error (fst s1) p = Some m -> R (name o') < R (name m)).
    { intros s1 X d' Hd'. destruct (Hd d' (or_intror Hd')) as (o' & Ho' & Hp'). exists o'. split; [exact Ho'|].
      intros p m Hpp Hm. pose proof (i_prog _ _ I p Hpp) as Hv.
      destruct (nth_error (fst s) p) as [m0|] eqn:E0.
      - rewrite (e_same _ _ X p m0 Hv E0) in Hm. injection Hm as <-. now apply (Hp' p).
      - apply nth_error_None in E0. apply (i_vis _ _ I) in Hv. lia. }
    assert (App : forall s1 j n, ext s s1 -> nth_error (fst s1) j = Some n -> equals_i (name n) (name o) = true -> type n = type o ->
       Forall2 (fun d' d => same_found old (fst s1) d' d /\ seen d' = seen d /\ weak d' = weak d)
         (acc ++ [Dep j (seen d) (weak d)]) (dsold ++ [d])).
    { intros s1 j n X Hj E1 E2. apply Forall2_app; [now apply Fm|]. constructor; [|constructor]. cbn. split; [|auto].
      exists n, o. auto. }
    destruct (find_node (fst s) (name o)) as [j|] eqn:Ef.
    + apply find_some in Ef as (n & Hn & En). rewrite Hn in H.
      destruct (N.eqb_spec (type n) (type o)) as [Et|Et]; cbn [negb] in H.
      * specialize (IH P s _ (dsold ++ [d]) s' r H I (App s j n (ext_refl s) Hn En Et) (Dm s (ext_refl s))).
        destruct IH as (I2 & X2 & F2). split; [exact I2|]. split; [exact X2|]. intros l El. specialize (F2 l El). now rewrite <- app_assoc in F2.
      * injection H as <- <-. split; [exact I|]. split; [apply ext_refl|]. discriminate.
    + destruct s as [g v]. cbn [fst snd] in *.
      destruct (N.eqb_spec (type o) file_type) as [Et|Et].
      * destruct (inv_grow P g v (g ++ [created o FNil]) I) as [I1 X1].
        -- intros i n Hn dd Hdd. destruct (Nat.lt_ge_cases i (length g)) as [Lt|Ge].
           ++ rewrite nth_error_app1 in Hn by exact Lt. destruct (i_ord _ _ I i n Hn dd Hdd) as (m & Hm & Hl).
              exists m. split; [|exact Hl]. rewrite nth_error_app1; [exact Hm|]. now apply nth_lt in Hm.
           ++ rewrite nth_error_app2 in Hn by exact Ge. destruct (i - length g) as [|[|k]]; try discriminate Hn.
              injection Hn as <-. destruct Hdd.
        -- intros j m Hm. rewrite nth_error_app1; [exact Hm|]. now apply nth_lt in Hm.
        -- intros j m Hm Ge. rewrite nth_error_app2 in Hm by exact Ge. destruct (j - length g) as [|[|k]]; try discriminate Hm.
           injection Hm as <-. now split.
        -- rewrite app_length. lia.
        -- assert (Hn : nth_error (g ++ [created o FNil]) (length g) = Some (created o FNil)).
           { rewrite nth_error_app2 by lia. now rewrite Nat.sub_diag. }
           specialize (IH P (g ++ [created o FNil], v) _ (dsold ++ [d]) s' r H I1
              (App (g ++ [created o FNil], v) (length g) _ X1 Hn (equals_i_refl _) eq_refl) (Dm _ X1)).
           destruct IH as (I2 & X2 & F2). split; [exact I2|]. split; [eauto using ext_trans|].
           intros l El. specialize (F2 l El). now rewrite <- app_assoc in F2.
      * destruct (copy_fields (g ++ [created o FNil]) (props o)) as [p|] eqn:Ep; [|discriminate H].
        set (g1 := init (g ++ [created o p]) (length g)) in *.
        destruct (rec (g1, v) (length g) (Some (to d))) as [s1| |] eqn:Er; try discriminate H. cbn [bind] in H.
        assert (Fo : from_old old (created o p)).
        { exists (to d), o. repeat split; auto. }
        destruct Hinit as [Po Pn Pa Pr].
        destruct (Pn g (created o p) Fo) as (n' & Hn' & Nn & Nt & Nf). fold g1 in Hn'.
        destruct (inv_grow P g v g1 I) as [I1 X1].
        -- apply Pr; [exact Fo|]. exact (i_ord _ _ I).
        -- intros j m Hm. now apply Po.
        -- intros j m Hm Ge. destruct (Nat.eq_dec j (length g)) as [->|Hne].
           ++ rewrite Hn' in Hm. now injection Hm as <-.
           ++ apply (Pa g (created o p) j m Fo Hm); lia.
        -- apply nth_lt in Hn'. lia.
        -- assert (Hp1 : forall q m, In q P -> nth_error g1 q = Some m -> R (name n') < R (name m)).
           { intros q m Hq Hm. rewrite Nn. cbn [created name]. pose proof (i_prog _ _ I q Hq) as Hv.
             destruct (nth_error g q) as [m0|] eqn:E0.
             - pose proof (e_same _ _ X1 q m0 Hv E0) as Eq. cbn in Eq. rewrite Eq in Hm. injection Hm as <-. now apply (Hp q).
             - apply nth_error_None in E0. apply (i_vis _ _ I) in Hv. cbn in Hv. lia. }
           destruct (Hg P (g1, v) (length g) (Some (to d)) s1 n' Er I1 Hn' Hp1) as (I2 & X2 & V2 & N2).
           { intros h [= <-]. exists o. split; [exact Ho|]. rewrite Nn. apply equals_i_refl. }
           assert (X12 : ext (g, v) s1) by eauto using ext_trans.
           destruct (e_kept _ _ X2 _ _ Hn') as (n2 & Hn2 & [Kn Kt _ _ _]).
           assert (A2 : equals_i (name n2) (name o) = true) by (rewrite Kn, Nn; apply equals_i_refl).
           assert (A3 : type n2 = type o) by (rewrite Kt, Nt; reflexivity).
           specialize (IH P s1 _ (dsold ++ [d]) s' r H I2 (App s1 (length g) n2 X12 Hn2 A2 A3) (Dm _ X12)).
           destruct IH as (I3 & X3 & F3). split; [exact I3|]. split; [eauto using ext_trans|].
           intros l El. specialize (F3 l El). now rewrite <- app_assoc in F3.
Qed.
End S.
