(** Traversal of the graph and inputs of object lists. *)

From Coq Require Import String List Bool Arith Ascii Lia.
From Verif Require Import M_Path M_Args S_Args M_Drv S_Drv M_Compdb S_Compdb.
Import ListNotations.
Local Open Scope list_scope.

Lemma mem_in : forall n l, mem n l = true <-> In n l.
Proof.
  intros n l. unfold mem. rewrite existsb_exists. split.
  - intros (x & I & E). apply Nat.eqb_eq in E. now subst.
  - intros I. exists n. split; [assumption|apply Nat.eqb_refl].
Qed.
Lemma mem_out : forall n l, mem n l = false <-> ~ In n l.
Proof. intros n l. rewrite <- mem_in. destruct (mem n l); split; congruence. Qed.

Section Graph.
Context (g : graph) (rank : nat -> nat).
Hypothesis down : forall n nd m, nth_error g n = Some nd -> In m (deps nd) -> rank m < rank n.
Hypothesis shut : closed g.

(** Every node comes after those it depends on. *)
Definition post (out : list nat) : Prop := forall a x b, out = a ++ x :: b -> forall nd, nth_error g x = Some nd -> incl (deps nd) a.
Lemma post_app : forall out n nd, post out -> nth_error g n = Some nd -> incl (deps nd) out -> post (out ++ [n]).
Proof.
  intros out n nd P E I a x b S nd' E'. destruct (exists_last (l := x :: b)) as (b' & y & Eb); [discriminate|].
  rewrite Eb, app_assoc in S. apply app_inj_tail in S as [S ->].
  destruct b' as [|z b'].
  - injection Eb as -> ->. rewrite app_nil_r in S. subst a. rewrite E in E'. injection E' as <-. exact I.
  - injection Eb as <- Eb. exact (P _ _ _ S _ E').
Qed.

Definition good (st : list nat * list nat) : Prop := NoDup (snd st) /\ incl (snd st) (fst st) /\ post (snd st).
(** [st'] comes from [st] by visits to what [roots] lead to. *)
Definition after (roots : list nat) (st st' : list nat * list nat) : Prop :=
  good st' /\ incl (fst st) (fst st') /\ incl (snd st) (snd st') /\
  (forall x, In x (fst st') -> In x (snd st') \/ In x (fst st)) /\
  (forall x, In x (fst st') -> In x (fst st) \/ reach g roots x) /\
  (forall x, In x (snd st') -> In x (snd st) \/ ~ In x (fst st)) /\
  incl roots (snd st').

Lemma reach_mono : forall roots roots', (forall x, In x roots -> reach g roots' x) -> forall x, reach g roots x -> reach g roots' x.
Proof. intros roots roots' H x R. induction R; [auto|eapply r_dep; eauto]. Qed.

Lemma visits_after : forall rec k,
  (forall n st, rank n < k -> n < List.length g -> good st -> (forall x, In x (fst st) -> In x (snd st) \/ k <= rank x) ->
     exists st', rec n st = Some st' /\ after [n] st st') ->
  forall ds st, (forall n, In n ds -> rank n < k /\ n < List.length g) -> good st ->
     (forall x, In x (fst st) -> In x (snd st) \/ k <= rank x) ->
     exists st', visits rec ds st = Some st' /\ after ds st st'.
Proof.
  intros rec k H. induction ds as [|n ds IH]; intros st D G P.
  - exists st. split; [reflexivity|]. repeat split; try apply G; try apply incl_refl; auto. intros x [].
  - destruct (D n (or_introl eq_refl)) as [R Rg]. destruct (H n st R Rg G P) as (st1 & E1 & G1 & A1 & B1 & C1 & D1 & N1 & F1).
    destruct (IH st1) as (st2 & E2 & G2 & A2 & B2 & C2 & D2 & N2 & F2).
    + intros m I. apply D. now right.
    + exact G1.
    + intros x I. destruct (C1 x I) as [I'|I']; [now left|]. destruct (P x I') as [I2|I2]; [left; now apply B1|now right].
    + exists st2. cbn [visits]. rewrite E1. split; [exact E2|]. repeat split; try apply G2.
      * eapply incl_tran; eauto.
      * eapply incl_tran; eauto.
      * intros x I. destruct (C2 x I) as [I'|I']; [now left|]. destruct (C1 x I') as [I2|I2]; [left; now apply B2|now right].
      * intros x I. destruct (D2 x I) as [I'|I'].
        -- destruct (D1 x I') as [I2|I2]; [now left|right]. eapply reach_mono; [|exact I2]. intros y [<-|[]]. apply r_root. now left.
        -- right. eapply reach_mono; [|exact I']. intros y Iy. apply r_root. now right.
      * intros x I. destruct (N2 x I) as [I'|I']; [now apply N1|right]. intros J. apply I'. now apply A1.
      * intros x [<-|I]; [apply B2, F1; now left|now apply F2].
Qed.

Lemma visit_after : forall fuel n st, rank n < fuel -> n < List.length g -> good st ->
  (forall x, In x (fst st) -> In x (snd st) \/ rank n < rank x) ->
  exists st', visit fuel g n st = Some st' /\ after [n] st st'.
Proof.
  induction fuel as [|f IH]; intros n [seen out] R Rg (G1 & G2 & G3) P; [lia|]. cbn [fst snd] in *.
  cbn [visit]. destruct (mem n seen) eqn:M.
  - apply mem_in in M. exists (seen, out). split; [reflexivity|]. repeat split; cbn [fst snd]; auto; try apply incl_refl.
    intros x [<-|[]]. destruct (P n M); [assumption|lia].
  - apply mem_out in M. destruct (nth_error g n) as [nd|] eqn:E; [|apply nth_error_None in E; lia].
    assert (Dd : forall ds, incl ds (deps nd) -> forall m, In m ds -> rank m < rank n /\ m < List.length g).
    { intros ds I m Im. split; [eapply down; eauto|eapply shut; eauto]. }
    assert (Rec : forall m st, rank m < rank n -> m < List.length g -> good st -> (forall x, In x (fst st) -> In x (snd st) \/ rank n <= rank x) ->
               exists st', visit f g m st = Some st' /\ after [m] st st').
    { intros m st Rm Rgm Gm Pm. apply IH; auto; [lia|]. intros x I. destruct (Pm x I); [now left|right; lia]. }
    assert (I1 : incl (pre nd) (deps nd)) by (unfold deps; apply incl_appl, incl_refl).
    assert (I2 : incl (static nd) (deps nd)) by (unfold deps; apply incl_appr, incl_appl, incl_refl).
    assert (I3 : incl (dynamic nd) (deps nd)) by (unfold deps; apply incl_appr, incl_appr, incl_refl).
    destruct (visits_after (visit f g) (rank n) Rec (pre nd) (n :: seen, out)) as (s1 & E1 & Go1 & A1 & B1 & C1 & D1 & N1 & F1).
    { now apply Dd. } { repeat split; cbn [fst snd]; auto. intros x I. right. now apply G2. }
    { cbn [fst snd]. intros x [<-|I]; [right; lia|]. destruct (P x I); [now left|right; lia]. }
    rewrite E1.
    assert (P1 : forall x, In x (fst s1) -> In x (snd s1) \/ rank n <= rank x).
    { intros x I. destruct (C1 x I) as [I'|I']; [now left|]. destruct I' as [<-|I']; [right; lia|]. destruct (P x I'); [left; now apply B1|right; lia]. }
    destruct (visits_after (visit f g) (rank n) Rec (static nd) s1) as (s2 & E2 & Go2 & A2 & B2 & C2 & D2 & N2 & F2); [now apply Dd|exact Go1|exact P1|].
    rewrite E2.
    assert (P2 : forall x, In x (fst s2) -> In x (snd s2) \/ rank n <= rank x).
    { intros x I. destruct (C2 x I) as [I'|I']; [now left|]. destruct (P1 x I'); [left; now apply B2|now right]. }
    destruct (visits_after (visit f g) (rank n) Rec (dynamic nd) s2) as ([seen3 out3] & E3 & Go3 & A3 & B3 & C3 & D3 & N3 & F3); [now apply Dd|exact Go2|exact P2|].
    rewrite E3. cbn [fst snd] in *. exists (seen3, out3 ++ [n]). split; [reflexivity|].
    assert (Nn : ~ In n out3).
    { intros I. destruct (N3 n I) as [J|J]; [|apply J, A2, A1; now left].
      destruct (N2 n J) as [K|K]; [|apply K, A1; now left]. destruct (N1 n K) as [X|X]; [now apply M, G2|apply X; now left]. }
    destruct Go3 as (Q1 & Q2 & Q3). cbn [fst snd] in *.
    assert (Sub : forall y, In y (deps nd) -> reach g [n] y).
    { intros y I. eapply r_dep; eauto. apply r_root. now left. }
    repeat split; cbn [fst snd].
    + apply NoDup_rev in Q1. rewrite <- (rev_involutive (out3 ++ [n])). apply NoDup_rev.
      rewrite rev_app_distr. cbn. constructor; [|assumption]. now rewrite <- in_rev.
    + intros x I. apply in_app_iff in I as [I|[<-|[]]]; [now apply Q2|]. apply A3, A2, A1. now left.
    + eapply post_app; eauto. unfold deps. repeat apply incl_app.
      * eapply incl_tran; [exact F1|]. eapply incl_tran; eauto.
      * eapply incl_tran; eauto.
      * exact F3.
    + intros x I. apply A3, A2, A1. now right.
    + intros x I. apply in_app_iff. left. now apply B3, B2, B1.
    + intros x I. rewrite in_app_iff. destruct (C3 x I) as [J|J]; [left; now left|].
      destruct (C2 x J) as [K|K]; [left; left; now apply B3|]. destruct (C1 x K) as [X|X]; [left; left; now apply B3, B2|].
      destruct X as [<-|X]; [left; right; now left|now right].
    + intros x I. destruct (D3 x I) as [J|J]; [|right; eapply reach_mono; [|exact J]; auto].
      destruct (D2 x J) as [K|K]; [|right; eapply reach_mono; [|exact K]; auto].
      destruct (D1 x K) as [X|X]; [|right; eapply reach_mono; [|exact X]; auto].
      destruct X as [<-|X]; [right; apply r_root; now left|now left].
    + intros x I. apply in_app_iff in I as [I|[<-|[]]]; [|now right].
      destruct (N3 x I) as [J|J]; [|right; intros X; apply J, A2, A1; now right].
      destruct (N2 x J) as [K|K]; [|right; intros X; apply K, A1; now right].
      destruct (N1 x K) as [X|X]; [now left|right; intros Y; apply X; now right].
    + intros x [<-|[]]. apply in_app_iff. right. now left.
Qed.

Lemma traversal : forall fuel roots, (forall n, In n roots -> rank n < fuel /\ n < List.length g) ->
  exists seen out, visits (visit fuel g) roots ([], []) = Some (seen, out) /\ NoDup out /\ post out /\
  forall n, In n out <-> reach g roots n.
Proof.
  intros fuel roots H.
  destruct (visits_after (visit fuel g) fuel) with (ds := roots) (st := (@nil nat, @nil nat)) as ([seen out] & E & (G1 & G2 & G3) & A & B & C & D & N & F).
  - intros n st R Rg G P. apply visit_after; auto. intros x I. destruct (P x I); [now left|right; lia].
  - exact H.
  - repeat split; cbn; [constructor|apply incl_refl|]. intros a x b S. now destruct a.
  - intros x [].
  - cbn [fst snd] in *. exists seen, out. repeat split; auto.
    + intros I. destruct (D n (G2 _ I)) as [[]|R]. exact R.
    + intros R. induction R as [n I|n nd m R IH E' I]; [now apply F|].
      apply in_split in IH as (a & b & S). pose proof (G3 _ _ _ S _ E' _ I) as J. rewrite S. apply in_app_iff. now left.
Qed.

(** ** Inputs *)
Lemma all_of_some : forall (A : Type) (l : list (option (list A))) ls, Forall2 (fun x y => x = Some y) l ls -> all_of l = Some (concat ls).
Proof.
  intros A l ls F. induction F as [|x y l ls E F IH]; [reflexivity|]. cbn [all_of concat]. rewrite E, IH. reflexivity.
Qed.

Lemma inputs_static : forall nd o, incl (inputs nd o) (static nd).
Proof.
  intros nd o x I. unfold inputs in I.
  assert (J : In x (skipn (first o) (static nd))).
  { rewrite <- (firstn_skipn (last o - first o) (skipn (first o) (static nd))). apply in_app_iff. now left. }
  rewrite <- (firstn_skipn (first o) (static nd)). apply in_app_iff. now right.
Qed.

Lemma choose : forall (A B : Type) (P : A -> B -> Prop) l, (forall x, In x l -> exists y, P x y) -> exists ys, Forall2 P l ys.
Proof.
  intros A B P. induction l as [|x l IH]; intros H; [exists []; constructor|].
  destruct (H x (or_introl eq_refl)) as (y & Py). destruct IH as (ys & F); [intros z I; apply H; now right|]. exists (y :: ys). now constructor.
Qed.
Lemma Forall2_both : forall (A B : Type) (P Q : A -> B -> Prop) l ys, Forall2 (fun x y => P x y /\ Q x y) l ys -> Forall2 P l ys /\ Forall2 Q l ys.
Proof. intros A B P Q l ys F. induction F as [|x y l ys [H K] F [I J]]; split; constructor; auto. Qed.
Lemma Forall2_mapl : forall (A B C : Type) (f : A -> B) (P : B -> C -> Prop) l ys, Forall2 (fun x y => P (f x) y) l ys -> Forall2 P (map f l) ys.
Proof. intros A B C f P l ys F. induction F; cbn; constructor; auto. Qed.

Lemma input_gives : forall fuel built n u, rank n < fuel -> n < List.length g ->
  (forall m nd path files, reach g [n] m -> nth_error g m = Some nd -> kind nd = DirList path files -> In m built) ->
  exists l, input_files fuel g built u n = Some l /\ gives g u n l.
Proof.
  induction fuel as [|f IH]; intros built n u R Rg B; [lia|]. cbn [input_files].
  destruct (nth_error g n) as [nd|] eqn:E; [|apply nth_error_None in E; lia].
  assert (Sub : forall u l, incl l (static nd) -> exists ls, all_of (map (input_files f g built u) l) = Some (concat ls) /\ Forall2 (gives g u) l ls).
  { intros u' l I. destruct (choose _ _ (fun m x => input_files f g built u' m = Some x /\ gives g u' m x) l) as (ls & F).
    - intros m Im. assert (Id : In m (deps nd)) by (unfold deps; apply in_app_iff; right; apply in_app_iff; left; now apply I).
      apply IH.
      + pose proof (down _ _ _ E Id). lia.
      + eapply shut; eauto.
      + intros k nd' path files Rk Ek Kk. eapply B; eauto. eapply reach_mono; [|exact Rk]. intros y [<-|[]]. apply (r_dep g [n] n nd m); [apply r_root; now left|exact E|exact Id].
    - apply Forall2_both in F as [F1 F2]. exists ls. split; [|exact F2]. apply all_of_some. now apply Forall2_mapl. }
  destruct (kind nd) as [path files|o|i|b] eqn:K.
  - assert (M : mem n built = true) by (apply mem_in; eapply B; eauto; apply r_root; now left).
    rewrite M. eexists. split; [reflexivity|]. eapply g_dir; eauto.
  - unfold is_a_file. rewrite K. destruct u; cbn [andb].
    + destruct (library o) eqn:Lb; cbn [negb].
      * eexists. split; [reflexivity|]. eapply g_file; eauto.
      * destruct (Sub false (inputs nd o) (inputs_static nd o)) as (ls & Els & Fls). rewrite Els. eexists. split; [reflexivity|].
        eapply g_list; eauto.
    + destruct (library o) eqn:Lb.
      * eexists. split; [reflexivity|]. eapply g_file; eauto.
      * eexists. split; [reflexivity|]. eapply g_none; eauto 6.
  - unfold is_a_file. rewrite K. destruct u.
    + eexists. split; [reflexivity|]. eapply g_none; eauto 6.
    + destruct (Sub true (static nd) (incl_refl _)) as (ls & Els & Fls). rewrite Els. eexists. split; [reflexivity|]. eapply g_unity; eauto.
  - unfold is_a_file. rewrite K. destruct b.
    + eexists. split; [reflexivity|]. eapply g_file; eauto.
    + eexists. split; [reflexivity|]. eapply g_none; eauto.
Qed.

Lemma enumerate_sources : forall fuel built n nd o, rank n <= fuel -> nth_error g n = Some nd ->
  (forall m nd' path files, reach g (deps nd) m -> nth_error g m = Some nd' -> kind nd' = DirList path files -> In m built) ->
  exists l, enumerate fuel g built nd o = Some l /\ sources g nd o l.
Proof.
  intros fuel built n nd o R E B.
  destruct (choose _ _ (fun m x => input_files fuel g built false m = Some x /\ gives g false m x) (inputs nd o)) as (ls & F).
  - intros m Im. assert (Id : In m (deps nd)) by (unfold deps; apply in_app_iff; right; apply in_app_iff; left; now apply (inputs_static nd o)).
    apply input_gives.
    + pose proof (down _ _ _ E Id). lia.
    + eapply shut; eauto.
    + intros k nd' path files Rk Ek Kk. eapply B; eauto. eapply reach_mono; [|exact Rk]. intros y [<-|[]]. now apply r_root.
  - apply Forall2_both in F as [F1 F2]. unfold enumerate. rewrite (all_of_some _ _ ls) by (now apply Forall2_mapl).
    eexists. split; [reflexivity|]. exists ls. now split.
Qed.
End Graph.
