(** Proofs about the nodes made for input files. *)
From Coq Require Import String List Arith Bool Ascii Lia.
From Verif Require Import M_Path M_Names M_Dir M_Objs S_Dir S_Objs T_Path P_Dir P_Dir3.
Import ListNotations.
Open Scope list_scope.

Lemma same_name_iff a b : same_name a b = true <-> akin a b.
Proof. unfold same_name. apply same_iff. Qed.
Lemma akin_refl a : akin a a.
Proof. reflexivity. Qed.
Lemma akin_sym a b : akin a b -> akin b a.
Proof. unfold akin. congruence. Qed.
Lemma akin_trans a b c : akin a b -> akin b c -> akin a c.
Proof. unfold akin. congruence. Qed.

Lemma find_some g s n : find_n g s = Some n -> In n g /\ akin (nname n) s.
Proof. intros H. apply find_some in H as [I E]. split; [exact I|now apply same_name_iff]. Qed.
Lemma find_no g s : find_n g s = None -> forall n, In n g -> ~ akin (nname n) s.
Proof. intros H n I Q. apply (find_none _ _ H) in I. apply same_name_iff in Q. congruence. Qed.
Lemma unique_in g a b : unique g -> In a g -> In b g -> akin (nname a) (nname b) -> a = b.
Proof.
  intros U. induction U as [|x g F U IH]; intros Ia Ib K; [destruct Ia|]. rewrite Forall_forall in F. destruct Ia as [<-|Ia], Ib as [<-|Ib]; auto.
  - now apply F in Ib.
  - apply F in Ia. now apply akin_sym in K.
Qed.
Lemma unique_find g n s : unique g -> In n g -> akin (nname n) s -> find_n g s = Some n.
Proof.
  intros U I K. destruct (find_n g s) as [m|] eqn:E; [|now destruct (find_no g s E n I)]. apply find_some in E as [Im Km]. f_equal. apply (unique_in g); auto.
  eapply akin_trans; [exact Km|now apply akin_sym].
Qed.
Lemma unique_snoc g n : unique g -> (forall m, In m g -> ~ akin (nname m) (nname n)) -> unique (g ++ [n]).
Proof.
  intros U H. induction U as [|x g F U IH]; [constructor; [apply Forall_nil|constructor]|]. cbn. constructor.
  - apply Forall_app. split; [exact F|]. apply Forall_cons; [|apply Forall_nil]. apply H. now left.
  - apply IH. intros m I. apply H. now right.
Qed.
Definition grows (g g' : list gnode) : Prop := forall n, In n g -> In n g'.
Lemma grows_app g h : grows g (g ++ h).
Proof. intros n I. apply in_or_app. now left. Qed.
Lemma grows_refl g : grows g g.
Proof. intros n I. exact I. Qed.
Lemma grows_trans a b c : grows a b -> grows b c -> grows a c.
Proof. intros A B n I. auto. Qed.

Section P.
Context (p : plat).
(** Finding or making leaves a file node. *)
Lemma find_or_make_spec g s g' n : unique g -> find_or_make g s = Some (g', n) -> unique g' /\ grows g g' /\ akin n s /\ (exists m, In m g' /\ nname m = n /\ is_a_file m = true) /\
  (forall m, In m g' -> In m g \/ m = mkN s KFile).
Proof.
  intros U. unfold find_or_make. destruct (find_n g s) as [m|] eqn:E.
  - apply find_some in E as [I K]. destruct (is_a_file m) eqn:F; [|discriminate]. intros Q. injection Q as <- <-. split; [exact U|]. split; [apply grows_refl|]. split; [exact K|]. split; [eauto|auto].
  - intros Q. injection Q as <- <-. split; [apply unique_snoc; [exact U|]; now apply find_no|]. split; [apply grows_app|]. split; [apply akin_refl|]. split.
    + exists (mkN s KFile). split; [apply in_or_app; right; now left|]. split; reflexivity.
    + intros m I. apply in_app_or in I as [I|[<-|[]]]; auto.
Qed.

(** Making an object: afterwards there is an object for the input, owned by this list. *)
Lemma create_dyn_spec c g input base g' d : unique g -> create_dyn p c g input base = Some (g', d) ->
  unique g' /\ grows g g' /\ akin d (obj_name p c input base) /\ exists src, compiles g' d src (owner c) /\ akin src input /\ (forall m, In m g -> nname m = input -> src = input).
Proof.
  intros U. unfold create_dyn. set (o := obj_name p c input base). destruct (find_n g o) as [n|] eqn:E.
  - apply find_some in E as [I K]. destruct n as [nn [|src own|src|b]]; cbn [kind nname] in *; try discriminate. destruct (same input src && same (owner c) own) eqn:Q; [|discriminate].
    intros R. injection R as <- <-. apply andb_true_iff in Q as [Q1 Q2]. apply same_iff in Q1, Q2. subst src own. split; [exact U|]. split; [apply grows_refl|]. split; [exact K|].
    exists input. split; [exact I|]. split; [apply akin_refl|auto].
  - destruct (create_obj c g o input) as [g1|] eqn:CO; [|discriminate]. intros R. injection R as <- <-. unfold create_obj in CO. pose proof (find_no g o E) as NO.
    destruct (find_n g input) as [n|] eqn:EI.
    + destruct (is_a_file n); [|discriminate]. injection CO as <-. apply find_some in EI as [I K]. split; [now apply unique_snoc|]. split; [apply grows_app|]. split; [apply akin_refl|].
      exists (nname n). split; [apply in_or_app; right; now left|]. split; [exact K|]. intros m Im Em. rewrite (unique_in g n m); auto. now rewrite Em.
    + pose proof (find_no g input EI) as NI. destruct (same_name o input) eqn:SI.
      * injection CO as <-. apply same_name_iff in SI. split; [now apply unique_snoc|]. split; [apply grows_app|]. split; [apply akin_refl|]. exists o. split; [apply in_or_app; right; now left|]. split; [exact SI|].
        intros m Im Em. destruct (NI m Im). rewrite Em. apply akin_refl.
      * injection CO as <-. assert (NS : ~ akin o input) by (intros Q; apply same_name_iff in Q; congruence).
        split; [|split; [apply grows_app|]]; [|split; [apply akin_refl|]].
        -- change (g ++ [mkN o (KObj input (owner c)); mkN input KFile]) with (g ++ ([mkN o (KObj input (owner c))] ++ [mkN input KFile])). rewrite app_assoc. apply unique_snoc; [now apply unique_snoc|].
           intros m I. apply in_app_or in I as [I|[<-|[]]]; [now apply NI|exact NS].
        -- exists input. split; [apply in_or_app; right; now left|]. split; [apply akin_refl|auto].
Qed.

(** What is true of each input afterwards; it stays true when the graph grows. *)
Definition named (i : input) (src : str) : str := match how i with Loose => file i | _ => src end.
Definition made (c : ocfg) (g : list gnode) (i : input) (d : str) : Prop :=
  exists src, compiles g d src (owner c) /\ akin src (file i) /\ akin d (obj_name p c (named i src) (base i)).
Definition skipped (c : ocfg) (i : input) : Prop := windows p = true /\ how i = FromDir /\ akin (file i) (pch_cpp c).
Lemma made_grows c g g' i d : grows g g' -> made c g i d -> made c g' i d.
Proof. intros G (src&C&R). exists src. split; [now apply G|exact R]. Qed.

Lemma gather_one_spec c g i g' ds : unique g -> gather_one p c g i = Some (g', ds) -> unique g' /\ grows g g' /\ (skipped c i /\ ds = [] \/ exists d, ds = [d] /\ made c g' i d).
Proof.
  intros U H. unfold gather_one in H.
  assert (GO : forall g1 n, unique g1 -> grows g g1 -> akin n (file i) -> (how i <> Loose -> exists m, In m g1 /\ nname m = n) -> (how i = Loose -> n = file i) ->
    match create_dyn p c g1 n (base i) with Some (g'', d) => Some (g'', [d]) | None => None end = Some (g', ds) -> unique g' /\ grows g g' /\ (skipped c i /\ ds = [] \/ exists d, ds = [d] /\ made c g' i d)).
  { intros g1 n U1 G1 K NL LO Q. destruct (create_dyn p c g1 n (base i)) as [[g2 d]|] eqn:E; [|discriminate]. injection Q as <- <-. apply create_dyn_spec in E as (U2&G2&KD&src&C&KS&EX); [|exact U1].
    split; [exact U2|]. split; [eapply grows_trans; eauto|]. right. exists d. split; [reflexivity|]. exists src. split; [exact C|]. split; [eapply akin_trans; eauto|].
    unfold named. destruct (how i) eqn:HW; [| | |now rewrite <- LO]; destruct NL as (m&Im&Em); try discriminate; rewrite (EX m Im Em); exact KD. }
  destruct (how i) eqn:HW.
  - destruct (find_or_make g (file i)) as [[g1 n]|] eqn:E; [|discriminate]. apply find_or_make_spec in E as (U1&G1&K&(m&Im&Em&_)&_); [|exact U].
    destruct (windows p && same n (pch_cpp c)) eqn:SK.
    + injection H as <- <-. split; [exact U1|]. split; [exact G1|]. left. apply andb_true_iff in SK as [W S]. apply same_iff in S. rewrite S in K. split; [|reflexivity]. split; [exact W|]. split; [exact HW|now apply akin_sym].
    + apply (GO g1 n); auto; [eauto|discriminate].
  - destruct (find_or_make g (file i)) as [[g1 n]|] eqn:E; [|discriminate]. apply find_or_make_spec in E as (U1&G1&K&(m&Im&Em&_)&_); [|exact U]. apply (GO g1 n); auto; [eauto|discriminate].
  - destruct (find_n g (file i)) as [n|] eqn:E; [|discriminate]. apply find_some in E as [I K]. destruct (is_a_file n); [|discriminate]. apply (GO g (nname n)); auto; [apply grows_refl|eauto|discriminate].
  - apply (GO g (file i)); auto; [apply grows_refl|apply akin_refl|congruence].
Qed.
Lemma gather_all_spec c l : forall g g' ds, unique g -> gather_all p c g l = Some (g', ds) -> unique g' /\ grows g g' /\
  (forall i, In i l -> skipped c i \/ exists d, In d ds /\ made c g' i d) /\ (forall d, In d ds -> exists i, In i l /\ made c g' i d).
Proof.
  induction l as [|i l IH]; intros g g' ds U H; cbn [gather_all] in H.
  { injection H as <- <-. split; [exact U|]. split; [apply grows_refl|]. split; intros ? []. }
  destruct (gather_one p c g i) as [[g1 d1]|] eqn:E1; [|discriminate]. apply gather_one_spec in E1 as (U1&G1&M1); [|exact U].
  destruct (gather_all p c g1 l) as [[g2 d2]|] eqn:E2; [|discriminate]. injection H as <- <-. apply IH in E2 as (U2&G2&A&B); [|exact U1].
  split; [exact U2|]. split; [eapply grows_trans; eauto|]. split.
  - intros j [<-|J].
    + destruct M1 as [[SK ->]|(d&->&M)]; [now left|]. right. exists d. split; [now left|]. now apply made_grows with g1.
    + destruct (A j J) as [SK|(d&I&M)]; [now left|]. right. exists d. split; [apply in_or_app; now right|exact M].
  - intros d I. apply in_app_or in I as [I|I].
    + destruct M1 as [[SK ->]|(d'&->&M)]; [destruct I|]. destruct I as [<-|[]]. exists i. split; [now left|]. now apply made_grows with g1.
    + destruct (B d I) as (j&J&M). exists j. split; [now right|exact M].
Qed.

(** Every object has its source in the graph. *)
Definition sound (g : list gnode) : Prop := forall d src own, compiles g d src own -> exists m, In m g /\ nname m = src /\ is_a_file m = true.
Lemma sound_file g s : sound g -> sound (g ++ [mkN s KFile]).
Proof. intros S d src own C. apply in_app_or in C as [C|[C|[]]]; [|discriminate C]. destruct (S d src own C) as (m&I&R). exists m. split; [apply in_or_app; now left|exact R]. Qed.
Lemma find_or_make_sound g s g' n : sound g -> find_or_make g s = Some (g', n) -> sound g'.
Proof. intros S. unfold find_or_make. destruct (find_n g s) as [m|]; [destruct (is_a_file m); [|discriminate]; intros Q; injection Q as <- <-; exact S|]. intros Q. injection Q as <- <-. now apply sound_file. Qed.
Lemma create_dyn_sound c g input base g' d : sound g -> create_dyn p c g input base = Some (g', d) -> sound g'.
Proof.
  intros S. unfold create_dyn. set (o := obj_name p c input base). destruct (find_n g o) as [[nn [|src own|src|b]]|] eqn:E; cbn [kind nname]; try discriminate.
  - destruct (same input src && same (owner c) own); [|discriminate]. intros Q. now injection Q as <- <-.
  - destruct (create_obj c g o input) as [g1|] eqn:CO; [|discriminate]. intros R. injection R as <- <-. unfold create_obj in CO.
    assert (K : forall m h, In m (g ++ h) -> is_a_file m = true -> (forall x, In x h -> x = mkN o (KObj (nname m) (owner c)) \/ kind x = KFile) -> sound (g ++ h)).
    { intros m h Im Fm H d src own C. apply in_app_or in C as [C|C].
      - destruct (S d src own C) as (n&I&R). exists n. split; [apply in_or_app; now left|exact R].
      - apply H in C as [C|C]; [|discriminate C]. injection C as -> -> ->. eauto. }
    destruct (find_n g input) as [n|] eqn:EI.
    + destruct (is_a_file n) eqn:F; [|discriminate]. injection CO as <-. apply find_some in EI as [I _]. apply (K n); auto; [apply in_or_app; now left|]. intros x [<-|[]]. now left.
    + destruct (same_name o input); injection CO as <-.
      * apply (K (mkN o (KObj o (owner c)))); auto; [apply in_or_app; right; now left|]. intros x [<-|[]]. now left.
      * apply (K (mkN input KFile)); auto; [apply in_or_app; right; right; now left|]. intros x [<-|[<-|[]]]; [now left|now right].
Qed.

(** A second time, on what the first left, or more: nothing changes. *)
Definition exact_case (g : list gnode) (i : input) : Prop := how i = Loose -> forall m, In m g -> akin (nname m) (file i) -> nname m = file i.
Lemma find_or_make_again g s g1 n g2 : unique g -> find_or_make g s = Some (g1, n) -> unique g2 -> grows g1 g2 -> find_or_make g2 s = Some (g2, n).
Proof.
  intros U E U2 G. apply find_or_make_spec in E as (_&_&K&(m&Im&Em&Fm)&_); [|exact U]. unfold find_or_make. rewrite (unique_find g2 m s U2 (G m Im)); [|now rewrite Em]. now rewrite Fm, Em.
Qed.
Lemma create_dyn_again c g n base g1 d src g2 : create_dyn p c g n base = Some (g1, d) -> compiles g1 d src (owner c) -> akin d (obj_name p c n base) -> src = n -> unique g2 -> grows g1 g2 ->
  create_dyn p c g2 n base = Some (g2, d).
Proof.
  intros E C K EN U2 G. unfold create_dyn. rewrite (unique_find g2 (mkN d (KObj src (owner c))) _ U2 (G _ C)); [|exact K]. cbn [kind nname]. subst src.
  assert (S1 : same n n = true) by now apply same_iff. assert (S2 : same (owner c) (owner c) = true) by now apply same_iff. now rewrite S1, S2.
Qed.
Lemma gather_one_again c g i g1 ds g2 : unique g -> sound g -> gather_one p c g i = Some (g1, ds) -> unique g2 -> grows g1 g2 -> exact_case g2 i -> gather_one p c g2 i = Some (g2, ds).
Proof.
  intros U S H U2 G X.
  assert (GO : forall g0 n, unique g0 -> sound g0 -> ((exists m, In m g0 /\ nname m = n) \/ how i = Loose /\ n = file i) ->
    match create_dyn p c g0 n (base i) with Some (g'', d) => Some (g'', [d]) | None => None end = Some (g1, ds) -> match create_dyn p c g2 n (base i) with Some (g'', d) => Some (g'', [d]) | None => None end = Some (g2, ds)).
  { intros g0 n U0 S0 NL Q. destruct (create_dyn p c g0 n (base i)) as [[g3 d]|] eqn:E; [|discriminate]. injection Q as -> <-. pose proof (create_dyn_sound _ _ _ _ _ _ S0 E) as S1.
    pose proof E as E'. apply create_dyn_spec in E' as (U1&G1&KD&src&C&KS&EX); [|exact U0]. assert (EN : src = n).
    { destruct NL as [(m&Im&Em)|[L ->]]; [now apply (EX m)|]. destruct (S1 _ _ _ C) as (m&Im&Em&_). rewrite <- Em. apply (X L m (G m Im)). now rewrite Em. }
    now rewrite (create_dyn_again c g0 n (base i) g1 d src g2). }
  assert (FM : forall g0 n, find_or_make g (file i) = Some (g0, n) -> unique g0 /\ sound g0 /\ exists m, In m g0 /\ nname m = n).
  { intros g0 n E. split; [|split; [now apply find_or_make_sound with (2 := E)|]]; apply find_or_make_spec in E as (U1&_&_&(m&I&M&_)&_); auto. eauto. }
  unfold gather_one in *. destruct (how i) eqn:HW.
  - destruct (find_or_make g (file i)) as [[g0 n]|] eqn:E; [|discriminate]. destruct (FM g0 n eq_refl) as (U0&S0&NL).
    destruct (windows p && same n (pch_cpp c)) eqn:SK.
    + injection H as -> <-. rewrite (find_or_make_again g (file i) g1 n g2 U E U2 G). now rewrite SK.
    + assert (G0 : grows g0 g2). { destruct (create_dyn p c g0 n (base i)) as [[g3 d]|] eqn:CD; [|discriminate]. injection H as -> <-. apply create_dyn_spec in CD as (_&G0&_); [|exact U0]. eapply grows_trans; eauto. }
      rewrite (find_or_make_again g (file i) g0 n g2 U E U2 G0), SK. apply (GO g0 n); auto.
  - destruct (find_or_make g (file i)) as [[g0 n]|] eqn:E; [|discriminate]. destruct (FM g0 n eq_refl) as (U0&S0&NL).
    assert (G0 : grows g0 g2). { destruct (create_dyn p c g0 n (base i)) as [[g3 d]|] eqn:CD; [|discriminate]. injection H as -> <-. apply create_dyn_spec in CD as (_&G0&_); [|exact U0]. eapply grows_trans; eauto. }
    rewrite (find_or_make_again g (file i) g0 n g2 U E U2 G0). apply (GO g0 n); auto.
  - destruct (find_n g (file i)) as [n|] eqn:E; [|discriminate]. apply find_some in E as [I K]. destruct (is_a_file n) eqn:F; [|discriminate].
    assert (G0 : grows g g2). { destruct (create_dyn p c g (nname n) (base i)) as [[g3 d]|] eqn:CD; [|discriminate]. injection H as -> <-. apply create_dyn_spec in CD as (_&G0&_); [|exact U]. eapply grows_trans; eauto. }
    rewrite (unique_find g2 n _ U2 (G0 n I) K), F. apply (GO g (nname n)); eauto.
  - apply (GO g (file i)); auto.
Qed.
Lemma gather_one_sound c g i g1 ds : sound g -> gather_one p c g i = Some (g1, ds) -> sound g1.
Proof.
  intros S H. assert (GO : forall g0 n, sound g0 -> match create_dyn p c g0 n (base i) with Some (g'', d) => Some (g'', [d]) | None => None end = Some (g1, ds) -> sound g1).
  { intros g0 n S0 Q. destruct (create_dyn p c g0 n (base i)) as [[g3 d]|] eqn:E; [|discriminate]. injection Q as -> <-. now apply create_dyn_sound with (2 := E). }
  unfold gather_one in H. destruct (how i).
  - destruct (find_or_make g (file i)) as [[g0 n]|] eqn:E; [|discriminate]. apply find_or_make_sound in E; [|exact S]. destruct (windows p && same n (pch_cpp c)); [now injection H as -> <-|now apply (GO g0 n)].
  - destruct (find_or_make g (file i)) as [[g0 n]|] eqn:E; [|discriminate]. apply find_or_make_sound in E; [|exact S]. now apply (GO g0 n).
  - destruct (find_n g (file i)) as [n|]; [|discriminate]. destruct (is_a_file n); [|discriminate]. now apply (GO g (nname n)).
  - now apply (GO g (file i)).
Qed.
Lemma gather_all_again c l : forall g g' ds g2, unique g -> sound g -> gather_all p c g l = Some (g', ds) -> unique g2 -> grows g' g2 -> (forall i, In i l -> exact_case g2 i) -> gather_all p c g2 l = Some (g2, ds).
Proof.
  induction l as [|i l IH]; intros g g' ds g2 U S H U2 G X; cbn [gather_all] in *; [now injection H as <- <-|].
  destruct (gather_one p c g i) as [[g1 d1]|] eqn:E1; [|discriminate]. destruct (gather_all p c g1 l) as [[g3 d2]|] eqn:E2; [|discriminate]. injection H as -> <-.
  pose proof (gather_one_spec c g i g1 d1 U E1) as (U1&_&_). pose proof (gather_one_sound c g i g1 d1 S E1) as S1. pose proof (gather_all_spec c l g1 g' d2 U1 E2) as (_&G2&_).
  rewrite (gather_one_again c g i g1 d1 g2 U S E1 U2); [|eapply grows_trans; eauto|apply X; now left]. rewrite (IH g1 g' d2 g2 U1 S1 E2 U2 G); [reflexivity|]. intros j J. apply X. now right.
Qed.

(** *** Copies *)
Definition copied (dest : str) (g : list gnode) (path s d : str) : Prop := exists src, copies g d src /\ akin src s /\ akin d (dest ++ skipn (List.length path) s).
Lemma copy_one_spec dest g path s g' d : unique g -> copy_one dest g path s = Some (g', d) -> unique g' /\ grows g g' /\ copied dest g' path s d.
Proof.
  intros U. unfold copy_one. destruct (find_or_make g s) as [[g1 src]|] eqn:E; [|discriminate]. apply find_or_make_spec in E as (U1&G1&K&_&_); [|exact U].
  destruct (find_n g1 _) as [[nn [|? ?|src'|?]]|] eqn:F; cbn [kind nname]; try discriminate.
  - destruct (same src src') eqn:SS; [|discriminate]. apply same_iff in SS. subst src'. intros Q. injection Q as <- <-. apply find_some in F as [I KD]. split; [exact U1|]. split; [exact G1|]. exists src. auto.
  - intros Q. injection Q as <- <-. split; [apply unique_snoc; [exact U1|]; now apply find_no|]. split; [eapply grows_trans; [exact G1|apply grows_app]|]. exists src. split; [apply in_or_app; right; now left|]. split; [exact K|apply akin_refl].
Qed.
Lemma copy_all_spec dest l : forall g g' ds, unique g -> copy_all dest g l = Some (g', ds) -> unique g' /\ grows g g' /\ Forall2 (fun x d => copied dest g' (fst x) (snd x) d) l ds.
Proof.
  induction l as [|[path s] l IH]; intros g g' ds U H; cbn [copy_all] in H; [injection H as <- <-; split; [exact U|]; split; [apply grows_refl|constructor]|].
  destruct (copy_one dest g path s) as [[g1 d]|] eqn:E1; [|discriminate]. destruct (copy_all dest g1 l) as [[g2 ds']|] eqn:E2; [|discriminate]. injection H as <- <-.
  apply copy_one_spec in E1 as (U1&G1&(src&C&R)); [|exact U]. apply IH in E2 as (U2&G2&F); [|exact U1]. split; [exact U2|]. split; [eapply grows_trans; eauto|]. constructor; [|exact F].
  exists src. split; [now apply G2|exact R].
Qed.
Lemma copy_one_again dest g path s g1 d g2 : unique g -> copy_one dest g path s = Some (g1, d) -> unique g2 -> grows g1 g2 -> copy_one dest g2 path s = Some (g2, d).
Proof.
  intros U E U2 G. pose proof (copy_one_spec dest g path s g1 d U E) as (U1&_&_). unfold copy_one in *. destruct (find_or_make g s) as [[g0 src]|] eqn:F; [|discriminate].
  pose proof (find_or_make_spec g s g0 src U F) as (U0&_&_). assert (G0 : grows g0 g1 /\ exists n, In n g1 /\ nname n = d /\ akin d (dest ++ skipn (List.length path) s) /\ kind n = KCopy src).
  { destruct (find_n g0 _) as [[nn [|? ?|src'|?]]|] eqn:FF; cbn [kind nname] in E; try discriminate.
    - destruct (same src src') eqn:SS; [|discriminate]. apply same_iff in SS. subst src'. injection E as <- <-. apply find_some in FF as [I KD]. split; [apply grows_refl|]. eexists. split; [exact I|]. auto.
    - injection E as <- <-. split; [apply grows_app|]. eexists. split; [apply in_or_app; right; now left|]. split; [reflexivity|]. split; [apply akin_refl|reflexivity]. }
  destruct G0 as (G0&n&In_&En&Kn&Kd). rewrite (find_or_make_again g s g0 src g2 U F U2); [|eapply grows_trans; eauto]. rewrite (unique_find g2 n _ U2 (G n In_)); [|now rewrite En]. rewrite Kd, En.
  assert (SS : same src src = true) by now apply same_iff. now rewrite SS.
Qed.
Lemma copy_all_again dest l : forall g g' ds g2, unique g -> copy_all dest g l = Some (g', ds) -> unique g2 -> grows g' g2 -> copy_all dest g2 l = Some (g2, ds).
Proof.
  induction l as [|[path s] l IH]; intros g g' ds g2 U H U2 G; cbn [copy_all] in *; [now injection H as <- <-|].
  destruct (copy_one dest g path s) as [[g1 d]|] eqn:E1; [|discriminate]. destruct (copy_all dest g1 l) as [[g3 ds']|] eqn:E2; [|discriminate]. injection H as -> <-.
  pose proof (copy_one_spec _ _ _ _ _ _ U E1) as (U1&_&_). pose proof (copy_all_spec _ _ _ _ _ U1 E2) as (_&G2&_).
  rewrite (copy_one_again dest g path s g1 d g2 U E1 U2); [|eapply grows_trans; eauto]. now rewrite (IH g1 g' ds' g2 U1 E2 U2 G).
Qed.
End P.
