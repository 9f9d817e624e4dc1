(** Proofs about the folders of a project for Visual Studio. *)
From Coq Require Import String Ascii List Arith Bool NArith Lia Permutation Sorted.
From Verif Require Import M_Path M_Names M_Sort M_Dir M_Drv M_Xcode M_Vcx S_Vcx S_Sort S_Dir P_Sort P_Dir2 P_Xcode P_Drv.
Import ListNotations.
Local Open Scope list_scope.

(** *** Folders within folders *)
Lemma within_refl f : within f f.
Proof. now left. Qed.
Lemma within_trans a b c : within a b -> within b c -> within a c.
Proof.
  intros [->|(r&->)] [->|(t&->)]; unfold within; [now left|right; now exists t|right; now exists r|right].
  exists (r ++ back :: t). now rewrite <- app_assoc.
Qed.
Lemma within_length a f : within a f -> length a <= length f.
Proof. intros [->|(r&->)]; [lia|]. rewrite app_length. lia. Qed.
Lemma within_same a f : within a f -> length a = length f -> a = f.
Proof. intros [->|(r&->)] H; [easy|]. rewrite app_length in H. cbn in H. lia. Qed.
Lemma within_up f i a : last_at back f = Some i -> within a f -> a = f \/ within a (firstn i f).
Proof.
  intros E [->|(r&F)]; [now left|]. right. destruct (last_some _ _ _ E) as (H&N&LI).
  destruct (last_at back r) as [j|] eqn:ER.
  - destruct (last_some _ _ _ ER) as (HR&NR&LR).
    assert (F2 : f = ((a : list ascii) ++ back :: firstn j r) ++ back :: skipn (S j) r).
    { rewrite <- app_assoc. rewrite F. f_equal. cbn [List.app]. f_equal. exact HR. }
    assert (LA : last_at back f = Some (length ((a : list ascii) ++ back :: firstn j r))) by (rewrite F2; apply last_at_app, NR).
    rewrite E in LA. injection LA as ->. right. exists (firstn j r). rewrite F2. rewrite firstn_app, Nat.sub_diag, firstn_all. cbn [firstn]. apply app_nil_r.
  - rewrite F in E. change "\"%char with back in E. rewrite last_at_app in E by (now apply last_none). injection E as <-. left.
    now rewrite F, firstn_app, Nat.sub_diag, firstn_all, app_nil_r.
Qed.
Lemma up_within f i : last_at back f = Some i -> within (firstn i f) f /\ length (firstn i f) < length f.
Proof.
  intros E. destruct (last_some _ _ _ E) as (H&N&LI). split; [right; now exists (skipn (S i) f)|]. rewrite firstn_length. lia.
Qed.
Lemma within_top f a : last_at back f = None -> within a f -> a = f.
Proof. intros E [->|(r&->)]; [easy|]. exfalso. apply (last_none _ _ E). apply in_or_app. right. now left. Qed.

Section H.
Context (hash : str -> N).

Definition wf (st : list str * list N) : Prop := snd st = map hash (fst st) /\ NoDup (fst st).
Definition closed (st : list str * list N) : Prop := forall x a, In x (fst st) -> within a x -> In a (fst st).
Definition half (f : str) (st : list str * list N) : Prop := forall x, In x (fst st) ->
  (forall a, within a x -> In a (fst st)) \/ (within f x /\ length f < length x /\ forall a, within a x -> In a (fst st) \/ within a f).
Definition inj_on (D : str -> Prop) : Prop := forall a b, D a -> D b -> hash a = hash b -> a = b.

Lemma add_folder_ok D k : inj_on D -> forall f st, length f < k -> wf st -> (forall a, In a (fst st) -> D a) -> (forall a, within a f -> D a) -> half f st ->
  exists st', add_folder hash k f st = Some st' /\ wf st' /\ closed st' /\ (forall a, In a (fst st') <-> In a (fst st) \/ within a f).
Proof.
  intros IN. induction k as [|k IH]; intros f st LK WF DS DF HF; [lia|]. cbn [add_folder]. destruct WF as (W1&W2).
  destruct (existsb (N.eqb (hash f)) (snd st)) eqn:X.
  - exists st. split; [easy|]. split; [easy|]. apply existsb_exists in X. destruct X as (h&IH'&HE). apply N.eqb_eq in HE. rewrite W1 in IH'.
    apply in_map_iff in IH'. destruct IH' as (g&HG&IG). assert (g = f) by (apply IN; [auto|apply DF, within_refl|congruence]). subst g.
    assert (CF : forall a, within a f -> In a (fst st)) by (destruct (HF f IG) as [Q|(_&Q&_)]; [exact Q|lia]).
    split; [|intros a; split; [now left|intros [Q|Q]; auto]]. intros x a IX WA. destruct (HF x IX) as [Q|(_&_&Q)]; [now apply Q|]. destruct (Q a WA); auto.
  - assert (NI : ~ In f (fst st)).
    { intros I. assert (Y : existsb (N.eqb (hash f)) (snd st) = true) by (apply existsb_exists; exists (hash f); split; [rewrite W1; now apply in_map|apply N.eqb_refl]). congruence. }
    assert (W' : wf (fst st ++ [f], snd st ++ [hash f])).
    { split; cbn [fst snd]; [now rewrite map_app, W1|]. apply (Permutation_NoDup (l := f :: fst st)); [apply Permutation_cons_append|now constructor]. }
    destruct (last_at back f) as [i|] eqn:E.
    + destruct (up_within _ _ E) as (U1&U2).
      destruct (IH (firstn i f) (fst st ++ [f], snd st ++ [hash f])) as (st'&E'&W2'&C'&A'); [lia|exact W'| | | |].
      * cbn [fst]. intros a I. apply in_app_iff in I. destruct I as [I|[<-|[]]]; [now apply DS|apply DF, within_refl].
      * intros a WA. apply DF. eapply within_trans; eauto.
      * intros x I. cbn [fst] in *. apply in_app_iff in I. destruct I as [I|[<-|[]]].
        -- destruct (HF x I) as [Q|(Q1&Q2&Q3)]; [left; intros a WA; apply in_or_app; left; now apply Q|]. right.
           split; [eapply within_trans; eauto|]. split; [lia|]. intros a WA. destruct (Q3 a WA) as [J|J]; [left; apply in_or_app; now left|].
           destruct (within_up _ _ _ E J) as [->|J']; [left; apply in_or_app; right; now left|now right].
        -- right. split; [exact U1|]. split; [exact U2|]. intros a WA. destruct (within_up _ _ _ E WA) as [->|J']; [left; apply in_or_app; right; now left|now right].
      * exists st'. split; [exact E'|]. split; [exact W2'|]. split; [exact C'|]. intros a. rewrite A'. cbn [fst]. rewrite in_app_iff. split.
        -- intros [[I|[<-|[]]]|WA]; [now left|right; apply within_refl|right; eapply within_trans; eauto].
        -- intros [I|WA]; [now left; left|]. destruct (within_up _ _ _ E WA) as [->|J]; [left; right; now left|now right].
    + eexists. split; [reflexivity|]. split; [exact W'|]. cbn [fst]. split.
      * intros x a I WA. apply in_app_iff in I. cbn [fst]. apply in_or_app. destruct I as [I|[<-|[]]].
        -- destruct (HF x I) as [Q|(_&_&Q)]; [left; now apply Q|]. destruct (Q a WA) as [J|J]; [now left|]. right. left. symmetry. now apply within_top.
        -- right. left. symmetry. now apply within_top.
      * intros a. rewrite in_app_iff. split; [intros [I|[<-|[]]]; [now left|right; apply within_refl]|]. intros [I|WA]; [now left|]. right. left. symmetry. now apply within_top.
Qed.

Lemma closed_half f st : closed st -> half f st.
Proof. intros C x I. left. intros a WA. eapply C; eauto. Qed.

Lemma add_all_ok D bases : inj_on D -> forall l prev st, wf st -> closed st -> (forall a, In a (fst st) -> D a) ->
  (forall x a, In x l -> folder_path bases (absolute x) <> [] -> within a (folder_path bases (absolute x)) -> D a) ->
  (prev = [] \/ In prev (fst st)) ->
  exists st', add_all hash bases l prev st = Some st' /\ wf st' /\
    (forall a, In a (fst st') <-> In a (fst st) \/ exists x, In x l /\ folder_path bases (absolute x) <> [] /\ within a (folder_path bases (absolute x))).
Proof.
  intros IN. induction l as [|x l IH]; intros prev st WF C DS DL PR.
  - exists st. split; [easy|]. split; [easy|]. intros a. split; [now left|]. intros [I|(y&[]&_)]. exact I.
  - cbn [add_all]. set (f := folder_path bases (absolute x)) in *.
    assert (DL' : forall y a, In y l -> folder_path bases (absolute y) <> [] -> within a (folder_path bases (absolute y)) -> D a) by (intros y a I; apply DL; now right).
    destruct (teq f []) eqn:T1; [|destruct (teq f prev) eqn:T2]; cbn [negb andb].
    + apply teq_eq in T1. destruct (IH prev st WF C DS DL' PR) as (st'&E&W&A). exists st'. split; [exact E|]. split; [exact W|]. intros a. rewrite A. split.
      * intros [I|(y&I&Q)]; [now left|]. right. exists y. split; [now right|exact Q].
      * intros [I|(y&[<-|I]&Q)]; [now left| |right; now exists y]. destruct Q as (Q&_). fold f in Q. congruence.
    + apply teq_eq in T2. assert (NF : f <> []) by (intros Q; rewrite Q in T1; discriminate). destruct PR as [PR|PR]; [congruence|].
      destruct (IH prev st WF C DS DL' (or_intror PR)) as (st'&E&W&A). exists st'. split; [exact E|]. split; [exact W|]. intros a. rewrite A. split.
      * intros [I|(y&I&Q)]; [now left|]. right. exists y. split; [now right|exact Q].
      * intros [I|(y&[<-|I]&Q)]; [now left| |right; now exists y]. left. destruct Q as (_&Q). fold f in Q. rewrite T2 in Q. eapply C; eauto.
    + assert (NF : f <> []) by (intros Q; rewrite Q in T1; discriminate).
      destruct (add_folder_ok D (S (length f)) IN f st) as (st1&E1&W1&C1&A1); auto.
      { intros a WA. apply (DL x a); [now left|exact NF|exact WA]. }
      { now apply closed_half. }
      rewrite E1. destruct (IH f st1 W1 C1) as (st'&E&W&A); auto.
      { intros a I. apply A1 in I. destruct I as [I|I]; [now apply DS|]. apply (DL x a); [now left|exact NF|exact I]. }
      { right. apply A1. right. apply within_refl. }
      exists st'. split; [exact E|]. split; [exact W|]. intros a. rewrite A, A1. split.
      * intros [[I|I]|(y&I&Q)]; [now left|right; exists x; split; [now left|now split]|]. right. exists y. split; [now right|exact Q].
      * intros [I|(y&[<-|I]&Q)]; [now left; left|left; right; apply Q|right; now exists y].
Qed.
End H.
