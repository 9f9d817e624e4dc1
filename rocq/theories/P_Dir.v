(** Proofs about directory listings. *)
From Coq Require Import String List Arith Bool Ascii NArith Lia Permutation Sorted.
From Verif Require Import M_Path M_Names M_Glob M_Sort M_Cond M_Dir S_Glob S_Cond S_Dir S_Sort P_Sort P_Cond T_Path T_Glob T_Sort.
Import ListNotations.
Open Scope list_scope.

Section Ind.
Context (P : entry -> Prop) (Hf : forall n ro, P (EFile n ro)) (Hd : forall n es, Forall P es -> P (EDir n es)).
Fixpoint entry_rec' (e : entry) : P e :=
  match e with
  | EFile n ro => Hf n ro
  | EDir n es => Hd n es ((fix go (l : list entry) : Forall P l := match l with [] => Forall_nil P | x :: r => Forall_cons x (entry_rec' x) (go r) end) es)
  end.
End Ind.

Section P.
Context (p : plat).

Lemma glob_ext (R S : ascii -> ascii -> Prop) : (forall a b, R a b <-> S a b) -> forall pat s, glob R pat s -> glob S pat s.
Proof. intros H pat s G. induction G; constructor; auto. now apply H. Qed.
Lemma wild_iff pat s : wild p pat s = true <-> fits p pat s.
Proof.
  unfold wild, fits. destruct (windows p) eqn:W.
  - destruct (C20_matchi_exact pat s) as (b&->&H). rewrite H. split; apply glob_ext; intros x y; unfold alike; rewrite W; tauto.
  - destruct (C20_match_exact pat s) as (b&->&H). rewrite H. split; apply glob_ext; intros x y; unfold alike; rewrite W; tauto.
Qed.
Lemma begins_iff d x : begins_with p d x = true <-> inside p x d.
Proof. unfold begins_with, inside, fold. destruct (windows p); apply starts_with_iff. Qed.
Lemma named_iff f x : ends_with_file p f x = true <-> is_named p f x.
Proof. unfold ends_with_file, is_named, fold. destruct (windows p); apply C49_whole_name_only. Qed.
Lemma not_existsb {A} (f : A -> bool) l : negb (existsb f l) = true <-> forall x, In x l -> f x <> true.
Proof.
  rewrite negb_true_iff. split.
  - intros E x I H. assert (existsb f l = true) by (apply existsb_exists; eauto). congruence.
  - intros H. destruct (existsb f l) eqn:E; [|reflexivity]. apply existsb_exists in E as (x&I&Q). now destruct (H x I).
Qed.
Lemma shows_iff o f n : matches p o n && keeps p o f = true <-> shows p o f n.
Proof.
  unfold matches, keeps, shows. rewrite !andb_true_iff, !not_existsb.
  assert (M : (match patterns o with [] => true | l => existsb (fun q => wild p q n) l end) = true <-> (patterns o = [] \/ exists q, In q (patterns o) /\ fits p q n)).
  { destruct (patterns o) as [|q l]; [tauto|]. rewrite existsb_exists. split.
    - intros (x&I&W). right. exists x. split; [exact I|now apply wild_iff].
    - intros [D|(x&I&W)]; [discriminate|]. exists x. split; [exact I|now apply wild_iff]. }
  rewrite M. assert (A : (forall x, In x (excl_files o) -> ends_with_file p f x <> true) <-> (forall x, In x (excl_files o) -> ~ is_named p f x)).
  { split; intros H x I Q; apply (H x I); now apply named_iff. }
  assert (B : (forall x, In x (excl_patterns o) -> wild p x f <> true) <-> (forall q, In q (excl_patterns o) -> ~ fits p q f)).
  { split; intros H x I Q; apply (H x I); now apply wild_iff. }
  rewrite A, B. tauto.
Qed.
Lemma enters_iff o d : enters p o d = true <-> recurse o = true /\ forall x, In x (excl_paths o) -> ~ inside p x d.
Proof.
  unfold enters. rewrite andb_true_iff, not_existsb. split; intros [R H]; (split; [exact R|]); intros x I Q; apply (H x I); now apply begins_iff.
Qed.
Lemma magic_iff n : ~ In nul n -> magic n = true <-> dotted n.
Proof.
  intros N. unfold magic, dotted. destruct n as [|a [|b n]]; cbn [nth].
  - split; [discriminate|]. intros [D|(x&D)]; discriminate.
  - cbn. rewrite !andb_true_r. rewrite Ascii.eqb_eq. split; [intros ->; now left|]. intros [D|(x&D)]; [now injection D|discriminate].
  - rewrite andb_true_iff, orb_true_iff, !Ascii.eqb_eq. split.
    + intros [-> [->| ->]]; [right; now exists n|]. destruct N. right. now left.
    + intros [D|(x&D)]; [discriminate|]. injection D as -> -> ->. auto.
Qed.

(** *** What is listed *)
Lemma proper_name e : proper p e -> name_ok p (entry_name e).
Proof. destruct 1; assumption. Qed.
Lemma open_cons o d full ds : open_to p o ((d, full) :: ds) <-> (recurse o = true /\ ~ dotted d /\ forall x, In x (excl_paths o) -> ~ inside p x full) /\ open_to p o ds.
Proof.
  unfold open_to. split.
  - intros H. split; [apply H; now left|]. intros d' f' I. apply H. now right.
  - intros [H1 H2] d' f' [E|I]; [injection E as <- <-; exact H1|now apply H2].
Qed.
Lemma files_entry o f ro : forall e path, proper p e -> In (f, ro) (files_of p o path e) ->
  exists n ds, holds p path [e] f n ro ds /\ open_to p o ds /\ shows p o f n.
Proof.
  induction e as [n r|n es IH] using entry_rec'; intros path PR I; cbn [files_of] in I.
  - destruct (matches p o n && keeps p o (path ++ n)) eqn:M; [|destruct I]. destruct I as [E|[]]. injection E as <- <-.
    exists n, []. split; [constructor; now left|]. split; [intros ? ? []|now apply shows_iff].
  - inversion PR as [|? ? NO FA ND]; subst. destruct (magic n) eqn:MG; [destruct I|]. destruct (enters p o (path ++ n ++ [native p])) eqn:EN; [|destruct I].
    apply in_flat_map in I as (e&Ie&I). rewrite Forall_forall in IH, FA. destruct (IH e Ie _ (FA e Ie) I) as (m&ds&H1&H2&H3).
    exists m, ((n, path ++ n ++ [native p]) :: ds). split; [|split; [|exact H3]].
    + apply holds_below with es; [now left|]. clear - H1 Ie. inversion H1 as [? ? ? ? J|? ? ? ? ? ? ? ? J K]; subst; destruct J as [J|[]].
      * subst e. now constructor.
      * subst e. now apply holds_below with es'.
    + apply open_cons. split; [|exact H2]. apply enters_iff in EN as [R X]. split; [exact R|]. split; [|exact X]. intros D. apply magic_iff in D; [congruence|apply NO].
Qed.
Lemma files_spec o path es f ro : Forall (proper p) es -> In (f, ro) (flat_map (files_of p o path) es) <-> exists n ds, holds p path es f n ro ds /\ open_to p o ds /\ shows p o f n.
Proof.
  intros FA. split.
  - intros I. apply in_flat_map in I as (e&Ie&I). rewrite Forall_forall in FA. destruct (files_entry o f ro e path (FA e Ie) I) as (n&ds&H&O&S). exists n, ds. split; [|auto].
    inversion H as [? ? ? ? J|? ? ? ? ? ? ? ? J K]; subst; destruct J as [J|[]]; subst e; [now constructor|now apply holds_below with es'].
  - intros (n&ds&H&O&S). revert FA O S. induction H as [path es n ro I|path es d es' f n ro ds I H IH]; intros FA O S.
    + apply in_flat_map. exists (EFile n ro). split; [exact I|]. cbn [files_of]. apply shows_iff in S. rewrite S. now left.
    + apply open_cons in O as [(R&D&X) O]. rewrite Forall_forall in FA. pose proof (FA _ I) as PR. inversion PR as [|? ? NO FA' ND]; subst.
      apply in_flat_map. exists (EDir d es'). split; [exact I|]. cbn [files_of]. destruct (magic d) eqn:MG; [apply magic_iff in MG; [contradiction|apply NO]|].
      assert (EN : enters p o (path ++ d ++ [native p]) = true) by (now apply enters_iff). rewrite EN. now apply IH.
Qed.
Lemma dirs_entry o f : forall e path, proper p e -> In f (dirs_of p o path e) -> include_dirs o = true /\ exists n ds, holds_dir p path [e] f n ds /\ open_to p o ds /\ ~ dotted n.
Proof.
  induction e as [n r|n es IH] using entry_rec'; intros path PR I; cbn [dirs_of] in I; [destruct I|].
  inversion PR as [|? ? NO FA ND]; subst. destruct (magic n) eqn:MG; [destruct I|]. assert (ND' : ~ dotted n) by (intros D; apply magic_iff in D; [congruence|apply NO]).
  apply in_app_or in I as [I|I].
  - destruct (include_dirs o) eqn:ID; [|destruct I]. split; [reflexivity|]. destruct I as [<-|[]]. exists n, []. split; [apply holds_dir_here with es; now left|]. split; [intros ? ? []|exact ND'].
  - destruct (enters p o (path ++ n ++ [native p])) eqn:EN; [|destruct I]. apply in_flat_map in I as (e&Ie&I). rewrite Forall_forall in IH, FA.
    destruct (IH e Ie _ (FA e Ie) I) as (ID&m&ds&H1&H2&H3). split; [exact ID|]. exists m, ((n, path ++ n ++ [native p]) :: ds). split; [|split; [|exact H3]].
    + apply holds_dir_below with es; [now left|]. clear - H1 Ie. inversion H1 as [? ? ? ? J|? ? ? ? ? ? ? J K]; subst; destruct J as [J|[]]; subst e; [now apply holds_dir_here with sub|now apply holds_dir_below with es'].
    + apply open_cons. split; [|exact H2]. apply enters_iff in EN as [R X]. auto.
Qed.
Lemma dirs_spec o path es f : Forall (proper p) es -> In f (flat_map (dirs_of p o path) es) <-> include_dirs o = true /\ exists n ds, holds_dir p path es f n ds /\ open_to p o ds /\ ~ dotted n.
Proof.
  intros FA. split.
  - intros I. apply in_flat_map in I as (e&Ie&I). rewrite Forall_forall in FA. destruct (dirs_entry o f e path (FA e Ie) I) as (ID&n&ds&H&O&S). split; [exact ID|]. exists n, ds. split; [|auto].
    inversion H as [? ? ? ? J|? ? ? ? ? ? ? J K]; subst; destruct J as [J|[]]; subst e; [now apply holds_dir_here with sub|now apply holds_dir_below with es'].
  - intros (ID&n&ds&H&O&S). revert FA O S. induction H as [path es n sub I|path es d es' f n ds I H IH]; intros FA O S; rewrite Forall_forall in FA; pose proof (FA _ I) as PR; inversion PR as [|? ? NO FA' ND]; subst.
    + apply in_flat_map. exists (EDir n sub). split; [exact I|]. cbn [dirs_of]. destruct (magic n) eqn:MG; [apply magic_iff in MG; [contradiction|apply NO]|]. rewrite ID. now left.
    + apply open_cons in O as [(R&D&X) O]. apply in_flat_map. exists (EDir d es'). split; [exact I|]. cbn [dirs_of]. destruct (magic d) eqn:MG; [apply magic_iff in MG; [contradiction|apply NO]|].
      assert (EN : enters p o (path ++ d ++ [native p]) = true) by (now apply enters_iff). rewrite EN. apply in_or_app. right. now apply IH.
Qed.
End P.
