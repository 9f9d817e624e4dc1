From Coq Require Import List Arith Bool NArith Lia.
From Verif Require Import M_Bytes M_Conf S_Conf.
Import ListNotations.
Local Open Scope N_scope.

Lemma beq_eq a : forall b, beq a b = true <-> a = b.
Proof.
  induction a as [|x a IH]; intros [|y b]; cbn [beq]; try (split; [discriminate|intros E; discriminate E]); [tauto|].
  rewrite andb_true_iff, N.eqb_eq, IH. split; [intros (->&->); auto|intros E; injection E; auto].
Qed.
Lemma beq_refl a : beq a a = true. Proof. now apply beq_eq. Qed.
Lemma assoc_In {A} (l : list (bytes * A)) n x : assoc l n = Some x -> In (n, x) l.
Proof. induction l as [|[m y] l IH]; cbn; [discriminate|]. destruct (beq m n) eqn:E; [apply beq_eq in E; subst; intros H; left; congruence|auto]. Qed.
Lemma assoc_app {A} (l : list (bytes * A)) r n x : assoc l n = Some x -> assoc (l ++ r) n = Some x.
Proof. induction l as [|[m y] l IH]; cbn; [discriminate|]. destruct (beq m n); auto. Qed.
Lemma assoc_app2 {A} (l : list (bytes * A)) r n : assoc l n = None -> assoc (l ++ r) n = assoc r n.
Proof. induction l as [|[m y] l IH]; cbn; auto. destruct (beq m n); [discriminate|auto]. Qed.
Lemma assoc_one {A} n (x : A) : assoc [(n, x)] n = Some x. Proof. cbn. now rewrite beq_refl. Qed.
Lemma assoc_new {A} (l : list (bytes * A)) n m x y : assoc (l ++ [(m, x)]) n = Some y -> assoc l n = Some y \/ (m = n /\ x = y).
Proof.
  destruct (assoc l n) eqn:E; [rewrite (assoc_app l _ n a E); auto|]. rewrite assoc_app2 by auto. cbn. destruct (beq m n) eqn:B; [|discriminate]. apply beq_eq in B. intros H. right. split; congruence.
Qed.
Lemma assoc_notin {A} (l : list (bytes * A)) n : assoc l n = None -> ~ In n (map fst l).
Proof. induction l as [|[m y] l IH]; cbn; [auto|]. destruct (beq m n) eqn:E; [discriminate|]. intros H [->|I]; [rewrite beq_refl in E; discriminate|exact (IH H I)]. Qed.

Section Hashes.
Variables (h32 h64 : bytes -> N).
Notation ehash := (ehash h32). Notation import_var := (import_var h32). Notation parse := (parse h32 h64). Notation load := (load h32 h64).
Notation load_vars := (load_vars h32). Notation save := (save h32). Notation meaning := (meaning h32).

Definition reg_ok (w : world) (reg : list (bytes * N)) : Prop := forall n h, assoc reg n = Some h -> h = ehash (w_env w n).
Definition ok_state (w : world) (s : state) : Prop :=
  reg_ok w (st_env s) /\ (forall f b, assoc (st_fx s) f = Some b -> b = w_exists w f) /\
  (forall f c st h, assoc (st_used s) f = Some (c, st, h) -> w_file w f = Some c /\ st = w_stamp w f /\ h = h64 c).
Definition grows (s s' : state) : Prop :=
  (forall n h, assoc (st_env s) n = Some h -> assoc (st_env s') n = Some h) /\
  (forall n h, assoc (st_fx s) n = Some h -> assoc (st_fx s') n = Some h) /\
  (forall n h, assoc (st_used s) n = Some h -> assoc (st_used s') n = Some h) /\
  (st_real s = true -> st_real s' = true) /\ (st_over s <> None -> st_over s' <> None).
Lemma grows_refl s : grows s s. Proof. unfold grows; repeat split; auto. Qed.
Lemma grows_trans a b c : grows a b -> grows b c -> grows a c.
Proof. intros (A1&A2&A3&A4&A5) (B1&B2&B3&B4&B5). unfold grows; repeat split; auto. Qed.

Lemma import_const w reg n o : reg_ok w reg ->
  (w_env w n = None /\ o = false /\ import_var reg (w_env w n) n o = (false, None, reg)) \/
  (exists reg', import_var reg (w_env w n) n o = (true, Some (ehash (w_env w n)), reg') /\ reg_ok w reg' /\ assoc reg' n = Some (ehash (w_env w n)) /\
     (forall m h, assoc reg m = Some h -> assoc reg' m = Some h) /\ (w_env w n <> None \/ o = true)).
Proof.
  intros R. unfold import_var, M_Conf.import_var. destruct (w_env w n) as [v|] eqn:EV.
  - right. destruct (assoc reg n) as [h0|] eqn:A.
    + exists reg. pose proof (R n h0 A) as E. rewrite EV in E. rewrite E, N.eqb_refl. split; [reflexivity|]. split; [exact R|]. split; [rewrite A; congruence|]. split; [auto|]. left. discriminate.
    + eexists. split; [reflexivity|]. split; [|split; [|split]].
      * intros m h H. apply assoc_new in H as [H|(<-&<-)]; [auto|rewrite EV; reflexivity].
      * rewrite assoc_app2 by auto. apply assoc_one.
      * intros. now apply assoc_app.
      * left. discriminate.
  - destruct o; [right|left; auto]. destruct (assoc reg n) as [h0|] eqn:A.
    + exists reg. pose proof (R n h0 A) as E. rewrite EV in E. rewrite E, N.eqb_refl. split; [reflexivity|]. split; [exact R|]. split; [rewrite A; congruence|]. split; [auto|]. now right.
    + eexists. split; [reflexivity|]. split; [|split; [|split]].
      * intros m h H. apply assoc_new in H as [H|(<-&<-)]; [auto|rewrite EV; reflexivity].
      * rewrite assoc_app2 by auto. apply assoc_one.
      * intros. now apply assoc_app.
      * now right.
Qed.

(** what the records of a finished parse must agree with in a second world *)
Definition agrees (s : state) (w w2 : world) : Prop :=
  (forall n h, assoc (st_env s) n = Some h -> w_env w n = w_env w2 n) /\
  (forall f b, assoc (st_fx s) f = Some b -> w_exists w f = w_exists w2 f) /\
  (forall f x, assoc (st_used s) f = Some x -> w_file w f = w_file w2 f) /\
  (st_real s = true -> value (w_env w LIB) = value (w_env w2 LIB)).

Lemma parse_const {R} (p : conf R) : forall w t s, ok_state w s ->
  match meaning p w (option_map snd (st_over s)) with
  | None => parse p (fun _ => w) t s = None
  | Some r => exists s', parse p (fun _ => w) t s = Some (r, s') /\ ok_state w s' /\ grows s s' /\
      (forall w2, agrees s' w w2 -> meaning p w2 (option_map snd (st_over s)) = Some r)
  end.
Proof.
  induction p as [r| |f k IH|v k IH|v k IH|f k IH|k IH|e l p IH]; intros w t s OK; cbn [S_Conf.meaning M_Conf.parse].
  - exists s. split; [reflexivity|]. split; [exact OK|]. split; [apply grows_refl|reflexivity].
  - reflexivity.
  - destruct OK as (O1&O2&O3). destruct (assoc (st_used s) f) as [[[c st] h]|] eqn:A.
    + destruct (O3 _ _ _ _ A) as (EF&_). rewrite EF. pose proof (IH c w t s (conj O1 (conj O2 O3))) as H. destruct (meaning (k c) w (option_map snd (st_over s))) as [r|]; [|exact H].
      destruct H as (s'&E&K&G&M). exists s'. split; [exact E|]. split; [exact K|]. split; [exact G|]. intros w2 AG. cbn [S_Conf.meaning]. pose proof (proj1 (proj2 (proj2 AG)) f _ (proj1 (proj2 (proj2 G)) f _ A)) as Q. rewrite <- Q, EF. auto.
    + destruct (w_file w f) as [c|] eqn:EF; [|reflexivity].
      set (s1 := mkS (st_env s) (st_fx s) (st_used s ++ [(f, (c, w_stamp w f, h64 c))]) (st_over s) (st_real s)).
      assert (OK1 : ok_state w s1).
      { split; [exact O1|]. split; [exact O2|]. intros f0 c0 st0 h0 H. cbn [s1 st_used] in H. apply assoc_new in H as [H|(<-&H)]; [eauto|]. injection H as <- <- <-. auto. }
      assert (A1 : assoc (st_used s1) f = Some (c, w_stamp w f, h64 c)) by (cbn [s1 st_used]; rewrite assoc_app2 by auto; apply assoc_one).
      assert (G1 : grows s s1) by (unfold grows, s1; cbn; repeat split; auto; intros; now apply assoc_app).
      pose proof (IH c w (S (S t)) s1 OK1) as H. cbn [s1 st_over] in H. fold s1 in H. destruct (meaning (k c) w (option_map snd (st_over s))) as [r|]; [|exact H].
      destruct H as (s'&E&K&G&M). exists s'. split; [exact E|]. split; [exact K|]. split; [eapply grows_trans; eauto|]. intros w2 AG. cbn [S_Conf.meaning].
      pose proof (proj1 (proj2 (proj2 AG)) f _ (proj1 (proj2 (proj2 G)) f _ A1)) as Q. rewrite <- Q, EF. auto.
  - destruct OK as (O1&O2&O3). destruct (import_const w (st_env s) v false O1) as [(EN&_&E)|(reg'&E&R1&A1&G1&D)].
    + rewrite E, EN. reflexivity.
    + rewrite E. destruct (w_env w v) as [x|] eqn:EV; [|destruct D; congruence]. cbn [value].
      set (s1 := mkS reg' (st_fx s) (st_used s) (st_over s) (st_real s)).
      pose proof (IH x w (S t) s1 (conj R1 (conj O2 O3))) as H. cbn [s1 st_over] in H. fold s1 in H. destruct (meaning (k x) w (option_map snd (st_over s))) as [r|]; [|exact H].
      destruct H as (s'&E'&K&G&M). exists s'. split; [exact E'|]. split; [exact K|]. split.
      { eapply grows_trans; [|exact G]. unfold grows, s1; cbn; repeat split; auto. }
      intros w2 AG. cbn [S_Conf.meaning]. pose proof (proj1 AG v _ (proj1 G v _ A1)) as Q. rewrite <- Q, EV. auto.
  - destruct OK as (O1&O2&O3). destruct (import_const w (st_env s) v true O1) as [(_&Q&_)|(reg'&E&R1&A1&G1&D)]; [discriminate|].
    rewrite E. set (s1 := mkS reg' (st_fx s) (st_used s) (st_over s) (st_real s)). set (b := negb (ehash (w_env w v) =? 0)).
    assert (EB : match w_env w v with Some x => negb (h32 x =? 0) | None => false end = b) by (unfold b; destruct (w_env w v); reflexivity). rewrite EB.
    pose proof (IH b w (S t) s1 (conj R1 (conj O2 O3))) as H. cbn [s1 st_over] in H. fold s1 in H. destruct (meaning (k b) w (option_map snd (st_over s))) as [r|]; [|exact H].
    destruct H as (s'&E'&K&G&M). exists s'. split; [exact E'|]. split; [exact K|]. split.
    { eapply grows_trans; [|exact G]. unfold grows, s1; cbn; repeat split; auto. }
    intros w2 AG. cbn [S_Conf.meaning]. pose proof (proj1 AG v _ (proj1 G v _ A1)) as Q. rewrite <- Q, EB. auto.
  - destruct OK as (O1&O2&O3). unfold check_file. destruct (assoc (st_fx s) f) as [b|] eqn:A.
    + pose proof (O2 f b A) as EB. rewrite <- EB. pose proof (IH b w (S t) (mkS (st_env s) (st_fx s) (st_used s) (st_over s) (st_real s)) (conj O1 (conj O2 O3))) as H. cbn [st_over] in H.
      destruct (meaning (k b) w (option_map snd (st_over s))) as [r|]; [|exact H]. destruct H as (s'&E&K&G&M). exists s'. split; [exact E|]. split; [exact K|]. split; [exact G|].
      intros w2 AG. cbn [S_Conf.meaning]. pose proof (proj1 (proj2 AG) f _ (proj1 (proj2 G) f _ A)) as Q. rewrite <- Q, <- EB. auto.
    + set (b := w_exists w f). set (s1 := mkS (st_env s) (st_fx s ++ [(f, b)]) (st_used s) (st_over s) (st_real s)).
      assert (OK1 : ok_state w s1).
      { split; [exact O1|]. split; [|exact O3]. intros f0 b0 H. cbn [s1 st_fx] in H. apply assoc_new in H as [H|(<-&<-)]; [auto|reflexivity]. }
      assert (A1 : assoc (st_fx s1) f = Some b) by (cbn [s1 st_fx]; rewrite assoc_app2 by auto; apply assoc_one).
      assert (G1 : grows s s1) by (unfold grows, s1; cbn; repeat split; auto; intros; now apply assoc_app).
      pose proof (IH b w (S t) s1 OK1) as H. cbn [s1 st_over] in H. fold s1 in H. destruct (meaning (k b) w (option_map snd (st_over s))) as [r|]; [|exact H].
      destruct H as (s'&E&K&G&M). exists s'. split; [exact E|]. split; [exact K|]. split; [eapply grows_trans; eauto|]. intros w2 AG. cbn [S_Conf.meaning].
      pose proof (proj1 (proj2 AG) f _ (proj1 (proj2 G) f _ A1)) as Q. rewrite <- Q. auto.
  - destruct OK as (O1&O2&O3). set (s1 := mkS (st_env s) (st_fx s) (st_used s) (st_over s) (match st_over s with None => true | Some _ => st_real s end)).
    set (x := get_lib (st_over s) w).
    assert (EX : match option_map snd (st_over s) with Some l => l | None => match w_env w [76;73;66] with Some y => y | None => [] end end = x) by (unfold x, get_lib; destruct (st_over s) as [[e l]|]; reflexivity).
    rewrite EX. pose proof (IH x w (S t) s1 (conj O1 (conj O2 O3))) as H. cbn [s1 st_over] in H. fold s1 in H. destruct (meaning (k x) w (option_map snd (st_over s))) as [r|]; [|exact H].
    destruct H as (s'&E&K&G&M). exists s'. split; [exact E|]. split; [exact K|]. split.
    { eapply grows_trans; [|exact G]. unfold grows, s1; cbn; repeat split; auto. destruct (st_over s); auto. }
    intros w2 AG. cbn [S_Conf.meaning]. specialize (M w2 AG).
    enough (EX2 : match option_map snd (st_over s) with Some l => l | None => match w_env w2 [76;73;66] with Some y => y | None => [] end end = x) by (rewrite EX2; exact M).
    unfold x, get_lib. destruct (st_over s) as [[e l]|] eqn:EO; [reflexivity|]. cbn [option_map].
    assert (RL : st_real s' = true) by (apply (proj1 (proj2 (proj2 (proj2 G)))); reflexivity). pose proof (proj2 (proj2 (proj2 AG)) RL) as Q. symmetry. exact Q.
  - pose proof (IH w t (mkS (st_env s) (st_fx s) (st_used s) (Some (e, l)) (st_real s)) OK) as H. cbn [st_over option_map snd] in H.
    destruct (meaning p w (Some l)) as [r|]; [|exact H]. destruct H as (s'&E&K&G&M). exists s'. split; [exact E|]. split; [exact K|]. split.
    { eapply grows_trans; [|exact G]. unfold grows; cbn; repeat split; auto. discriminate. }
    intros w2 AG. cbn [S_Conf.meaning]. auto.
Qed.

Lemma load_vars_ok w saved : forall last reg, reg_ok w reg -> reg_ok w (snd (load_vars w saved last reg)).
Proof.
  induction saved as [|[n h] r IH]; intros last reg R; cbn [M_Conf.load_vars]; [exact R|].
  destruct (import_const w reg n (h =? 0) R) as [(_&_&E)|(reg'&E&R1&_)]; rewrite E.
  - specialize (IH last reg R). destruct (load_vars w r last reg) as [b reg2] eqn:L. exact IH.
  - specialize (IH (ehash (w_env w n)) reg' R1). destruct (load_vars w r (ehash (w_env w n)) reg') as [b reg2] eqn:L. exact IH.
Qed.
Lemma load_vars_same w saved : forall last reg, fst (load_vars w saved last reg) = false -> forall n h, In (n, h) saved -> ehash (w_env w n) = h.
Proof.
  induction saved as [|[n h] r IH]; intros last reg H m x I; [destruct I|]. cbn [M_Conf.load_vars] in H.
  destruct (import_var reg (w_env w n) n (h =? 0)) as [[ok nh] reg1] eqn:E.
  destruct (load_vars w r (match nh with Some y => y | None => last end) reg1) as [b reg2] eqn:L. cbn [fst] in H.
  apply orb_false_iff in H as (H&HB). apply orb_false_iff in H as (H1&H2). apply negb_false_iff in H1, H2. apply N.eqb_eq in H2. subst ok.
  destruct I as [I|I].
  - injection I as <- <-. unfold import_var, M_Conf.import_var in E. destruct (w_env w n) as [v|], (h =? 0); try (injection E; discriminate); destruct (assoc reg n); injection E; intros; subst; auto.
  - apply (IH (match nh with Some y => y | None => last end) reg1) with (h := x); [rewrite L; exact HB|exact I].
Qed.
Lemma load_vars_unchanged w saved : forall last reg, reg_ok w reg -> (forall n h, In (n, h) saved -> ehash (w_env w n) = h) ->
  (forall n h, In (n, h) saved -> w_env w n = None -> h = 0) -> fst (load_vars w saved last reg) = false.
Proof.
  induction saved as [|[n h] r IH]; intros last reg R A Z; [reflexivity|]. cbn [M_Conf.load_vars].
  assert (EH : ehash (w_env w n) = h) by (apply A; now left).
  destruct (import_const w reg n (h =? 0) R) as [(EN&EO&_)|(reg'&E&R1&_)].
  - rewrite (Z n h (or_introl eq_refl) EN) in EO. discriminate.
  - rewrite E. specialize (IH (ehash (w_env w n)) reg' R1 (fun m x I => A m x (or_intror I)) (fun m x I => Z m x (or_intror I))).
    destruct (load_vars w r (ehash (w_env w n)) reg') as [b reg2]. cbn [fst] in *. rewrite EH, N.eqb_refl, IH. reflexivity.
Qed.

Definition fresh_reg (w : world) (reg : list (bytes * N)) : Prop := reg = [] \/ exists d, reg = snd (load w d []).
Lemma fresh_ok w reg : fresh_reg w reg -> ok_state w (start reg).
Proof.
  intros H. split; [|split; cbn; intros; discriminate]. cbn [start st_env]. destruct H as [->|(d&->)]; [intros n h Q; discriminate|].
  unfold load, M_Conf.load. pose proof (load_vars_ok w (db_env d) 0 [] ltac:(intros n h Q; discriminate)) as L. destruct (load_vars w (db_env d) 0 []) as [b reg1]. exact L.
Qed.
Lemma parse_meaning {R} (p : conf R) w reg : fresh_reg w reg -> option_map fst (parse p (fun _ => w) 0 (start reg)) = meaning p w None.
Proof.
  intros F. pose proof (parse_const p w 0 (start reg) (fresh_ok w reg F)) as H. cbn [start st_over option_map] in H. fold (start reg) in H.
  destruct (meaning p w None); [destruct H as (s'&E&_); rewrite E; reflexivity|rewrite H; reflexivity].
Qed.
Lemma reuse_sound {R} (p : conf R) w1 w2 reg r s : fresh_reg w1 reg -> parse p (fun _ => w1) 0 (start reg) = Some (r, s) ->
  (st_over s = None \/ st_real s = false) -> changes_show h32 h64 w1 w2 -> fst (load w2 (save w1 s) []) = false -> meaning p w2 None = Some r.
Proof.
  intros F E LB (C1&C2&C3&C4) L. pose proof (parse_const p w1 0 (start reg) (fresh_ok w1 reg F)) as H. cbn [start st_over option_map] in H. fold (start reg) in H.
  destruct (meaning p w1 None) as [r'|]; [|rewrite H in E; discriminate]. destruct H as (s'&E'&K&G&M). rewrite E' in E. assert (r' = r) by congruence. assert (s' = s) by congruence. subst r' s'. apply M. clear M E'.
  unfold load, M_Conf.load in L. destruct (load_vars w2 (db_env (save w1 s)) 0 []) as [ev reg1] eqn:EV. cbn [fst] in L.
  apply orb_false_iff in L as (L&LX). apply orb_false_iff in L as (L&LL). apply orb_false_iff in L as (LU&LE). subst ev. cbn [save M_Conf.save db_env db_used db_fx db_lib db_over] in *.
  destruct K as (K1&K2&K3). split; [|split; [|split]].
  - intros n h A. apply C1. change (env_hash h32) with (ehash). rewrite <- (K1 n h A). symmetry. apply (load_vars_same w2 (st_env s) 0 []); [rewrite EV; reflexivity|now apply assoc_In].
  - intros f b A. rewrite <- (K2 f b A). assert (Q := LX). apply assoc_In in A. apply Bool.not_true_iff_false in Q.
    destruct (Bool.eqb (w_exists w2 f) b) eqn:EB; [symmetry; now apply eqb_prop|]. exfalso. apply Q. apply existsb_exists. exists (f, b). cbn [fst snd]. rewrite EB. auto.
  - intros f [[c st] h] A. destruct (K3 _ _ _ _ A) as (EF&ES&EH). apply assoc_In in A.
    assert (Q : used_changed h64 w2 (f, st, h) = false).
    { destruct (used_changed h64 w2 (f, st, h)) eqn:UC; auto. rewrite <- LU. symmetry. apply existsb_exists. exists (f, st, h). split; [|exact UC]. apply in_map_iff. exists (f, (c, st, h)). auto. }
    unfold used_changed in Q. destruct (N.eqb_spec (w_stamp w2 f) st) as [ST|ST]; [apply C3; congruence|].
    destruct (w_file w2 f) as [c2|] eqn:E2; [|discriminate]. apply negb_false_iff, N.eqb_eq in Q. rewrite EF. f_equal. apply (C4 f c c2); congruence.
  - intros SR. destruct LB as [LB|LB]; [|congruence]. rewrite LB in LL. apply negb_false_iff, N.eqb_eq in LL. apply C2. exact LL.
Qed.
Lemma save_unchanged {R} (p : conf R) w reg r s : fresh_reg w reg -> parse p (fun _ => w) 0 (start reg) = Some (r, s) ->
  NoDup (map fst (st_env s)) -> NoDup (map fst (st_fx s)) -> NoDup (map fst (st_used s)) -> fst (load w (save w s) []) = false.
Proof.
  intros F E N1 N2 N3. pose proof (parse_const p w 0 (start reg) (fresh_ok w reg F)) as H. cbn [start st_over option_map] in H. fold (start reg) in H.
  destruct (meaning p w None) as [r'|]; [|rewrite H in E; discriminate]. destruct H as (s'&E'&K&_). rewrite E' in E. assert (s' = s) by congruence. subst s'. clear E'.
  destruct K as (K1&K2&K3).
  assert (IA : forall A (l : list (bytes * A)) n x, NoDup (map fst l) -> In (n, x) l -> assoc l n = Some x).
  { clear. intros A l n x ND. induction l as [|[m y] l IH]; intros I; [destruct I|]. cbn [map fst] in ND. inversion ND as [|? ? NI ND']; subst. cbn. destruct I as [I|I].
    - injection I as -> ->. now rewrite beq_refl.
    - destruct (beq m n) eqn:B; [apply beq_eq in B; subst; exfalso; apply NI; apply (in_map fst) in I; exact I|auto]. }
  unfold load, M_Conf.load. destruct (load_vars w (db_env (save w s)) 0 []) as [ev reg1] eqn:EV. cbn [fst]. cbn [save M_Conf.save db_env db_used db_fx db_lib db_over] in *.
  assert (ev = false) as ->.
  { change ev with (fst (ev, reg1)). rewrite <- EV. apply load_vars_unchanged; [intros n h Q; discriminate| |].
    - intros n h I. symmetry. apply K1. now apply IA.
    - intros n h I EN. rewrite (K1 n h (IA _ _ _ _ N1 I)), EN. reflexivity. }
  repeat (apply orb_false_iff; split).
  - apply not_true_iff_false. intros Q. apply existsb_exists in Q as ([[f st] h]&I&U). apply in_map_iff in I as ([f0 [[c st0] h0]]&EQ&I). injection EQ as -> -> ->.
    destruct (K3 f c st h (IA _ _ _ _ N3 I)) as (_&->&_). unfold used_changed in U. rewrite N.eqb_refl in U. discriminate.
  - reflexivity.
  - destruct (st_over s) as [[e l]|]; cbn [get_lib]; rewrite N.eqb_refl; reflexivity.
  - apply not_true_iff_false. intros Q. apply existsb_exists in Q as ([f b]&I&U). cbn [fst snd] in U. rewrite (K2 f b (IA _ _ _ _ N2 I)), eqb_reflx in U. discriminate.
Qed.

(** ** Records are never duplicated, in any history *)
Definition once (s : state) : Prop := NoDup (map fst (st_env s)) /\ NoDup (map fst (st_fx s)) /\ NoDup (map fst (st_used s)).
Lemma nodup_snoc {A} (l : list (bytes * A)) n x : NoDup (map fst l) -> assoc l n = None -> NoDup (map fst (l ++ [(n, x)])).
Proof.
  intros ND A0. rewrite map_app. cbn [map fst]. apply assoc_notin in A0. induction (map fst l) as [|m t IH]; [repeat constructor; auto|].
  inversion ND; subst. cbn [app]. constructor; [rewrite in_app_iff; intros [I|[I|[]]]; [auto|subst; apply A0; now left]|apply IH; auto; intros I; apply A0; now right].
Qed.
Lemma import_once reg cur n o ok h reg' : NoDup (map fst reg) -> import_var reg cur n o = (ok, h, reg') -> NoDup (map fst reg').
Proof.
  intros ND E. unfold import_var, M_Conf.import_var in E. destruct cur as [v|], o; try (injection E as _ _ <-; exact ND); destruct (assoc reg n) eqn:A; injection E as _ _ <-; auto; now apply nodup_snoc.
Qed.
Lemma load_once w saved : forall last reg, NoDup (map fst reg) -> NoDup (map fst (snd (load_vars w saved last reg))).
Proof.
  induction saved as [|[n h] r IH]; intros last reg ND; cbn [M_Conf.load_vars]; [exact ND|]. destruct (import_var reg (w_env w n) n (h =? 0)) as [[ok nh] reg1] eqn:E.
  specialize (IH (match nh with Some x => x | None => last end) reg1 (import_once _ _ _ _ _ _ _ ND E)). destruct (load_vars w r (match nh with Some x => x | None => last end) reg1). exact IH.
Qed.
Lemma parse_once {R} (p : conf R) : forall ws t s r s', once s -> parse p ws t s = Some (r, s') -> once s'.
Proof.
  induction p as [r0| |f k IH|v k IH|v k IH|f k IH|k IH|e l p IH]; intros ws t s r s' O E; cbn [M_Conf.parse] in E.
  - injection E as _ <-. exact O.
  - discriminate.
  - destruct (assoc (st_used s) f) as [[[c st] h]|] eqn:A; [eapply IH; eauto|]. destruct (w_file (ws t) f) as [c|]; [|discriminate].
    destruct O as (O1&O2&O3). eapply IH; [|exact E]. split; [exact O1|]. split; [exact O2|]. now apply nodup_snoc.
  - destruct (import_var (st_env s) (w_env (ws t) v) v false) as [[[|] h] reg] eqn:EI; [|discriminate]. destruct O as (O1&O2&O3). eapply IH; [|exact E].
    split; [exact (import_once _ _ _ _ _ _ _ O1 EI)|]. auto.
  - destruct (import_var (st_env s) (w_env (ws t) v) v true) as [[b h] reg] eqn:EI. destruct O as (O1&O2&O3). eapply IH; [|exact E]. split; [exact (import_once _ _ _ _ _ _ _ O1 EI)|]. auto.
  - destruct (check_file (st_fx s) (w_exists (ws t) f) f) as [b fx] eqn:EC. destruct O as (O1&O2&O3). eapply IH; [|exact E]. split; [exact O1|]. split; [|exact O3].
    unfold check_file in EC. destruct (assoc (st_fx s) f) eqn:A; injection EC as _ <-; [exact O2|now apply nodup_snoc].
  - eapply IH; [|exact E]. exact O.
  - eapply IH; [|exact E]. exact O.
Qed.
Lemma fresh_once w reg : fresh_reg w reg -> once (start reg).
Proof.
  intros H. split; [|split; constructor]. cbn [start st_env]. destruct H as [->|(d&->)]; [constructor|]. unfold load, M_Conf.load.
  pose proof (load_once w (db_env d) 0 [] ltac:(constructor)) as L. destruct (load_vars w (db_env d) 0 []). exact L.
Qed.
End Hashes.
