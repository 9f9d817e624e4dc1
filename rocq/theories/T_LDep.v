(** C102: ListDependencies. *)
From Coq Require Import String Ascii List Arith Bool Lia Permutation.
From Verif Require Import M_Path M_Names M_Dir M_Drv P_Drv M_Sort S_Sort P_Sort P_Dir2 M_LDep.
Import ListNotations.
Local Open Scope list_scope.
Local Open Scope string_scope.
Local Open Scope list_scope.

(** * Specification. *)
Section Spec.
Context (matches : str -> str -> bool) (g : graph) (patterns : list str).
(** All dependencies are nodes of the graph. *)
Definition sound (ds : list dep) : Prop := forall n w, In (n, w) ds -> n < List.length g.
Definition sound_graph : Prop := forall d, In d g -> sound (static d) /\ sound (dynamic d).
(** [n] is built from [m], and not weakly. *)
Definition uses (d : node) (m : nat) : Prop := In (m, false) (static d ++ dynamic d).
(** The files that the objects of the sources are made from, and that a pattern asks for. *)
Definition wanted (sources : list dep) (n : nat) : Prop :=
  exists s sd o od d, In (s, false) sources /\ nth_error g s = Some sd /\ uses sd o /\ nth_error g o = Some od /\ uses od n /\ nth_error g n = Some d /\
    is_a_file d = true /\ (patterns = [] \/ exists p, In p patterns /\ matches p (name d) = true).
(** Names differ, also without case (C18). *)
Definition differ : Prop := forall i j, i < List.length g -> j < List.length g -> lower (name_of g i) = lower (name_of g j) -> i = j.
End Spec.

(** * Proofs. *)
Section P.
Context (matches : str -> str -> bool) (g : graph) (patterns : list str).
Definition asked (n : nat) : Prop := exists d, nth_error g n = Some d /\ is_a_file d = true /\ (patterns = [] \/ exists p, In p patterns /\ matches p (name d) = true).
(** [acc'] is [acc] with the nodes of [P], each once. *)
Definition grown (P : nat -> Prop) (acc acc' : list nat) : Prop := (NoDup acc -> NoDup acc') /\ forall n, In n acc' <-> In n acc \/ P n.

Lemma grown_trans P Q a b c : grown P a b -> grown Q b c -> grown (fun n => P n \/ Q n) a c.
Proof. intros [A B] [C D]. split; [auto|]. intros n. rewrite D, B. tauto. Qed.
Lemma grown_ext P Q a b : (forall n, P n <-> Q n) -> grown P a b -> grown Q a b.
Proof. intros E [A B]. split; [exact A|]. intros n. rewrite B, E. tauto. Qed.

Lemma picks d : (match patterns with [] => true | _ => existsb (fun p => matches p (name d)) patterns end) = true <-> (patterns = [] \/ exists p, In p patterns /\ matches p (name d) = true).
Proof.
  destruct patterns as [|q r]; [split; auto|]. rewrite existsb_exists. split; [intros H; now right|intros [H|H]; [discriminate|exact H]].
Qed.

Lemma filter_ok : forall ds acc, sound g ds -> exists acc', filter_files matches g patterns acc ds = Some acc' /\ grown (fun n => In (n, false) ds /\ asked n) acc acc'.
Proof.
  induction ds as [|(n, w) r IH]; intros acc S0.
  - exists acc. split; [reflexivity|]. split; [auto|]. intros n. cbn. tauto.
  - assert (Sr : sound g r) by (intros m w' I; apply (S0 m w'); now right). cbn [filter_files]. destruct w.
    + destruct (IH acc Sr) as (a&E&G). exists a. split; [exact E|]. eapply grown_ext; [|exact G]. intros m. cbn. split; [intros (A&B); auto|intros ([A|A]&B); [discriminate|auto]].
    + destruct (nth_error g n) as [d|] eqn:E; [|apply nth_error_None in E; specialize (S0 n false (or_introl eq_refl)); lia].
      assert (Skip : forall a', (asked n -> In n acc) -> grown (fun m => In (m, false) r /\ asked m) acc a' -> grown (fun m => In (m, false) ((n, false) :: r) /\ asked m) acc a').
      { intros a' H [A B]. split; [exact A|]. intros m. rewrite B. cbn. split; [tauto|]. intros [I|([I|I]&Q)]; [now left| |now right]. injection I as <-. left. auto. }
      destruct (is_a_file d) eqn:F; cbn [negb].
      * destruct (existsb (Nat.eqb n) acc) eqn:X.
        -- destruct (IH acc Sr) as (a&Ea&G). exists a. split; [exact Ea|]. apply Skip; [|exact G]. intros _. apply existsb_exists in X as (m&I&Q). apply Nat.eqb_eq in Q. now subst.
        -- assert (Nn : ~ In n acc) by (intros I; assert (existsb (Nat.eqb n) acc = true) by (apply existsb_exists; exists n; split; [exact I|apply Nat.eqb_refl]); congruence).
           destruct (match patterns with [] => true | _ => existsb (fun p => matches p (name d)) patterns end) eqn:P.
           ++ apply picks in P. destruct (IH (acc ++ [n]) Sr) as (a&Ea&A&B). exists a. split; [exact Ea|]. split.
              ** intros Nd. apply A. apply (Permutation_NoDup (Permutation_cons_append acc n)). now constructor.
              ** intros m. rewrite B, in_app_iff. cbn. split.
                 --- intros [[I|[<-|[]]]|(I&Q)]; [now left| |right; auto]. right. split; [now left|]. exists d. auto.
                 --- intros [I|([I|I]&Q)]; [auto| |auto]. injection I as <-. auto.
           ++ destruct (IH acc Sr) as (a&Ea&G). exists a. split; [exact Ea|]. apply Skip; [|exact G]. intros (d'&E'&_&Q). rewrite E in E'. injection E' as <-. apply picks in Q. congruence.
      * destruct (IH acc Sr) as (a&Ea&G). exists a. split; [exact Ea|]. apply Skip; [|exact G]. intros (d'&E'&Q&_). rewrite E in E'. injection E' as <-. congruence.
Qed.

Context (S0 : sound_graph g).
Definition second (ds : list dep) (n : nat) : Prop := exists o od, In (o, false) ds /\ nth_error g o = Some od /\ uses od n /\ asked n.
Lemma each_ok : forall ds acc, sound g ds -> exists acc', each_dep matches g patterns acc ds = Some acc' /\ grown (second ds) acc acc'.
Proof.
  induction ds as [|(o, w) r IH]; intros acc Sd.
  - exists acc. split; [reflexivity|]. split; [auto|]. intros n. split; [auto|]. intros [I|(o&od&[]&_)]. exact I.
  - assert (Sr : sound g r) by (intros m w' I; apply (Sd m w'); now right). cbn [each_dep]. destruct w.
    + destruct (IH acc Sr) as (a&E&G). exists a. split; [exact E|]. eapply grown_ext; [|exact G]. intros n. split; intros (x&xd&I&R); exists x, xd; (split; [|exact R]); [now right|destruct I as [I|I]; [discriminate|exact I]].
    + destruct (nth_error g o) as [od|] eqn:E; [|apply nth_error_None in E; specialize (Sd o false (or_introl eq_refl)); lia].
      destruct (S0 od (nth_error_In _ _ E)) as [S1 S2].
      destruct (filter_ok (static od) acc S1) as (a1&E1&G1). destruct (filter_ok (dynamic od) a1 S2) as (a2&E2&G2). destruct (IH a2 Sr) as (a3&E3&G3).
      exists a3. rewrite E1, E2. split; [exact E3|]. eapply grown_ext; [|exact (grown_trans _ _ _ _ _ (grown_trans _ _ _ _ _ G1 G2) G3)]. intros n. unfold second, uses. split.
      * intros [[(I&Q)|(I&Q)]|(x&xd&I&R)]; [exists o, od|exists o, od|exists x, xd]; (split; [first [now left|now right]|]); auto; (split; [exact E|]); (split; [|exact Q]); apply in_or_app; auto.
      * intros (x&xd&[I|I]&Ex&U&Q); [|right; exists x, xd; auto]. injection I as <-. rewrite E in Ex. injection Ex as <-. apply in_app_or in U as [U|U]; left; auto.
Qed.
Definition third (ds : list dep) (n : nat) : Prop := exists s sd, In (s, false) ds /\ nth_error g s = Some sd /\ second (static sd ++ dynamic sd) n.
Lemma collect_ok : forall ds acc, sound g ds -> exists acc', collect matches g patterns acc ds = Some acc' /\ grown (third ds) acc acc'.
Proof.
  induction ds as [|(o, w) r IH]; intros acc Sd.
  - exists acc. split; [reflexivity|]. split; [auto|]. intros n. split; [auto|]. intros [I|(o&od&[]&_)]. exact I.
  - assert (Sr : sound g r) by (intros m w' I; apply (Sd m w'); now right). cbn [collect]. destruct w.
    + destruct (IH acc Sr) as (a&E&G). exists a. split; [exact E|]. eapply grown_ext; [|exact G]. intros n. split; intros (x&xd&I&R); exists x, xd; (split; [|exact R]); [now right|destruct I as [I|I]; [discriminate|exact I]].
    + destruct (nth_error g o) as [od|] eqn:E; [|apply nth_error_None in E; specialize (Sd o false (or_introl eq_refl)); lia].
      destruct (S0 od (nth_error_In _ _ E)) as [S1 S2].
      destruct (each_ok (static od) acc S1) as (a1&E1&G1). destruct (each_ok (dynamic od) a1 S2) as (a2&E2&G2). destruct (IH a2 Sr) as (a3&E3&G3).
      exists a3. rewrite E1, E2. split; [exact E3|]. eapply grown_ext; [|exact (grown_trans _ _ _ _ _ (grown_trans _ _ _ _ _ G1 G2) G3)]. intros n. unfold third. split.
      * intros [[(x&xd&I&R)|(x&xd&I&R)]|(x&xd&I&R)]; [exists o, od|exists o, od|exists x, xd]; (split; [first [now left|now right]|]); auto; (split; [exact E|]); exists x, xd; (split; [apply in_or_app; auto|exact R]).
      * intros (x&xd&[I|I]&Ex&Q); [|right; exists x, xd; auto]. injection I as <-. rewrite E in Ex. injection Ex as <-. destruct Q as (y&yd&U&R). apply in_app_or in U as [U|U]; left; [left|right]; exists y, yd; auto.
Qed.
Lemma third_wanted ds n : third ds n <-> wanted matches g patterns ds n.
Proof.
  unfold third, second, wanted, asked, uses. split.
  - intros (s&sd&I&Es&o&od&U&Eo&V&d&Ed&F&Q). exists s, sd, o, od, d. auto 10.
  - intros (s&sd&o&od&d&I&Es&U&Eo&V&Ed&F&Q). exists s, sd. split; [exact I|]. split; [exact Es|]. exists o, od. split; [exact U|]. split; [exact Eo|]. split; [exact V|]. exists d. auto.
Qed.
End P.

Lemma repeats_none : forall l prev, NoDup l -> (forall p, prev = Some p -> ~ In p l) -> without_repeats prev l = l.
Proof.
  induction l as [|s r IH]; intros prev N H; [reflexivity|]. inversion N as [|? ? N1 N2]; subst. cbn [without_repeats].
  assert (E : (match prev with Some p => teq p s | None => false end) = false).
  { destruct prev as [p|]; [|reflexivity]. destruct (teq p s) eqn:Q; [|reflexivity]. apply teq_eq in Q. subst. exfalso. apply (H s eq_refl). now left. }
  rewrite E. f_equal. apply IH; [exact N2|]. intros p Q. injection Q as <-. exact N1.
Qed.
Lemma earlier_weak w : strict_weak (earlier w).
Proof. destruct less_weak as [A B C]. destruct w; unfold earlier; split; eauto. Qed.

(** * Theorems. *)
(** The file has the name of every file wanted, and no other; each once; in order. *)
Theorem C102_lines : forall matches windows g patterns sources, sound_graph g -> sound g sources -> differ g ->
  exists l, lines matches windows g patterns sources = Some l /\
    (forall s, In s l <-> exists n, wanted matches g patterns sources n /\ name_of g n = s) /\ NoDup l /\ NoDup (map lower l) /\ S_Sort.ordered (earlier windows) l.
Proof.
  intros matches windows g patterns sources S0 Ss D. destruct (collect_ok matches g patterns S0 sources [] Ss) as (ns&E&Nd&In0). specialize (Nd (NoDup_nil _)).
  assert (W : forall n, In n ns <-> wanted matches g patterns sources n) by (intros n; rewrite In0, third_wanted; cbn; tauto).
  assert (Lt : forall n, In n ns -> n < List.length g) by (intros n I; apply W in I as (s&sd&o&od&d&_&_&_&_&_&Ed&_); apply nth_error_Some; congruence).
  destruct (shell_sort_spec (earlier windows) (map (name_of g) ns)) as (l&El&P&O).
  assert (NL : NoDup (map lower (map (name_of g) ns))).
  { clear - Nd Lt D. induction Nd as [|n r N1 N2 IH]; [constructor|]. cbn [map]. constructor; [|apply IH; intros m I; apply Lt; now right].
    intros I. apply in_map_iff in I as (x&E&I). apply in_map_iff in I as (m&<-&I). apply D in E; [|apply Lt; now right|apply Lt; now left]. subst. contradiction. }
  assert (NL' : NoDup (map lower l)) by (apply (Permutation_NoDup (Permutation_map lower P)); exact NL).
  assert (N : NoDup l) by (apply NoDup_map_inv in NL'; exact NL').
  exists l. unfold lines. rewrite E, El. rewrite repeats_none by (exact N || discriminate). split; [reflexivity|]. split; [|split; [exact N|split; [exact NL'|exact (O (earlier_weak windows))]]].
  intros s. split.
  - intros I. apply (Permutation_in _ (Permutation_sym P)), in_map_iff in I as (n&<-&I). exists n. split; [now apply W|reflexivity].
  - intros (n&I&<-). apply (Permutation_in _ P), in_map. now apply W.
Qed.
Print Assumptions C102_lines.

(** The text can be read back: names have no ends of lines. *)
Definition plain (s : str) : Prop := ~ In "010"%char s /\ ~ In "013"%char s.
Lemma first_line : forall a b x y (c : ascii), ~ In c a -> ~ In c b -> a ++ c :: x = b ++ c :: y -> a = b /\ x = y.
Proof.
  induction a as [|p a IH]; intros [|q b] x y c A B E; cbn in E.
  - injection E as ->. auto.
  - injection E as E _. exfalso. apply B. left. now symmetry.
  - injection E as E _. exfalso. apply A. now left.
  - injection E as -> E. destruct (IH b x y c) as [-> ->]; auto; intros I; [apply A|apply B]; now right.
Qed.
Theorem C102_text : forall windows l l', Forall plain l -> Forall plain l' -> text windows l = text windows l' -> l = l'.
Proof.
  intros w l. induction l as [|s r IH]; intros [|s' r'] A B E; [reflexivity| | |].
  - exfalso. unfold text in E. cbn in E. destruct s', w; discriminate.
  - exfalso. unfold text in E. cbn in E. destruct s, w; discriminate.
  - inversion A as [|? ? [A1 A2] A3]; inversion B as [|? ? [B1 B2] B3]; subst. unfold text in *. cbn [flat_map] in E. rewrite <- !app_assoc in E. destruct w; cbn [app] in E.
    + destruct (first_line s s' _ _ "013"%char A2 B2 E) as [-> E']. injection E' as E'. f_equal. now apply IH.
    + destruct (first_line s s' _ _ "010"%char A1 B1 E) as [-> E']. f_equal. now apply IH.
Qed.
Print Assumptions C102_text.

(** As documented there is no descent: only the files behind two steps are listed; of an alias of a list of objects they are the objects, and of an object list the sources. *)
Definition ex : graph :=
  [Node (L "all") false [(1, false)] []; Node (L "objs") false [(3, true)] [(2, false); (5, false)]; Node (L "b.o") true [(3, false)] [(4, false)]; Node (L "b.cpp") true [] [];
   Node (L "a.h") true [] []; Node (L "c.o") true [(4, false)] [(0, false)]].
Theorem C102_no_descent : exists g n, sound_graph g /\ differ g /\ nth_error g 0 = Some (Node (L "all") false [(1, false)] []) /\
  wanted (fun _ _ => true) g [] [(1, false)] n /\ ~ wanted (fun _ _ => true) g [] [(0, false)] n.
Proof.
  exists ex, 3. split; [|split; [|split; [reflexivity|split]]].
  - intros d I. cbn in I. repeat (destruct I as [<-|I]; [split; intros n w J; cbn in J; repeat (destruct J as [J|J]; [injection J as <- <-; cbn; lia|]); destruct J|]). destruct I.
  - intros i j A B E. cbn [List.length ex] in A, B. do 6 (destruct i as [|i]; [do 6 (destruct j as [|j]; [first [reflexivity|vm_compute in E; discriminate]|]); lia|]). lia.
  - exists 1, (Node (L "objs") false [(3, true)] [(2, false); (5, false)]), 2, (Node (L "b.o") true [(3, false)] [(4, false)]), (Node (L "b.cpp") true [] []). cbn. unfold uses. cbn. tauto.
  - intros (s&sd&o&od&d&I&Es&U&Eo&V&_). destruct I as [I|[]]. injection I as <-. cbn in Es. injection Es as <-. destruct U as [U|[]]. injection U as <-. cbn in Eo. injection Eo as <-.
    unfold uses in V. cbn in V. destruct V as [V|[V|[V|[]]]]; discriminate.
Qed.
Print Assumptions C102_no_descent.
Example C102_case : lines (fun _ _ => true) true ex [] [(1, false)] = Some [L "a.h"; L "b.cpp"] /\ lines (fun p s => teq p s) false ex [L "b.cpp"] [(1, false)] = Some [L "b.cpp"] /\
  lines (fun _ _ => true) false ex [] [(0, false)] = Some [L "b.o"; L "c.o"].
Proof. vm_compute. repeat split. Qed.
