(** Proofs about the migration: nothing but source files is left unvisited; the final statement for a graph that
    did not change. *)
From Coq Require Import List Arith NArith Bool Ascii Lia.
From Verif Require Import M_Path M_Names M_Migrate S_Migrate P_Migrate P_Migrate2 P_Migrate3 P_Migrate4.
Import ListNotations.
Open Scope nat_scope.

Section S.
Context (R : str -> nat) (init : initialiser) (old : graph) (Hinit : prepares R old init) (L : nat).

Definition seen_or_file (s : mst) (j : nat) (n : node) : Prop := In j (snd s) \/ j < L \/ type n = file_type.
Definition rested (s : mst) : Prop := forall j n, nth_error (fst s) j = Some n -> seen_or_file s j n.
Definition rest_but (i : nat) (s : mst) : Prop := forall j n, nth_error (fst s) j = Some n -> j = i \/ seen_or_file s j n.
Definition resting (rec : mst -> nat -> option nat -> res mst) : Prop :=
  forall s i h s', rec s i h = Done s' -> rest_but i s -> rested s'.

Lemma rested_but : forall i s, rested s -> rest_but i s.
Proof. intros i s H j n Hn. right. now apply H. Qed.
Lemma each_rest : forall rec, resting rec -> forall ds s s', each rec ds s = Done s' -> rested s -> rested s'.
Proof.
  intros rec G. induction ds as [|d ds IH]; intros s s' H Q; [now injection H as <-|].
  cbn [each] in H. destruct (rec s (to d) None) as [s1| |] eqn:E; try discriminate H. cbn [bind] in H.
  apply (IH s1); [exact H|]. apply (G _ _ _ _ E). now apply rested_but.
Qed.
Lemma dynamics_rest : forall rec, resting rec -> forall ds s acc s' r,
  dynamics rec init old ds s acc = Done (s', r) -> rested s -> rested s'.
Proof.
  intros rec G. induction ds as [|d ds IH]; intros s acc s' r H Q; [now injection H as <- <-|].
  cbn [dynamics] in H. destruct (nth_error old (to d)) as [o|] eqn:Eo; [|discriminate].
  destruct s as [g v]. cbn [fst snd] in H. destruct (find_node g (name o)) as [j|] eqn:Ef.
  - destruct (nth_error g j) as [n|]; [|discriminate]. destruct (negb (N.eqb (type n) (type o))).
    + now injection H as <- <-.
    + apply IH in H; assumption.
  - destruct (N.eqb_spec (type o) file_type) as [Et|Et].
    + apply IH in H; [exact H|]. intros j n Hn. cbn [fst] in Hn.
      destruct (Nat.lt_ge_cases j (length g)) as [Lt|Ge].
      * rewrite nth_error_app1 in Hn by exact Lt. exact (Q j n Hn).
      * rewrite nth_error_app2 in Hn by exact Ge. destruct (j - length g) as [|[|k]]; try discriminate Hn.
        injection Hn as <-. right. right. exact Et.
    + destruct (copy_fields _ _) as [p|]; [|discriminate].
      match type of H with bind ?x _ = _ => destruct x as [s1| |] eqn:Er end; try discriminate H. cbn [bind] in H.
      apply IH in H; [exact H|]. apply (G _ _ _ _ Er). intros j n Hn. cbn [fst] in Hn.
      destruct Hinit as [Po Pn Pa Pr].
      assert (Fo : from_old old (created o p)) by (exists (to d), o; repeat split; auto).
      destruct (Nat.lt_trichotomy j (length g)) as [Lt|[->|Gt]]; [|now left|].
      * right. destruct (nth_error g j) as [m|] eqn:Em; [|apply nth_error_None in Em; lia].
        rewrite (Po g _ j m Fo Em) in Hn. injection Hn as <-. exact (Q j m Em).
      * right. right. right. now apply (Pa g _ j n Fo Hn).
Qed.
Lemma set_rest : forall g v i n n', nth_error g i = Some n -> type n' = type n -> rested (g, v) -> rested (set_nth i n' g, v).
Proof.
  intros g v i n n' Hn Nt Q j m Hm. cbn [fst] in Hm. destruct (Nat.eq_dec j i) as [->|Ne].
  - rewrite set_nth_same in Hm by (now apply nth_lt in Hn). injection Hm as <-. destruct (Q i n Hn) as [A|[A|A]]; unfold seen_or_file; rewrite ?Nt; auto.
  - rewrite set_nth_other in Hm by exact Ne. exact (Q j m Hm).
Qed.
Lemma migrate_rest : forall f, resting (migrate_node f init old).
Proof.
  induction f as [|f G]; intros s i h s' H Q; [discriminate|]. cbn [migrate_node] in H.
  destruct (memb i (snd s)) eqn:Em.
  { injection H as <-. intros j n Hn. destruct (Q j n Hn) as [->|A]; [|exact A]. left. now apply memb_In. }
  destruct (nth_error (fst s) i) as [n|] eqn:En; [|discriminate]. cbv zeta in H.
  assert (G0 : rested (fst s, i :: snd s)).
  { intros j m Hm. cbn [fst] in Hm. destruct (Q j m Hm) as [->|[A|A]]; [left; now left|left; now right|now right]. }
  destruct (N.eqb (type n) file_type); [injection H as <-; exact G0|].
  destruct (each _ (pre n) _) as [s1| |] eqn:E1; try discriminate H. cbn [bind] in H. apply (each_rest _ G) in E1; [|exact G0].
  destruct (each _ (stat n) _) as [s2| |] eqn:E2; try discriminate H. cbn [bind] in H. apply (each_rest _ G) in E2; [|exact E1].
  destruct (match h with Some h => Some h | None => find_node old (name n) end) as [h'|]; [|injection H as <-; exact E2].
  destruct (nth_error old h') as [o|]; [|discriminate]. destruct (nth_error (fst s2) i) as [n2|] eqn:En2; [|discriminate].
  destruct (negb (N.eqb (type o) (type n2))); [injection H as <-; exact E2|].
  destruct (negb (fields_same (props o) (props n2))); [injection H as <-; exact E2|].
  destruct (negb (deps_match old (fst s2) (pre o) (pre n2))); [injection H as <-; exact E2|].
  destruct (negb (deps_match old (fst s2) (stat o) (stat n2))); [injection H as <-; exact E2|].
  destruct (dynamics _ _ _ _ _ _) as [[s4 r]| |] eqn:E4; try discriminate H. cbn [bind fst snd] in H.
  apply (dynamics_rest _ G) in E4; [|destruct s2 as [g2 v2]; now apply (set_rest g2 v2 i n2)].
  destruct r as [ds|]; [|injection H as <-; exact E4].
  destruct (nth_error (fst s4) i) as [n4|] eqn:En4; [|discriminate]. injection H as <-.
  destruct s4 as [g4 v4]. now apply (set_rest g4 v4 i n4).
Qed.
Lemma migrate_all_rest : forall f is s s', migrate_all f init old is s = Done s' -> rested s -> rested s'.
Proof.
  intros f. induction is as [|i is IH]; intros s s' H Q; [now injection H as <-|].
  cbn [migrate_all] in H. destruct (migrate_node f init old s i None) as [s1| |] eqn:E; try discriminate H. cbn [bind] in H.
  apply (IH s1); [exact H|]. apply (migrate_rest f _ _ _ _ E). now apply rested_but.
Qed.
End S.

Section U.
Context (R : str -> nat) (HR : caseless R) (init : initialiser) (old : graph).
Context (Hinit : prepares R old init) (Hod : ordered_dyn R old).
Context (Hu : unique old) (Hb : files_bare old) (Hre : recreates old init).

Lemma migrate_unchanged : forall new, ordered R new -> (forall i n, nth_error new i = Some n -> fresh n) -> unchanged old new ->
  exists f g', (forall f', f <= f' -> migrate f' init old new = Done g') /\
    forall i n, nth_error g' i = Some n -> exists h o, nth_error old h = Some o /\ name n = name o /\ stamp n = stamp o /\
      (type n = file_type \/ carried old g' o n \/ (fresh n /\ fresh o)).
Proof.
  intros new O Fr U. destruct (migrate_ends R init old Hinit new) as (f & Hf). exists f.
  assert (I0 : Inv R old [] (new, [])).
  { constructor; cbn; auto; [intros x []|intros x []|]. intros i n Hn. left. exact (Fr i n Hn). }
  assert (F0 : Full old [] (new, [])) by (constructor; cbn; [exact U|intros i n []]).
  assert (B0 : forall i, In i (seq 0 (length new)) -> i < length (fst (new, @nil nat))) by (intros i Hi; apply in_seq in Hi; cbn; lia).
  assert (C := migrate_all_full R HR init old Hinit Hod Hu Hb Hre f (seq 0 (length new)) (new, []) I0 F0 B0).
  destruct (Hf f (le_n f)) as [N _]. unfold migrate in N.
  destruct (migrate_all f init old (seq 0 (length new)) (new, [])) as [[g' v']| |] eqn:E; cbn [bind] in N; [|destruct C|now destruct N].
  assert (Eg : migrate f init old new = Done g') by (unfold migrate; now rewrite E).
  exists g'. split. { intros f' L. now rewrite (proj2 (Hf f' L)). }
  destruct (migrate_all_good R HR init old Hinit Hod f (seq 0 (length new)) (new, []) (g', v') E I0 B0) as (I & X & V).
  assert (Q : rested (length new) (g', v')).
  { apply (migrate_all_rest R init old Hinit (length new) f _ _ _ E). intros j n Hn. right. left. now apply nth_lt in Hn. }
  intros i n Hn.
  assert (Vi : In i v' \/ type n = file_type).
  { destruct (Q i n Hn) as [A|[A|A]]; [now left| |now right]. left. apply V. apply in_seq. lia. }
  destruct (f_unch _ _ _ C i n Hn) as (h & o & Ho & D1 & D2 & _).
  destruct (i_node _ _ _ _ I i n Hn) as [Fn|(Hv & _ & _ & h2 & o2 & Ho2 & C2)].
  - destruct Vi as [Vi|Et].
    + destruct (f_done _ _ _ C i n Vi (fun x => x) Hn) as (h3 & o3 & Ho3 & E3 & E4 & E5).
      exists h3, o3. split; [exact Ho3|]. split; [exact E3|]. split; [exact E4|].
      destruct E5 as [E5|E5]; [now left|]. right. right. split; [exact Fn|]. destruct Fn as [Fs Fd]. split; [congruence|].
      rewrite Fd in E5. now destruct (dyn o3).
    + exists h, o. split; [exact Ho|]. split; [exact D1|]. split; [|now left].
      destruct Fn as [-> _]. rewrite D2 in Et. now destruct (Hb _ _ Ho Et) as (-> & _).
  - assert (o2 = o).
    { pose proof (c_name _ _ _ _ C2) as Q2. apply equals_i_sym in Q2. rewrite D1 in Q2.
      destruct (the_old old Hu h2 h o2 o (name o) Ho2 Ho Q2 eq_refl) as [-> _]. reflexivity. }
    subst o2. exists h, o. split; [exact Ho|]. split; [exact D1|]. split; [now apply (c_stamp _ _ _ _ C2)|]. right. now left.
Qed.
End U.
